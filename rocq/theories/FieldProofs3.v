From Verif Require Import Num Res ListLib Arr FieldModel ScalarFieldModel VectorFieldModel FieldSpec FieldProofs RotateProofs FieldProofs2 ScalarProofs.

(** ** API level lookups *)
Lemma get_indice_axis g d v k : d = 1%Z \/ d = 2%Z -> get_indice_on_axe g d v k = indice_on_axis (axis_of g d) v k.
Proof. intros [-> | ->]; reflexivity. Qed.
Lemma lookup_bounds g d v : grid_sorted g -> d = 1%Z \/ d = 2%Z -> axis_of g d <> [] ->
  let axe := axis_of g d in
  (get_indice_on_axe g d v KBounds = Err ValueErr <-> (v < nths axe 0)%num \/ (last axe (qz 0) < v)%num) /\
  ((nths axe 0 <= v)%num -> (v <= last axe (qz 0))%num ->
   exists i j, get_indice_on_axe g d v KBounds = Ok (IPair i j) /\ i < length axe /\ j < length axe /\
     (nths axe i <= v)%num /\ (v <= nths axe j)%num /\
     (i = j <-> In v axe) /\ (i <> j -> j = i + 1)).
Proof.
  intros [HX HY] D N. cbv zeta. rewrite get_indice_axis by exact D. apply bounds_lemma; [|exact N].
  unfold axis_of. destruct (d =? 1)%Z; assumption.
Qed.
Lemma lookup_baddir g d v k : d <> 1%Z -> d <> 2%Z -> get_indice_on_axe g d v k = Err ValueErr.
Proof.
  intros H1 H2. unfold get_indice_on_axe. apply Z.eqb_neq in H1, H2. rewrite H1, H2. reflexivity.
Qed.
Lemma lookup_nearest g d v : grid_sorted g -> d = 1%Z \/ d = 2%Z -> axis_of g d <> [] ->
  let axe := axis_of g d in
  (nths axe 0 <= v)%num -> (v <= last axe (qz 0))%num ->
  exists i, get_indice_on_axe g d v KNearest = Ok (IInd i) /\ i < length axe /\
    (forall k, k < length axe -> (qabs (nths axe i - v) <= qabs (nths axe k - v))%num) /\
    (forall k, k < length axe -> qabs (nths axe k - v)%num = qabs (nths axe i - v)%num -> k <= i).
Proof.
  intros [HX HY] D N. cbv zeta. intros B1 B2. rewrite get_indice_axis by exact D. apply nearest_lemma; auto.
  unfold axis_of. destruct (d =? 1)%Z; assumption.
Qed.
Lemma lookup_decimal g d v : grid_sorted g -> d = 1%Z \/ d = 2%Z -> axis_of g d <> [] ->
  let axe := axis_of g d in
  (nths axe 0 <= v)%num -> (v <= last axe (qz 0))%num ->
  (exists i, get_indice_on_axe g d v KDecimal = Ok (IInd i) /\ i < length axe /\ nths axe i = v) \/
  (exists i r, get_indice_on_axe g d v KDecimal = Ok (IDec r) /\ S i < length axe /\
     (qn i < r)%num /\ (r < qn (S i))%num /\
     (nths axe i + (r - qn i) * (nths axe (S i) - nths axe i))%num = v).
Proof.
  intros [HX HY] D N. cbv zeta. intros B1 B2. rewrite get_indice_axis by exact D. apply decimal_lemma; auto.
  unfold axis_of. destruct (d =? 1)%Z; assumption.
Qed.

(** ** Crop: the errors of VectorField.crop *)
Lemma vf_crop_errors f ivx ivy :
  vf_wf f -> grid_sorted (vg f) -> ax (vg f) <> [] -> ay (vg f) <> [] ->
  ((~ iv_ok (ax (vg f)) ivx \/ ~ iv_ok (ay (vg f)) ivy) <-> vf_crop f ivx ivy = Err ValueErr).
Proof.
  intros W S Nx Ny. pose proof W as ([R0 R1] & [T0 T1] & [M0 M1]).
  set (s := mksf (vg f) (cx f) (vmsk f) (vuv f)).
  destruct (sf_crop_lemma s ivx ivy) as [E _]; auto; [repeat split; assumption|].
  cbn [sg s] in E. rewrite E. unfold sf_crop, vf_crop, s. cbn [sg].
  destruct (grid_crop (vg f) ivx ivy) as [[w g]|e]; cbn [bind]; split; intro H; try discriminate; injection H as ->; reflexivity.
Qed.

(** ** Rotation by k quarter turns *)
Lemma mul90 k : ((90 * k) mod 90 = 0)%Z.
Proof. rewrite Z.mul_comm. apply Z_mod_mult. Qed.
Lemma sf_rotate_k f k :
  sf_wf f -> grid_sorted (sg f) -> 2 <= length (ax (sg f)) -> 2 <= length (ay (sg f)) ->
  exists f', sf_rotate f (90 * k) = Ok f' /\ sf_wf f' /\ grid_sorted (sg f') /\
    (forall x y v m, sf_shows f' (fst (turns k (x, y))) (snd (turns k (x, y))) v m <-> sf_shows f x y v m) /\
    (forall x' y' v m, sf_shows f' x' y' v m -> exists x y, turns k (x, y) = (x', y')) /\
    ux (sg f') = (if Z.even k then ux (sg f) else uy (sg f)) /\
    uy (sg f') = (if Z.even k then uy (sg f) else ux (sg f)) /\
    uv f' = uv f.
Proof.
  intros W S LX LY. destruct (sf_rotate_lemma f (90 * k) W S LX LY (mul90 k)) as (f1 & E1 & W1 & S1 & LX1 & LY1 & H1 & A1 & B1 & C1).
  rewrite quarter_90 in *. exists f1. unfold turns.
  assert (Ev : Nat.even (Z.to_nat (k mod 4)) = Z.even k).
  { assert (0 <= k mod 4 < 4)%Z as B by (apply Z.mod_pos_bound; lia).
    rewrite (Z.div_mod k 4) at 2 by lia. rewrite Z.even_add, Z.even_mul. change (Z.even 4) with true. cbn [orb].
    assert (k mod 4 = 0 \/ k mod 4 = 1 \/ k mod 4 = 2 \/ k mod 4 = 3)%Z as [-> |[-> |[-> | ->]]] by lia; reflexivity. }
  rewrite Ev in *. repeat (split; [assumption|]). split; [|auto].
  intros x' y' v m _. destruct (turn_inv (Z.to_nat (k mod 4)) (x', y')) as ([x y] & T & _); [|eauto].
  assert (0 <= k mod 4 < 4)%Z as B by (apply Z.mod_pos_bound; lia). lia.
Qed.
Lemma oturn_add k l p : oturn k (oturn l p) = oturn (k + l) p.
Proof. induction k as [|k IH]; simpl; [reflexivity|]. now rewrite IH. Qed.
Lemma oturn_4 p : oturn 4 p = p.
Proof. destruct p as [[x|] [y|]]; simpl; unfold oturn1; simpl; now rewrite ?Qcopp_involutive. Qed.
Lemma oturn_mod n p : oturn (n mod 4) p = oturn n p.
Proof.
  rewrite (Nat.div_mod n 4) at 2 by lia. rewrite Nat.add_comm, <- oturn_add.
  assert (H : forall q, oturn (4 * q) p = p).
  { induction q as [|q IH]; [reflexivity|]. replace (4 * S q) with (4 + 4 * q) by lia. rewrite <- oturn_add, IH. apply oturn_4. }
  now rewrite H.
Qed.
Lemma oturn_inv k p : k < 4 -> exists q, oturn k q = p.
Proof.
  intro Hk. exists (oturn (4 - k) p). rewrite oturn_add. replace (k + (4 - k)) with 4 by lia. apply oturn_4.
Qed.
Lemma both_nan_turn k a b : both_nan a b <-> both_nan (fst (oturn k (a, b))) (snd (oturn k (a, b))).
Proof.
  induction k as [|k IH]; [reflexivity|]. rewrite IH. simpl. unfold both_nan, oturn1. destruct (oturn k (a, b)) as [c d]. simpl.
  destruct c, d; simpl; intuition congruence.
Qed.
Lemma vf_nan_shows f : vf_nan_ok f <-> forall x y vx vy m, vf_shows f x y vx vy m -> both_nan vx vy.
Proof.
  split.
  - intros H x y vx vy m (i & j & H1 & H2 & <- & <- & _). apply H; eapply nth_error_Some_lt; eauto.
  - intros H i j Hi Hj. apply (H (nths (ax (vg f)) i) (nths (ay (vg f)) j) _ _ (at_ (vmsk f) i j)).
    exists i, j. rewrite !nths_nth_error by assumption. auto.
Qed.
Lemma vf_rotate_nan f angle f' : 
  vf_wf f -> vf_nan_ok f -> grid_sorted (vg f) -> 2 <= length (ax (vg f)) -> 2 <= length (ay (vg f)) ->
  (angle mod 90 = 0)%Z -> vf_rotate f angle = Ok f' -> vf_nan_ok f'.
Proof.
  intros W N S LX LY A E.
  destruct (vf_rotate_lemma f angle W N S LX LY A) as (f1 & E1 & W1 & S1 & LX1 & LY1 & H1 & _).
  rewrite E in E1. injection E1 as <-. apply vf_nan_shows. intros x' y' vx' vy' m Hs.
  destruct (turn_inv (quarter angle) (x', y') (quarter_lt _)) as ([x y] & T & _).
  destruct (oturn_inv (quarter angle) (vx', vy') (quarter_lt _)) as ([vx vy] & V).
  pose proof (H1 x y vx vy m) as G. rewrite T, V in G. cbn [fst snd] in G. apply G in Hs.
  apply (proj1 (vf_nan_shows f) N) in Hs. apply (both_nan_turn (quarter angle)) in Hs. rewrite V in Hs. exact Hs.
Qed.
Lemma vf_rotate_compose f a b :
  vf_wf f -> vf_nan_ok f -> grid_sorted (vg f) -> 2 <= length (ax (vg f)) -> 2 <= length (ay (vg f)) ->
  (a mod 90 = 0)%Z -> (b mod 90 = 0)%Z ->
  exists f1 f2 f3, vf_rotate f a = Ok f1 /\ vf_rotate f1 b = Ok f2 /\ vf_rotate f (a + b) = Ok f3 /\ vf_same f2 f3.
Proof.
  intros W N S LX LY Ha Hb.
  destruct (vf_rotate_lemma f a W N S LX LY Ha) as (f1 & E1 & W1 & S1 & LX1 & LY1 & H1 & A1 & B1 & C1).
  pose proof (vf_rotate_nan f a f1 W N S LX LY Ha E1) as N1.
  destruct (vf_rotate_lemma f1 b W1 N1 S1 LX1 LY1 Hb) as (f2 & E2 & W2 & S2 & LX2 & LY2 & H2 & A2 & B2 & C2).
  assert (Hab : ((a + b) mod 90 = 0)%Z) by (rewrite Z.add_mod, Ha, Hb by lia; reflexivity).
  destruct (vf_rotate_lemma f (a + b) W N S LX LY Hab) as (f3 & E3 & W3 & S3 & LX3 & LY3 & H3 & A3 & B3 & C3).
  exists f1, f2, f3. repeat (split; [assumption|]).
  assert (NE : forall l : list num, 2 <= length l -> l <> []) by (intros l L ->; simpl in L; lia).
  pose proof (quarter_add a b Ha Hb) as Q.
  apply vf_shows_determines; auto.
  - rewrite A2, A3, Q, even_mod4, Nat.even_add, A1, B1. destruct (Nat.even (quarter b)), (Nat.even (quarter a)); reflexivity.
  - rewrite B2, B3, Q, even_mod4, Nat.even_add, A1, B1. destruct (Nat.even (quarter b)), (Nat.even (quarter a)); reflexivity.
  - congruence.
  - intros x y vx vy m.
    destruct (turn_inv (quarter (a + b)) (x, y) (quarter_lt _)) as ([x0 y0] & T & _).
    destruct (oturn_inv (quarter (a + b)) (vx, vy) (quarter_lt _)) as ([u0 w0] & V).
    pose proof (H3 x0 y0 u0 w0 m) as G3. rewrite T, V in G3. cbn [fst snd] in G3. rewrite G3.
    rewrite <- (H1 x0 y0 u0 w0 m).
    destruct (turn (quarter a) (x0, y0)) as [x1 y1] eqn:T1. destruct (oturn (quarter a) (u0, w0)) as [u1 w1] eqn:V1. cbn [fst snd].
    rewrite <- (H2 x1 y1 u1 w1 m).
    assert (turn (quarter b) (x1, y1) = (x, y)) as -> by (rewrite <- T1, turn_add, <- turn_mod, <- Q; exact T).
    assert (oturn (quarter b) (u1, w1) = (vx, vy)) as -> by (rewrite <- V1, oturn_add, <- oturn_mod, <- Q; exact V).
    reflexivity.
Qed.
Lemma vf_rotate_k f k :
  vf_wf f -> vf_nan_ok f -> grid_sorted (vg f) -> 2 <= length (ax (vg f)) -> 2 <= length (ay (vg f)) ->
  exists f', vf_rotate f (90 * k) = Ok f' /\ vf_wf f' /\ grid_sorted (vg f') /\
    (forall x y vx vy m,
       vf_shows f' (fst (turns k (x, y))) (snd (turns k (x, y))) (fst (oturns k (vx, vy))) (snd (oturns k (vx, vy))) m
       <-> vf_shows f x y vx vy m) /\
    (forall x' y' vx' vy' m, vf_shows f' x' y' vx' vy' m ->
       exists x y vx vy, turns k (x, y) = (x', y') /\ oturns k (vx, vy) = (vx', vy')) /\
    vuv f' = vuv f.
Proof.
  intros W N S LX LY. destruct (vf_rotate_lemma f (90 * k) W N S LX LY (mul90 k)) as (f1 & E1 & W1 & S1 & LX1 & LY1 & H1 & A1 & B1 & C1).
  rewrite quarter_90 in *. exists f1. unfold turns, oturns.
  repeat (split; [assumption|]). split; [|auto].
  assert (0 <= k mod 4 < 4)%Z as B by (apply Z.mod_pos_bound; lia).
  intros x' y' vx' vy' m _. destruct (turn_inv (Z.to_nat (k mod 4)) (x', y')) as ([x y] & T & _); [lia|].
  destruct (oturn_inv (Z.to_nat (k mod 4)) (vx', vy')) as ([vx vy] & V); [lia|]. exists x, y, vx, vy. auto.
Qed.
Lemma vf_rotate_err f angle : (angle mod 90 <> 0)%Z -> vf_rotate f angle = Err ValueErr.
Proof.
  intro H. unfold vf_rotate. assert ((angle mod 90 =? 0)%Z = false) as -> by (now apply Z.eqb_neq). reflexivity.
Qed.
Lemma vf_rotate_360 f : vf_wf f -> vf_nan_ok f -> grid_sorted (vg f) -> 2 <= length (ax (vg f)) -> 2 <= length (ay (vg f)) ->
  forall k, exists f', vf_rotate f (360 * k) = Ok f' /\ vf_same f' f.
Proof.
  intros W N S LX LY k.
  assert (H0 : ((360 * k) mod 90 = 0)%Z) by (replace (360 * k)%Z with ((4 * k) * 90)%Z by lia; apply Z_mod_mult).
  destruct (vf_rotate_lemma f (360 * k) W N S LX LY H0) as (f1 & E1 & W1 & S1 & LX1 & LY1 & H1 & A1 & B1 & C1).
  assert (Q : quarter (360 * k) = 0) by (unfold quarter; rewrite Z.mul_comm, Z_mod_mult; reflexivity).
  rewrite Q in *. exists f1. split; [exact E1|].
  assert (NE : forall l : list num, 2 <= length l -> l <> []) by (intros l L ->; simpl in L; lia).
  apply vf_shows_determines; auto.
Qed.

(** ** Units of the axes of a vector field *)
Lemma vf_change_unit_axis f new (a : axname) : a = AxX \/ a = AxY -> good_unit new ->
  let old := match a with AxX => ux (vg f) | _ => uy (vg f) end in
  (dim old = dim new -> exists f', vf_change_unit f a new = Ok f' /\ vuv f' = vuv f /\
     ux (vg f') = (match a with AxX => new | _ => ux (vg f) end) /\
     uy (vg f') = (match a with AxX => uy (vg f) | _ => new end) /\
     forall x' y' vx vy m, vf_shows f' x' y' vx vy m <->
        exists x y, vf_shows f x y vx vy m /\
          match a with
          | AxX => (x' * sc new)%num = (x * sc old)%num /\ y' = y
          | _ => x' = x /\ (y' * sc new)%num = (y * sc old)%num
          end) /\
  (dim old <> dim new -> vf_change_unit f a new = Err UnitErr).
Proof.
  intros Ha G. destruct Ha as [-> | ->]; cbv zeta.
  - destruct (conv_spec (ux (vg f)) new G) as [C1 C2]. split; intro D.
    + destruct (C1 D) as (k & E & K). unfold vf_change_unit, grid_change_unit. rewrite E. cbn [bind].
      eexists. split; [reflexivity|]. split; [reflexivity|]. split; [reflexivity|]. split; [reflexivity|].
      intros x' y' vx vy m. rewrite vf_shows_at. cbn [vg ax ay vmsk cx cy].
      rewrite <- (map_id (ay (vg f))). rewrite at_pos_map. split.
      * intros (x & y & E1 & E2 & H). exists x, y. rewrite vf_shows_at. split; [exact H|].
        split; [eapply phys_unique; eauto|exact E2].
      * intros (x & y & H & E1 & E2). exists x, y. rewrite vf_shows_at in H. split; [eapply phys_unique; eauto|]. split; [exact E2|exact H].
    + unfold vf_change_unit, grid_change_unit. rewrite (C2 D). reflexivity.
  - destruct (conv_spec (uy (vg f)) new G) as [C1 C2]. split; intro D.
    + destruct (C1 D) as (k & E & K). unfold vf_change_unit, grid_change_unit. rewrite E. cbn [bind].
      eexists. split; [reflexivity|]. split; [reflexivity|]. split; [reflexivity|]. split; [reflexivity|].
      intros x' y' vx vy m. rewrite vf_shows_at. cbn [vg ax ay vmsk cx cy].
      rewrite <- (map_id (ax (vg f))). rewrite at_pos_map. split.
      * intros (x & y & E1 & E2 & H). exists x, y. rewrite vf_shows_at. split; [exact H|].
        split; [exact E1|eapply phys_unique; eauto].
      * intros (x & y & H & E1 & E2). exists x, y. rewrite vf_shows_at in H. split; [exact E1|]. split; [eapply phys_unique; eauto|exact H].
    + unfold vf_change_unit, grid_change_unit. rewrite (C2 D). reflexivity.
Qed.
Lemma sf_change_unit_back_y f new f1 : good_unit new -> good_unit (uy (sg f)) ->
  sf_change_unit f AxY new = Ok f1 -> sf_change_unit f1 AxY (uy (sg f)) = Ok f.
Proof.
  intros G G' H. unfold sf_change_unit, grid_change_unit, conv in *. cbn [bind] in *.
  destruct (dim_eqb (dim (uy (sg f))) (dim new)) eqn:E; [|discriminate]. cbn [bind] in H. injection H as <-.
  cbn [sg ux ax ay uy raw msk uv]. apply dim_eqb_eq in E. rewrite E.
  assert (dim_eqb (dim new) (dim new) = true) as -> by (now apply dim_eqb_eq). cbn [bind].
  rewrite map_map. destruct f as [[X Y u w] r m t]. cbn [sg ux ax ay uy raw msk uv] in *. f_equal. f_equal. f_equal.
  rewrite <- (map_id Y) at 2. apply map_ext. intro a. qfield. unfold good_unit in *. split; now apply qgt_neq.
Qed.
Lemma vf_change_unit_back_v f new f1 : good_unit new -> good_unit (vuv f) ->
  vf_change_unit f AxValues new = Ok f1 -> exists f2, vf_change_unit f1 AxValues (vuv f) = Ok f2 /\ vf_same f2 f.
Proof.
  intros G G' H. unfold vf_change_unit, conv in *.
  destruct (dim_eqb (dim (vuv f)) (dim new)) eqn:E; [|discriminate]. cbn [bind] in H. injection H as <-.
  apply dim_eqb_eq in E. rewrite E. cbn [vuv].
  assert (dim_eqb (dim new) (dim new) = true) as -> by (now apply dim_eqb_eq). cbn [bind].
  eexists. split; [reflexivity|].
  assert (Z : forall a, oscale (sc new / sc (vuv f)) (oscale (sc (vuv f) / sc new) a) = a).
  { intros [a|]; [|reflexivity]. simpl. f_equal. qfield. unfold good_unit in *. split; now apply qgt_neq. }
  repeat split; auto; cbn [vg cx cy amap at_]; intros i j _ _; apply Z.
Qed.

(** ** Extension *)
Lemma sf_extend_full f nl nr nu nd value :
  sf_wf f -> sf_clean f -> grid_sorted (sg f) -> 2 <= length (ax (sg f)) -> 2 <= length (ay (sg f)) ->
  exists f', sf_extend f nl nr nu nd value true = Ok f' /\ sf_wf f' /\ grid_sorted (sg f') /\
    axis_extends (ax (sg f)) (ax (sg f')) nl nr /\ axis_extends (ay (sg f)) (ay (sg f')) nd nu /\
    (forall x y v m, In x (ax (sg f)) -> In y (ay (sg f)) -> (sf_shows f' x y v m <-> sf_shows f x y v m)) /\
    (forall x y v m, sf_shows f' x y v m -> ~ (In x (ax (sg f)) /\ In y (ay (sg f))) ->
        match value with None => m = true /\ v = None | Some c => m = false /\ v = Some c end) /\
    ux (sg f') = ux (sg f) /\ uy (sg f') = uy (sg f) /\ uv f' = uv f.
Proof.
  intros W C S LX LY. pose proof S as [HX HY].
  destruct (sf_extend_lemma f nl nr nu nd value W C S LX LY) as (f' & E & W' & S' & H1 & H2 & [EX EY] & U).
  exists f'. repeat (split; [assumption|]).
  destruct (extend_axis_spec (ax (sg f)) nl nr HX LX) as (X' & EX' & PX). rewrite EX in EX'. injection EX' as <-.
  destruct (extend_axis_spec (ay (sg f)) nd nu HY LY) as (Y' & EY' & PY). rewrite EY in EY'. injection EY' as <-.
  split; [exact PX|]. split; [exact PY|]. split; [exact H1|]. split; [exact H2|exact U].
Qed.
Lemma vf_extend_full f nl nr nu nd :
  vf_wf f -> grid_sorted (vg f) -> 2 <= length (ax (vg f)) -> 2 <= length (ay (vg f)) ->
  exists f', vf_extend f nl nr nu nd = Ok f' /\ vf_wf f' /\ grid_sorted (vg f') /\
    axis_extends (ax (vg f)) (ax (vg f')) nl nr /\ axis_extends (ay (vg f)) (ay (vg f')) nd nu /\
    (forall x y vx vy m, In x (ax (vg f)) -> In y (ay (vg f)) -> (vf_shows f' x y vx vy m <-> vf_shows f x y vx vy m)) /\
    (forall x y vx vy m, vf_shows f' x y vx vy m -> ~ (In x (ax (vg f)) /\ In y (ay (vg f))) -> m = true) /\
    ux (vg f') = ux (vg f) /\ uy (vg f') = uy (vg f) /\ vuv f' = vuv f.
Proof.
  intros ([R0 R1] & [T0 T1] & [M0 M1]) [HX HY] LX LY.
  destruct (extend_axis_spec (ax (vg f)) nl nr HX LX) as (X' & EX & PX).
  destruct (extend_axis_spec (ay (vg f)) nd nu HY LY) as (Y' & EY & PY).
  unfold vf_extend, grid_extend. rewrite EX, EY. cbn [bind ax ay ux uy].
  pose proof PX as (LX' & SX' & _ & QX & _). pose proof PY as (LY' & SY' & _ & QY & _).
  eexists. split; [reflexivity|]. cbn [vg ax ay ux uy vuv].
  split; [repeat split; reflexivity|]. split; [split; assumption|]. split; [exact PX|]. split; [exact PY|].
  assert (InX : forall i x, nth_error X' i = Some x -> (In x (ax (vg f)) <-> nl <= i < nl + length (ax (vg f)))).
  { intros i x Hi. split.
    - intro K. apply In_nth_error in K. destruct K as [k K]. pose proof (nth_error_Some_lt _ _ _ K) as Lk.
      rewrite <- QX in K by exact Lk. pose proof (nth_error_Some_lt _ _ _ K). pose proof (nth_error_Some_lt _ _ _ Hi).
      apply nth_error_nths in K, Hi. rewrite <- Hi in K. apply increasing_inj in K; auto. lia.
    - intro K. replace i with (nl + (i - nl)) in Hi by lia. rewrite QX in Hi by lia. eapply nth_error_In; eauto. }
  assert (InY : forall i x, nth_error Y' i = Some x -> (In x (ay (vg f)) <-> nd <= i < nd + length (ay (vg f)))).
  { intros i x Hi. split.
    - intro K. apply In_nth_error in K. destruct K as [k K]. pose proof (nth_error_Some_lt _ _ _ K) as Lk.
      rewrite <- QY in K by exact Lk. pose proof (nth_error_Some_lt _ _ _ K). pose proof (nth_error_Some_lt _ _ _ Hi).
      apply nth_error_nths in K, Hi. rewrite <- Hi in K. apply increasing_inj in K; auto. lia.
    - intro K. replace i with (nd + (i - nd)) in Hi by lia. rewrite QY in Hi by lia. eapply nth_error_In; eauto. }
  assert (Blit : forall A (big small : arr A) i j, d0 small = length (ax (vg f)) -> d1 small = length (ay (vg f)) ->
    at_ (ablit big small nl nd) i j =
    if (Nat.leb nl i && Nat.ltb i (nl + length (ax (vg f))) && Nat.leb nd j && Nat.ltb j (nd + length (ay (vg f))))%bool
    then at_ small (i - nl) (j - nd) else at_ big i j).
  { intros A big small i j D0 D1. unfold ablit. cbn [at_]. rewrite D0, D1. reflexivity. }
  split; [|split; [|auto]].
  - intros x y vx vy m Ix Iy. unfold vf_shows. cbn [vg ax ay cx cy vmsk]. split.
    + intros (i & j & H1 & H2 & H3 & H4 & H5). rewrite !Blit in * by assumption.
      pose proof (proj1 (InX _ _ H1) Ix) as Bi. pose proof (proj1 (InY _ _ H2) Iy) as Bj.
      assert ((Nat.leb nl i && Nat.ltb i (nl + length (ax (vg f))) && Nat.leb nd j && Nat.ltb j (nd + length (ay (vg f))))%bool = true) as C
        by (rewrite !andb_true_iff, !Nat.leb_le, !Nat.ltb_lt; lia).
      rewrite C in *. replace i with (nl + (i - nl)) in H1 by lia. replace j with (nd + (j - nd)) in H2 by lia.
      rewrite QX in H1 by lia. rewrite QY in H2 by lia. exists (i - nl), (j - nd). auto.
    + intros (i & j & H1 & H2 & H3 & H4 & H5).
      pose proof (nth_error_Some_lt _ _ _ H1). pose proof (nth_error_Some_lt _ _ _ H2).
      exists (nl + i), (nd + j). rewrite !Blit by assumption.
      assert ((Nat.leb nl (nl + i) && Nat.ltb (nl + i) (nl + length (ax (vg f))) && Nat.leb nd (nd + j) && Nat.ltb (nd + j) (nd + length (ay (vg f))))%bool = true) as ->
        by (rewrite !andb_true_iff, !Nat.leb_le, !Nat.ltb_lt; lia).
      rewrite QX, QY by assumption. replace (nl + i - nl) with i by lia. replace (nd + j - nd) with j by lia. auto.
  - intros x y vx vy m (i & j & H1 & H2 & H3 & H4 & H5) N. cbn [vg ax ay cx cy vmsk] in *. rewrite Blit in H5 by assumption.
    rewrite (InX _ _ H1), (InY _ _ H2) in N.
    assert ((Nat.leb nl i && Nat.ltb i (nl + length (ax (vg f))) && Nat.leb nd j && Nat.ltb j (nd + length (ay (vg f))))%bool = false) as C.
    { apply not_true_iff_false. rewrite !andb_true_iff, !Nat.leb_le, !Nat.ltb_lt. lia. }
    rewrite C in H5. symmetry. exact H5.
Qed.

(** ** Import of a transposed array *)
Lemma atrans_atrans_shape {A} (a : arr A) n m : has_shape a n m -> has_shape (atrans a) m n.
Proof. intros [H1 H2]. split; simpl; assumption. Qed.
Lemma sf_import_transposed x y v m u w t : increasing x -> increasing y -> 2 <= length x -> 2 <= length y ->
  length x <> length y ->
  has_shape v (length y) (length x) ->
  match m with None => True | Some mm => has_shape mm (length y) (length x) end ->
  exists f, sf_import x y v m u w t = Ok f /\ grid_sorted (sg f) /\ sf_wf f /\
    forall px py a b, sf_shows f px py a b <-> given x y (atrans v) (option_map atrans m) px py a b.
Proof.
  intros Mx My Lx Ly Ne [V0 V1] Sm. unfold sf_import.
  assert (Nat.ltb (length y) 2 = false) as -> by (apply Nat.ltb_ge; exact Ly).
  assert (Nat.ltb (length x) 2 = false) as -> by (apply Nat.ltb_ge; exact Lx).
  rewrite andb_false_r. cbn [guard].
  rewrite V0, V1, !Nat.eqb_refl. assert (Nat.eqb (length x) (length y) = false) as -> by (now apply Nat.eqb_neq).
  cbn [andb negb].
  assert (NE : x <> [] /\ y <> []) by (split; intros ->; simpl in *; lia).
  rewrite !not_rev by tauto.
  eexists. split; [reflexivity|]. cbn [sg ax ay]. split; [split; assumption|].
  split. { destruct m as [mm|]; [destruct Sm|]; repeat split; simpl; congruence. }
  intros px py a b. unfold sf_shows, given. cbn [sg ax ay values msk raw at_ atrans amap2 amap].
  assert (EM : forall i j, orb (at_ (match m with None => afull (d0 v) (d1 v) false | Some a => a end) j i) (isnan (at_ v j i)) =
     orb (match option_map atrans m with None => false | Some mm => at_ mm i j end) (isnan (at_ v j i))).
  { intros i j. destruct m; reflexivity. }
  rewrite V0, V1 in EM.
  split; intros (i & j & H1 & H2 & H3 & H4); exists i, j; rewrite EM in *; repeat split; auto; cbn [at_ atrans] in *.
  - now rewrite <- H4.
  - now rewrite <- H3.
Qed.

(** ** C13 in terms of the API *)
Lemma history_lemma f ops : sf_wf f -> sf_clean f -> never_reveals f ops ->
  let f' := fold_left sstep ops f in
  forall i j, cell_in f' i j ->
    (at_ (values f') i j = None <-> at_ (msk f') i j = true) /\
    (at_ (msk f') i j = false -> at_ (values f') i j = at_ (last_assigned (values f) (sg f) ops) i j).
Proof.
  intros W C N. destruct (sinv_run ops f (values f)) as [_ H]; [|exact N|exact H].
  split; [exact W|]. intros i j [Hi Hj]. split; [|reflexivity].
  apply (C (nths (ax (sg f)) i) (nths (ay (sg f)) j)). exists i, j. rewrite !nths_nth_error by assumption. auto.
Qed.
(** ** C17 and C15 without model helpers in the hypotheses *)
Lemma soft_crop_api f : sf_wf f ->
  (exists i j, cell_in f i j /\ at_ (msk f) i j = true) ->
  (exists i j, 0 < i /\ cell_in f i j /\ at_ (msk f) i j = false) ->
  (exists i j, 0 < j /\ cell_in f i j /\ at_ (msk f) i j = false) ->
  exists f', crop_masked_border f false = Ok (Some f') /\ subgrid f f' /\ sf_wf f' /\
    (grid_sorted (sg f) -> forall x y v, sf_shows f x y v false -> sf_shows f' x y v false) /\
    (let n := length (ax (sg f')) in let m := length (ay (sg f')) in
     0 < n /\ 0 < m /\
     (exists j, j < m /\ at_ (msk f') 0 j = false) /\ (exists j, j < m /\ at_ (msk f') (n - 1) j = false) /\
     (exists i, i < n /\ at_ (msk f') i 0 = false) /\ (exists i, i < n /\ at_ (msk f') i (m - 1) = false)).
Proof.
  intros W (i & j & [H1 H2] & H3) (i' & j' & P & [Q1 Q2] & Q3) (i'' & j'' & P' & [R1 R2] & R3).
  apply soft_crop_lemma; [exact W| | |].
  - apply any_masked_iff. destruct W as [_ [M0 M1]]. exists i, j. rewrite M0, M1. auto.
  - exists i', j'. auto.
  - exists i'', j''. auto.
Qed.
Lemma two_common a b : increasing a -> (exists x1 x2, x1 <> x2 /\ In x1 a /\ In x2 a /\ In x1 b /\ In x2 b) ->
  2 <= length (filter (fun x => memq x b) a).
Proof.
  intros Ha (x1 & x2 & N & A1 & A2 & B1 & B2).
  assert (I1 : In x1 (filter (fun x => memq x b) a)) by (apply filter_In; split; [assumption|now apply memq_In]).
  assert (I2 : In x2 (filter (fun x => memq x b) a)) by (apply filter_In; split; [assumption|now apply memq_In]).
  destruct (filter (fun x => memq x b) a) as [|y [|z r]]; simpl in *; [tauto| |lia]. destruct I1, I2; try tauto. congruence.
Qed.
Lemma sf_add_diff_api f h : compatible f h -> good_unit (uv f) -> grid_sorted (sg f) -> grid_sorted (sg h) ->
  sf_clean f -> sf_clean h ->
  (ax (sg f) <> ax (sg h) \/ ay (sg f) <> ay (sg h)) ->
  (exists x1 x2, x1 <> x2 /\ In x1 (ax (sg f)) /\ In x2 (ax (sg f)) /\ In x1 (ax (sg h)) /\ In x2 (ax (sg h))) ->
  (exists y1 y2, y1 <> y2 /\ In y1 (ay (sg f)) /\ In y2 (ay (sg f)) /\ In y1 (ay (sg h)) /\ In y2 (ay (sg h))) ->
  exists s, sf_add f h = Ok s /\ uv s = uv f /\ ux (sg s) = ux (sg f) /\ uy (sg s) = uy (sg f) /\ sf_wf s /\ grid_sorted (sg s) /\
    (forall x, In x (ax (sg s)) <-> In x (ax (sg f)) /\ In x (ax (sg h))) /\
    (forall y, In y (ay (sg s)) <-> In y (ay (sg f)) /\ In y (ay (sg h))) /\
    (forall x y v m, sf_shows s x y v m <->
      exists v1 m1 v2 m2, sf_shows f x y v1 m1 /\ sf_shows h x y v2 m2 /\ m = orb m1 m2 /\
        osum_phys v (uv f) v1 (uv f) v2 (uv h)).
Proof.
  intros C G Sf Sh Kf Kh D X Y.
  destruct (sf_add_diff_lemma f h C G Sf Sh D) as (s & E & H1 & H2 & H3 & H4 & H5 & H6 & H7 & H8).
  - apply two_common; [apply Sf|exact X].
  - apply two_common; [apply Sf|exact Y].
  - exists s. repeat (split; [assumption|]). apply H8; assumption.
Qed.
