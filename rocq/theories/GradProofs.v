From Verif Require Import Num Res ListLib SortLib Arr FieldModel ScalarFieldModel VectorFieldModel ProfileModel FieldSpec FieldProofs FieldProofs2 GradModel GradSpec.

Lemma evenly_increasing l h : evenly l h -> increasing l.
Proof.
  intros (Hh & _ & He) i j Hij Hj. rewrite (He i), (He j) by lia.
  assert (qn i < qn j)%num by (unfold qn; apply qz_lt; lia).
  pose proof (qmul_lt_r _ _ _ Hh H). qlra.
Qed.
Lemma evenly_step l h : evenly l h -> step0 l = h.
Proof.
  intros (_ & Hl & He). unfold step0. rewrite (He 1) by lia. change (qn 1) with (qz 1). qring.
Qed.
Lemma ltb2 n : 2 <= n -> Nat.ltb n 2 = false.
Proof. intro. apply Nat.ltb_ge. lia. Qed.

Lemma shows_at f i j : i < length (ax (sg f)) -> j < length (ay (sg f)) ->
  sf_shows f (nths (ax (sg f)) i) (nths (ay (sg f)) j) (at_ (values f) i j) (at_ (msk f) i j).
Proof. intros Hi Hj. exists i, j. repeat split; now apply nths_nth_error. Qed.
Lemma vshows_at f i j : i < length (ax (vg f)) -> j < length (ay (vg f)) ->
  vf_shows f (nths (ax (vg f)) i) (nths (ay (vg f)) j) (at_ (cx f) i j) (at_ (cy f) i j) (at_ (vmsk f) i j).
Proof. intros Hi Hj. exists i, j. repeat split; now apply nths_nth_error. Qed.
Lemma sf_is_idx f G : sf_is f G <->
  (forall i j, i < length (ax (sg f)) -> j < length (ay (sg f)) ->
     at_ (values f) i j = Some (G (nths (ax (sg f)) i) (nths (ay (sg f)) j)) /\ at_ (msk f) i j = false).
Proof.
  split.
  - intros H i j Hi Hj. exact (H _ _ _ _ (shows_at f i j Hi Hj)).
  - intros H x y v m (i & j & Ei & Ej & <- & <-).
    pose proof (nth_error_Some_lt _ _ _ Ei). pose proof (nth_error_Some_lt _ _ _ Ej).
    rewrite <- (nth_error_nths _ _ _ Ei), <- (nth_error_nths _ _ _ Ej). now apply H.
Qed.
Lemma vf_is_idx f G H : vf_is f G H <->
  (forall i j, i < length (ax (vg f)) -> j < length (ay (vg f)) ->
     at_ (cx f) i j = Some (G (nths (ax (vg f)) i) (nths (ay (vg f)) j)) /\
     at_ (cy f) i j = Some (H (nths (ax (vg f)) i) (nths (ay (vg f)) j)) /\ at_ (vmsk f) i j = false).
Proof.
  split.
  - intros K i j Hi Hj. exact (K _ _ _ _ _ (vshows_at f i j Hi Hj)).
  - intros K x y vx vy m (i & j & Ei & Ej & <- & <- & <-).
    pose proof (nth_error_Some_lt _ _ _ Ei). pose proof (nth_error_Some_lt _ _ _ Ej).
    rewrite <- (nth_error_nths _ _ _ Ei), <- (nth_error_nths _ _ _ Ej). now apply K.
Qed.

(** the two points used at i *)
Lemma gpair_spec n i : 2 <= n -> i < n -> let (p, q) := gpair n i in
  p < n /\ q < n /\ p < q /\ (forall k, stencil n i k <-> k = p \/ k = q) /\
  ((i = 0 \/ S i = n) /\ q = S p \/ (0 < i /\ S i < n) /\ S p = i /\ q = S i).
Proof.
  intros Hn Hi. unfold gpair, stencil.
  destruct (Nat.eqb_spec i 0) as [->|N0].
  - repeat split; try lia; intros.
  - destruct (Nat.eqb_spec (S i) n) as [E|N1]; repeat split; try lia; intros.
Qed.
Lemma gstep_spec n i h : 2 <= n -> i < n -> gstep n i h = (qn (snd (gpair n i)) * h - qn (fst (gpair n i)) * h)%num.
Proof.
  intros Hn Hi. unfold gstep, gpair.
  destruct (Nat.eqb_spec i 0) as [->|N0]; cbn [orb fst snd].
  - change (qn 1) with (qz 1). change (qn 0) with (qz 0). qring.
  - destruct (Nat.eqb_spec (S i) n) as [E|N1]; cbn [orb fst snd].
    + replace (qn i) with (qn (i - 1) + 1)%num. { qring. }
      rewrite <- qn_S. f_equal. lia.
    + replace (qn (i + 1)) with (qn (i - 1) + 2)%num. { qring. }
      replace (i + 1) with (S (S (i - 1))) by lia. rewrite !qn_S. qring.
Qed.
Lemma gstep_pos n i h : (0 < h)%num -> (0 < gstep n i h)%num.
Proof. intro H. unfold gstep. destruct (_ || _)%bool; qlra. Qed.
Lemma gstep_axis l h i : evenly l h -> i < length l ->
  gstep (length l) i h = (nths l (snd (gpair (length l) i)) - nths l (fst (gpair (length l) i)))%num.
Proof.
  intros E Hi. destruct E as (Hh & Hl & He). rewrite gstep_spec by lia.
  pose proof (gpair_spec (length l) i Hl Hi). destruct (gpair (length l) i) as [p q]. cbn [fst snd].
  rewrite (He p), (He q) by tauto. qring.
Qed.

Lemma grad0_at a h i j p q u v : gpair (d0 a) i = (p, q) -> at_ a p j = Some u -> at_ a q j = Some v -> (0 < h)%num ->
  at_ (grad0 h a) i j = Some ((v - u) / gstep (d0 a) i h)%num.
Proof.
  intros E Hp Hq Hh. unfold grad0. cbn [at_ d0 d1]. rewrite E, Hp, Hq. unfold osub, lift2, odiv.
  destruct (qeqb_spec (gstep (d0 a) i h) 0%num) as [Z|Z]; [|reflexivity].
  exfalso. pose proof (gstep_pos (d0 a) i h Hh). rewrite Z in H. qlra.
Qed.
Lemma grad1_at a h i j p q u v : gpair (d1 a) j = (p, q) -> at_ a i p = Some u -> at_ a i q = Some v -> (0 < h)%num ->
  at_ (grad1 h a) i j = Some ((v - u) / gstep (d1 a) j h)%num.
Proof.
  intros E Hp Hq Hh. unfold grad1. cbn [at_ d0 d1]. rewrite E, Hp, Hq. unfold osub, lift2, odiv.
  destruct (qeqb_spec (gstep (d1 a) j h) 0%num) as [Z|Z]; [|reflexivity].
  exfalso. pose proof (gstep_pos (d1 a) j h Hh). rewrite Z in H. qlra.
Qed.

(** an array that holds a function of the positions: the difference quotient over the stencil *)
Lemma grad0_fun X Y a hx (G : num -> num -> num) : evenly X hx -> d0 a = length X -> d1 a = length Y ->
  (forall i j, i < length X -> j < length Y -> at_ a i j = Some (G (nths X i) (nths Y j))) ->
  forall i j, i < length X -> j < length Y -> exists p q, stencil (length X) i p /\ stencil (length X) i q /\ p < q /\
    ((0 < i /\ S i < length X) -> S p = i /\ q = S i) /\
    at_ (grad0 hx a) i j = Some ((G (nths X q) (nths Y j) - G (nths X p) (nths Y j)) / (nths X q - nths X p))%num.
Proof.
  intros E D0 D1 Ha i j Hi Hj. pose proof E as (Hh & Hl & _).
  pose proof (gpair_spec _ _ Hl Hi) as S. pose proof (gstep_axis X hx i E Hi) as Gs.
  destruct (gpair (length X) i) as [p q] eqn:Ep. cbn [fst snd] in Gs. destruct S as (S1 & S2 & S3 & S4 & S5).
  exists p, q. split; [apply S4; tauto|]. split; [apply S4; tauto|]. split; [exact S3|].
  split. { intros [A B]. destruct S5 as [[C _]|C]; [lia|tauto]. }
  rewrite (grad0_at a hx i j p q _ _ ltac:(rewrite D0; exact Ep) (Ha p j S1 Hj) (Ha q j S2 Hj) Hh).
  now rewrite D0, Gs.
Qed.
Lemma grad1_fun X Y a hy (G : num -> num -> num) : evenly Y hy -> d0 a = length X -> d1 a = length Y ->
  (forall i j, i < length X -> j < length Y -> at_ a i j = Some (G (nths X i) (nths Y j))) ->
  forall i j, i < length X -> j < length Y -> exists p q, stencil (length Y) j p /\ stencil (length Y) j q /\ p < q /\
    ((0 < j /\ S j < length Y) -> S p = j /\ q = S j) /\
    at_ (grad1 hy a) i j = Some ((G (nths X i) (nths Y q) - G (nths X i) (nths Y p)) / (nths Y q - nths Y p))%num.
Proof.
  intros E D0 D1 Ha i j Hi Hj. pose proof E as (Hh & Hl & _).
  pose proof (gpair_spec _ _ Hl Hj) as S. pose proof (gstep_axis Y hy j E Hj) as Gs.
  destruct (gpair (length Y) j) as [p q] eqn:Ep. cbn [fst snd] in Gs. destruct S as (S1 & S2 & S3 & S4 & S5).
  exists p, q. split; [apply S4; tauto|]. split; [apply S4; tauto|]. split; [exact S3|].
  split. { intros [A B]. destruct S5 as [[C _]|C]; [lia|tauto]. }
  rewrite (grad1_at a hy i j p q _ _ ltac:(rewrite D1; exact Ep) (Ha i p Hi S1) (Ha i q Hi S2) Hh).
  now rewrite D1, Gs.
Qed.
Lemma stencil_lt n i k : stencil n i k -> k < n.
Proof. now intros []. Qed.

(** masks *)
Lemma gmask0_spec h m i j : h <> 0%num -> 2 <= d0 m -> i < d0 m ->
  (at_ (gmask0 h m) i j = true <-> exists k, stencil (d0 m) i k /\ at_ m k j = true).
Proof.
  intros Hh Hn Hi. unfold gmask0. cbn [at_]. pose proof (gpair_spec _ _ Hn Hi) as S.
  destruct (gpair (d0 m) i) as [p q]. destruct S as (S1 & S2 & S3 & S4 & _).
  assert (qeqb h 0%num = false) as -> by (now apply qeqb_neq). rewrite orb_false_r, orb_true_iff. split.
  - intros [H|H]; [exists p|exists q]; (split; [apply S4; tauto|exact H]).
  - intros (k & Hk & Hm). apply S4 in Hk. destruct Hk as [-> | ->]; tauto.
Qed.
Lemma gmask1_spec h m i j : h <> 0%num -> 2 <= d1 m -> j < d1 m ->
  (at_ (gmask1 h m) i j = true <-> exists k, stencil (d1 m) j k /\ at_ m i k = true).
Proof.
  intros Hh Hn Hi. unfold gmask1. cbn [at_]. pose proof (gpair_spec _ _ Hn Hi) as S.
  destruct (gpair (d1 m) j) as [p q]. destruct S as (S1 & S2 & S3 & S4 & _).
  assert (qeqb h 0%num = false) as -> by (now apply qeqb_neq). rewrite orb_false_r, orb_true_iff. split.
  - intros [H|H]; [exists p|exists q]; (split; [apply S4; tauto|exact H]).
  - intros (k & Hk & Hm). apply S4 in Hk. destruct Hk as [-> | ->]; tauto.
Qed.
Lemma gmask_none X Y hx hy m : evenly X hx -> evenly Y hy -> d0 m = length X -> d1 m = length Y ->
  (forall i j, i < length X -> j < length Y -> at_ m i j = false) ->
  forall i j, i < length X -> j < length Y -> at_ (gmask hx hy m) i j = false.
Proof.
  intros (Hx & Lx & _) (Hy & Ly & _) D0 D1 Hm i j Hi Hj. unfold gmask. cbn [amap2 at_].
  apply orb_false_iff. split.
  - destruct (at_ (gmask0 hx m) i j) eqn:E; [|reflexivity]. apply gmask0_spec in E; [|apply qgt_neq; exact Hx|lia|lia].
    destruct E as (k & Sk & Ek). rewrite Hm in Ek; [discriminate|apply stencil_lt in Sk; lia|lia].
  - destruct (at_ (gmask1 hy m) i j) eqn:E; [|reflexivity]. apply gmask1_spec in E; [|apply qgt_neq; exact Hy|lia|lia].
    destruct E as (k & Sk & Ek). rewrite Hm in Ek; [discriminate|lia|apply stencil_lt in Sk; lia].
Qed.

(** the import of a gradient *)
Lemma import_gradient g v m u : increasing (ax g) -> increasing (ay g) -> 2 <= length (ax g) -> 2 <= length (ay g) ->
  has_shape v (length (ax g)) (length (ay g)) -> has_shape m (length (ax g)) (length (ay g)) ->
  exists f, sf_import (ax g) (ay g) v (Some m) (ux g) (uy g) u = Ok f /\ on_grid g f u /\
    (forall i j, at_ (values f) i j = (if (at_ m i j || isnan (at_ v i j))%bool then None else at_ v i j) /\
                 at_ (msk f) i j = (at_ m i j || isnan (at_ v i j))%bool).
Proof.
  intros HX HY LX LY [V0 V1] [M0 M1]. rewrite sf_import_plain by assumption.
  eexists. split; [reflexivity|]. split.
  - repeat split; try assumption. now destruct g.
  - intros i j. cbn. split; reflexivity.
Qed.

Lemma values_shape f : sf_wf f -> has_shape (values f) (length (ax (sg f))) (length (ay (sg f))).
Proof. intros [[A B] _]. now split. Qed.
Lemma gmask_shape hx hy m n k : has_shape m n k -> has_shape (gmask hx hy m) n k.
Proof. intros [A B]. now split. Qed.

(** ** get_gradients of a scalar field *)
Lemma sf_gradients_run f hx hy : sf_wf f -> evenly (ax (sg f)) hx -> evenly (ay (sg f)) hy ->
  exists gx gy, sf_gradients f = Ok (gx, gy) /\
    on_grid (sg f) gx (unit_div (uv f) (ux (sg f))) /\ on_grid (sg f) gy (unit_div (uv f) (uy (sg f))) /\
    forall i j,
      let m := at_ (gmask hx hy (msk f)) i j in
      let a := at_ (grad0 hx (values f)) i j in
      let b := at_ (grad1 hy (values f)) i j in
      at_ (values gx) i j = (if (m || isnan a)%bool then None else a) /\ at_ (msk gx) i j = (m || isnan a)%bool /\
      at_ (values gy) i j = (if (m || isnan b)%bool then None else b) /\ at_ (msk gy) i j = (m || isnan b)%bool.
Proof.
  intros W Ex Ey. unfold sf_gradients. pose proof Ex as (_ & Lx & _). pose proof Ey as (_ & Ly & _).
  rewrite !ltb2 by assumption. cbn [orb guard]. rewrite (evenly_step _ _ Ex), (evenly_step _ _ Ey).
  pose proof (evenly_increasing _ _ Ex) as Ix. pose proof (evenly_increasing _ _ Ey) as Iy.
  pose proof (values_shape f W) as Vs. destruct W as [_ Ms].
  destruct (import_gradient (sg f) (grad0 hx (values f)) (gmask hx hy (msk f)) (unit_div (uv f) (ux (sg f))) Ix Iy Lx Ly
              Vs (gmask_shape hx hy _ _ _ Ms)) as (gx & Egx & Ox & Px).
  destruct (import_gradient (sg f) (grad1 hy (values f)) (gmask hx hy (msk f)) (unit_div (uv f) (uy (sg f))) Ix Iy Lx Ly
              Vs (gmask_shape hx hy _ _ _ Ms)) as (gy & Egy & Oy & Py).
  rewrite Egx. cbn [bind]. rewrite Egy. cbn [bind]. exists gx, gy. split; [reflexivity|]. split; [exact Ox|]. split; [exact Oy|].
  intros i j. cbv zeta. destruct (Px i j), (Py i j). tauto.
Qed.

Lemma qsub_neq (a b : num) : (a < b)%num -> (b - a)%num <> 0%num.
Proof. intros H E. assert (b = a) by (replace b with (b - a + a)%num by qring; rewrite E; qring). subst. qlra. Qed.
Lemma slope_linear (a b c x x' y : num) : (x < x')%num ->
  ((a + b * x' + c * y - (a + b * x + c * y)) / (x' - x))%num = b.
Proof. intro H. pose proof (qsub_neq _ _ H). qfield. assumption. Qed.
Lemma slope_linear' (a b c x y y' : num) : (y < y')%num ->
  ((a + b * x + c * y' - (a + b * x + c * y)) / (y' - y))%num = c.
Proof. intro H. pose proof (qsub_neq _ _ H). qfield. assumption. Qed.

Definition lin (a b c : num) : num -> num -> num := fun x y => (a + b * x + c * y)%num.
Lemma grad0_lin X Y v hx a b c : evenly X hx -> d0 v = length X -> d1 v = length Y ->
  (forall i j, i < length X -> j < length Y -> at_ v i j = Some (lin a b c (nths X i) (nths Y j))) ->
  forall i j, i < length X -> j < length Y -> at_ (grad0 hx v) i j = Some b.
Proof.
  intros E D0 D1 Hv i j Hi Hj. destruct (grad0_fun X Y v hx _ E D0 D1 Hv i j Hi Hj) as (p & q & Sp & Sq & Lpq & _ & ->).
  f_equal. unfold lin. apply slope_linear. apply (evenly_increasing _ _ E); [exact Lpq|now apply stencil_lt in Sq].
Qed.
Lemma grad1_lin X Y v hy a b c : evenly Y hy -> d0 v = length X -> d1 v = length Y ->
  (forall i j, i < length X -> j < length Y -> at_ v i j = Some (lin a b c (nths X i) (nths Y j))) ->
  forall i j, i < length X -> j < length Y -> at_ (grad1 hy v) i j = Some c.
Proof.
  intros E D0 D1 Hv i j Hi Hj. destruct (grad1_fun X Y v hy _ E D0 D1 Hv i j Hi Hj) as (p & q & Sp & Sq & Lpq & _ & ->).
  f_equal. unfold lin. apply slope_linear'. apply (evenly_increasing _ _ E); [exact Lpq|now apply stencil_lt in Sq].
Qed.

Lemma sf_gradients_linear f hx hy a b c : sf_wf f -> evenly (ax (sg f)) hx -> evenly (ay (sg f)) hy ->
  sf_is f (fun x y => a + b * x + c * y)%num ->
  exists gx gy, sf_gradients f = Ok (gx, gy) /\
    on_grid (sg f) gx (unit_div (uv f) (ux (sg f))) /\ on_grid (sg f) gy (unit_div (uv f) (uy (sg f))) /\
    sf_is gx (fun _ _ => b) /\ sf_is gy (fun _ _ => c).
Proof.
  intros W Ex Ey F. destruct (sf_gradients_run f hx hy W Ex Ey) as (gx & gy & E & Ox & Oy & P).
  exists gx, gy. split; [exact E|]. split; [exact Ox|]. split; [exact Oy|].
  pose proof (proj1 (sf_is_idx f _) F) as F'; clear F; rename F' into F.
  pose proof (values_shape f W) as [V0 V1]. destruct W as [_ [M0 M1]].
  assert (forall i j, i < length (ax (sg f)) -> j < length (ay (sg f)) -> at_ (gmask hx hy (msk f)) i j = false) as Hm.
  { apply gmask_none; try assumption. intros. now apply F. }
  assert (forall i j, i < length (ax (sg f)) -> j < length (ay (sg f)) -> at_ (grad0 hx (values f)) i j = Some b) as G0.
  { apply (grad0_lin _ _ _ _ a b c); try assumption. intros. now apply F. }
  assert (forall i j, i < length (ax (sg f)) -> j < length (ay (sg f)) -> at_ (grad1 hy (values f)) i j = Some c) as G1.
  { apply (grad1_lin _ _ _ _ a b c); try assumption. intros. now apply F. }
  destruct Ox as (Sx & _), Oy as (Sy & _).
  split; apply sf_is_idx.
  - rewrite Sx. intros i j Hi Hj. specialize (P i j). cbv zeta in P. rewrite Hm, G0 in P by assumption. cbn in P. tauto.
  - rewrite Sy. intros i j Hi Hj. specialize (P i j). cbv zeta in P. rewrite Hm, G1 in P by assumption. cbn in P. tauto.
Qed.

(** ** quadratic fields, away from the ends *)
Lemma interior_pos l h i : evenly l h -> 0 < i -> S i < length l ->
  nths l (i - 1) = (nths l i - h)%num /\ nths l (S i) = (nths l i + h)%num.
Proof.
  intros (_ & _ & He) H0 H1. rewrite (He (i - 1)), (He (S i)), (He i) by lia.
  replace (qn i) with (qn (i - 1) + 1)%num by (rewrite <- qn_S; f_equal; lia). rewrite (qn_S i).
  replace (qn i) with (qn (i - 1) + 1)%num by (rewrite <- qn_S; f_equal; lia). split; qring.
Qed.
Lemma sf_gradients_quadratic f hx hy a b c d e k : sf_wf f -> evenly (ax (sg f)) hx -> evenly (ay (sg f)) hy ->
  sf_is f (fun x y => a + b * x + c * y + d * (x * x) + e * (x * y) + k * (y * y))%num ->
  exists gx gy, sf_gradients f = Ok (gx, gy) /\
    (forall i j, 0 < i -> S i < length (ax (sg f)) -> 0 < j -> S j < length (ay (sg f)) ->
       let x := nths (ax (sg f)) i in let y := nths (ay (sg f)) j in
       at_ (values gx) i j = Some (b + 2 * d * x + e * y)%num /\ at_ (msk gx) i j = false /\
       at_ (values gy) i j = Some (c + e * x + 2 * k * y)%num /\ at_ (msk gy) i j = false).
Proof.
  intros W Ex Ey F. destruct (sf_gradients_run f hx hy W Ex Ey) as (gx & gy & E & Ox & Oy & P).
  exists gx, gy. split; [exact E|]. intros i j I0 I1 J0 J1. cbv zeta.
  pose proof (proj1 (sf_is_idx f _) F) as F'; clear F; rename F' into F.
  pose proof (values_shape f W) as [V0 V1]. destruct W as [_ [M0 M1]].
  assert (at_ (gmask hx hy (msk f)) i j = false) as Hm.
  { apply (gmask_none (ax (sg f)) (ay (sg f))); try assumption; try lia. intros. now apply F. }
  destruct (grad0_fun (ax (sg f)) (ay (sg f)) (values f) hx _ Ex V0 V1 (fun i j Hi Hj => proj1 (F i j Hi Hj)) i j ltac:(lia) ltac:(lia))
    as (p & q & _ & _ & _ & Hpq & G0). destruct (Hpq (conj I0 I1)) as [Hp ->]. clear Hpq.
  destruct (grad1_fun (ax (sg f)) (ay (sg f)) (values f) hy _ Ey V0 V1 (fun i j Hi Hj => proj1 (F i j Hi Hj)) i j ltac:(lia) ltac:(lia))
    as (p' & q' & _ & _ & _ & Hpq' & G1). destruct (Hpq' (conj J0 J1)) as [Hp' ->]. clear Hpq'.
  replace p with (i - 1) in G0 by lia. replace p' with (j - 1) in G1 by lia. clear Hp Hp' p p'.
  destruct (interior_pos _ _ _ Ex I0 I1) as [X1 X2]. destruct (interior_pos _ _ _ Ey J0 J1) as [Y1 Y2].
  rewrite X1, X2 in G0. rewrite Y1, Y2 in G1.
  set (x := nths (ax (sg f)) i) in *. set (y := nths (ay (sg f)) j) in *.
  destruct Ex as (Hx & _), Ey as (Hy & _).
  assert (hx <> 0%num) by (apply qgt_neq; exact Hx). assert (hy <> 0%num) by (apply qgt_neq; exact Hy).
  specialize (P i j). cbv zeta in P. rewrite Hm, G0, G1 in P. cbn [orb isnan] in P. destruct P as (-> & -> & -> & ->).
  repeat split; f_equal.
  - assert ((x + hx - (x - hx))%num = (2 * hx)%num) as -> by qring. qfield. repeat split; try assumption; discriminate.
  - assert ((y + hy - (y - hy))%num = (2 * hy)%num) as -> by qring. qfield. repeat split; try assumption; discriminate.
Qed.

(** ** which cells of the gradients are masked *)
Lemma odiv_nan a h : h <> 0%num -> (odiv a (Some h) = None <-> a = None).
Proof.
  intro Hh. destruct a; cbn; [|tauto]. assert (qeqb h 0%num = false) as -> by (now apply qeqb_neq). split; discriminate.
Qed.
Lemma osub_nan a b : osub a b = None <-> a = None \/ b = None.
Proof. destruct a, b; cbn; split; intuition discriminate. Qed.
Lemma isnan_true a : isnan a = true <-> a = None.
Proof. destruct a; cbn; split; congruence. Qed.
Lemma gstep_nz n i h : (0 < h)%num -> gstep n i h <> 0%num.
Proof. intro. apply qgt_neq. now apply gstep_pos. Qed.

Lemma sf_clean_idx f : sf_clean f <-> (forall i j, i < length (ax (sg f)) -> j < length (ay (sg f)) ->
   (at_ (values f) i j = None <-> at_ (msk f) i j = true)).
Proof.
  split.
  - intros C i j Hi Hj. exact (C _ _ _ _ (shows_at f i j Hi Hj)).
  - intros C x y v m (i & j & Ei & Ej & <- & <-). apply C; [now apply nth_error_Some_lt in Ei|now apply nth_error_Some_lt in Ej].
Qed.

Lemma sf_gradients_mask f hx hy : sf_wf f -> sf_clean f -> evenly (ax (sg f)) hx -> evenly (ay (sg f)) hy ->
  exists gx gy, sf_gradients f = Ok (gx, gy) /\ sf_clean gx /\ sf_clean gy /\
    forall i j, i < length (ax (sg f)) -> j < length (ay (sg f)) ->
      at_ (msk gx) i j = at_ (msk gy) i j /\
      (at_ (msk gx) i j = true <->
        (exists k, stencil (length (ax (sg f))) i k /\ at_ (msk f) k j = true) \/
        (exists k, stencil (length (ay (sg f))) j k /\ at_ (msk f) i k = true)).
Proof.
  intros W C Ex Ey. destruct (sf_gradients_run f hx hy W Ex Ey) as (gx & gy & E & Ox & Oy & P).
  exists gx, gy. split; [exact E|].
  pose proof (values_shape f W) as [V0 V1]. destruct W as [_ [M0 M1]].
  pose proof Ex as (Hx & Lx & _). pose proof Ey as (Hy & Ly & _). rewrite sf_clean_idx in C.
  assert (forall i j, i < length (ax (sg f)) -> j < length (ay (sg f)) ->
     (at_ (gmask hx hy (msk f)) i j = true <->
        (exists k, stencil (length (ax (sg f))) i k /\ at_ (msk f) k j = true) \/
        (exists k, stencil (length (ay (sg f))) j k /\ at_ (msk f) i k = true))) as Hm.
  { intros i j Hi Hj. unfold gmask. cbn [amap2 at_]. rewrite orb_true_iff.
    rewrite gmask0_spec, gmask1_spec by (try (apply qgt_neq; assumption); lia). rewrite M0, M1. tauto. }
  assert (forall i j, i < length (ax (sg f)) -> j < length (ay (sg f)) ->
     (isnan (at_ (grad0 hx (values f)) i j) = true -> at_ (gmask hx hy (msk f)) i j = true) /\
     (isnan (at_ (grad1 hy (values f)) i j) = true -> at_ (gmask hx hy (msk f)) i j = true)) as Hn.
  { intros i j Hi Hj. split; intro N; apply isnan_true in N; apply (Hm i j Hi Hj).
    - left. unfold grad0 in N. cbn [at_] in N. rewrite V0 in N. pose proof (gpair_spec _ i Lx Hi) as S.
      destruct (gpair (length (ax (sg f))) i) as [p q]. destruct S as (S1 & S2 & _ & S4 & _).
      rewrite odiv_nan in N by (now apply gstep_nz). apply osub_nan in N.
      destruct N as [N|N]; apply C in N; try assumption; eexists; (split; [apply S4|exact N]); tauto.
    - right. unfold grad1 in N. cbn [at_] in N. rewrite V1 in N. pose proof (gpair_spec _ j Ly Hj) as S.
      destruct (gpair (length (ay (sg f))) j) as [p q]. destruct S as (S1 & S2 & _ & S4 & _).
      rewrite odiv_nan in N by (now apply gstep_nz). apply osub_nan in N.
      destruct N as [N|N]; apply C in N; try assumption; eexists; (split; [apply S4|exact N]); tauto. }
  destruct Ox as (Sx & _), Oy as (Sy & _).
  assert (forall i j, i < length (ax (sg f)) -> j < length (ay (sg f)) ->
    at_ (msk gx) i j = at_ (gmask hx hy (msk f)) i j /\ at_ (msk gy) i j = at_ (gmask hx hy (msk f)) i j) as Hg.
  { intros i j Hi Hj. destruct (Hn i j Hi Hj) as [N0 N1]. destruct (P i j) as (_ & -> & _ & ->).
    destruct (at_ (gmask hx hy (msk f)) i j); [tauto|]. cbn [orb].
    split; [destruct (isnan (at_ (grad0 hx (values f)) i j)) | destruct (isnan (at_ (grad1 hy (values f)) i j))]; try tauto;
      exfalso; [specialize (N0 eq_refl)|specialize (N1 eq_refl)]; discriminate. }
  split; [|split].
  - apply sf_clean_idx. rewrite Sx. intros i j Hi Hj. destruct (P i j) as (-> & -> & _).
    destruct (at_ (gmask hx hy (msk f)) i j); cbn [orb]; [tauto|]. destruct (at_ (grad0 hx (values f)) i j); cbn; split; congruence.
  - apply sf_clean_idx. rewrite Sy. intros i j Hi Hj. destruct (P i j) as (_ & _ & -> & ->).
    destruct (at_ (gmask hx hy (msk f)) i j); cbn [orb]; [tauto|]. destruct (at_ (grad1 hy (values f)) i j); cbn; split; congruence.
  - intros i j Hi Hj. destruct (Hg i j Hi Hj) as [-> ->]. split; [reflexivity|]. now apply Hm.
Qed.

(** ** get_gradients of a vector field *)
Lemma vf_gradients_run f hx hy : vf_wf f -> evenly (ax (vg f)) hx -> evenly (ay (vg f)) hy ->
  exists g1 g2 g3 g4, vf_gradients f = Ok (g1, g2, g3, g4) /\
    on_grid (vg f) g1 (unit_div (vuv f) (ux (vg f))) /\ on_grid (vg f) g2 (unit_div (vuv f) (uy (vg f))) /\
    on_grid (vg f) g3 (unit_div (vuv f) (ux (vg f))) /\ on_grid (vg f) g4 (unit_div (vuv f) (uy (vg f))) /\
    forall i j,
      let m := at_ (gmask hx hy (vmsk f)) i j in
      let shows g a := at_ (values g) i j = (if (m || isnan a)%bool then None else a) /\ at_ (msk g) i j = (m || isnan a)%bool in
      shows g1 (at_ (grad0 hx (cx f)) i j) /\ shows g2 (at_ (grad1 hy (cx f)) i j) /\
      shows g3 (at_ (grad0 hx (cy f)) i j) /\ shows g4 (at_ (grad1 hy (cy f)) i j).
Proof.
  intros (Xs & Ys & Ms) Ex Ey. unfold vf_gradients. pose proof Ex as (_ & Lx & _). pose proof Ey as (_ & Ly & _).
  rewrite !ltb2 by assumption. cbn [orb guard]. rewrite (evenly_step _ _ Ex), (evenly_step _ _ Ey).
  pose proof (evenly_increasing _ _ Ex) as Ix. pose proof (evenly_increasing _ _ Ey) as Iy.
  pose proof (gmask_shape hx hy _ _ _ Ms) as Gs.
  destruct (import_gradient (vg f) (grad0 hx (cx f)) _ (unit_div (vuv f) (ux (vg f))) Ix Iy Lx Ly Xs Gs) as (g1 & E1 & O1 & P1).
  destruct (import_gradient (vg f) (grad1 hy (cx f)) _ (unit_div (vuv f) (uy (vg f))) Ix Iy Lx Ly Xs Gs) as (g2 & E2 & O2 & P2).
  destruct (import_gradient (vg f) (grad0 hx (cy f)) _ (unit_div (vuv f) (ux (vg f))) Ix Iy Lx Ly Ys Gs) as (g3 & E3 & O3 & P3).
  destruct (import_gradient (vg f) (grad1 hy (cy f)) _ (unit_div (vuv f) (uy (vg f))) Ix Iy Lx Ly Ys Gs) as (g4 & E4 & O4 & P4).
  rewrite E1. cbn [bind]. rewrite E2. cbn [bind]. rewrite E3. cbn [bind]. rewrite E4. cbn [bind].
  exists g1, g2, g3, g4. split; [reflexivity|]. split; [exact O1|]. split; [exact O2|]. split; [exact O3|]. split; [exact O4|].
  intros i j. cbv zeta. split; [apply P1|]. split; [apply P2|]. split; [apply P3|apply P4].
Qed.
Lemma vf_gradients_linear f hx hy a0 a1 a2 b0 b1 b2 : vf_wf f -> evenly (ax (vg f)) hx -> evenly (ay (vg f)) hy ->
  vf_is f (fun x y => a0 + a1 * x + a2 * y)%num (fun x y => b0 + b1 * x + b2 * y)%num ->
  exists g1 g2 g3 g4, vf_gradients f = Ok (g1, g2, g3, g4) /\
    on_grid (vg f) g1 (unit_div (vuv f) (ux (vg f))) /\ on_grid (vg f) g2 (unit_div (vuv f) (uy (vg f))) /\
    on_grid (vg f) g3 (unit_div (vuv f) (ux (vg f))) /\ on_grid (vg f) g4 (unit_div (vuv f) (uy (vg f))) /\
    sf_is g1 (fun _ _ => a1) /\ sf_is g2 (fun _ _ => a2) /\ sf_is g3 (fun _ _ => b1) /\ sf_is g4 (fun _ _ => b2).
Proof.
  intros W Ex Ey F. destruct (vf_gradients_run f hx hy W Ex Ey) as (g1 & g2 & g3 & g4 & E & O1 & O2 & O3 & O4 & P).
  exists g1, g2, g3, g4. split; [exact E|]. split; [exact O1|]. split; [exact O2|]. split; [exact O3|]. split; [exact O4|].
  pose proof (proj1 (vf_is_idx f _ _) F) as F'; clear F; rename F' into F. destruct W as ([X0 X1] & [Y0 Y1] & [M0 M1]).
  assert (forall i j, i < length (ax (vg f)) -> j < length (ay (vg f)) -> at_ (gmask hx hy (vmsk f)) i j = false) as Hm.
  { apply gmask_none; try assumption. intros. now apply F. }
  pose proof (grad0_lin (ax (vg f)) (ay (vg f)) (cx f) hx a0 a1 a2 Ex X0 X1 (fun i j Hi Hj => proj1 (F i j Hi Hj))) as G1.
  pose proof (grad1_lin (ax (vg f)) (ay (vg f)) (cx f) hy a0 a1 a2 Ey X0 X1 (fun i j Hi Hj => proj1 (F i j Hi Hj))) as G2.
  pose proof (grad0_lin (ax (vg f)) (ay (vg f)) (cy f) hx b0 b1 b2 Ex Y0 Y1 (fun i j Hi Hj => proj1 (proj2 (F i j Hi Hj)))) as G3.
  pose proof (grad1_lin (ax (vg f)) (ay (vg f)) (cy f) hy b0 b1 b2 Ey Y0 Y1 (fun i j Hi Hj => proj1 (proj2 (F i j Hi Hj)))) as G4.
  destruct O1 as (S1 & _), O2 as (S2 & _), O3 as (S3 & _), O4 as (S4 & _).
  split; [|split; [|split]]; apply sf_is_idx; rewrite ?S1, ?S2, ?S3, ?S4; intros i j Hi Hj; specialize (P i j); cbv zeta in P;
    rewrite Hm, G1, G2, G3, G4 in P by assumption; cbn in P; tauto.
Qed.
