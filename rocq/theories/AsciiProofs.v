(** * AsciiProofs: reading tables; numpy.unique; the loop of the vector fields. *)
From Coq Require Import Lia Permutation.
From Verif Require Import Num Res ListLib SortLib Arr FieldModel ScalarFieldModel VectorFieldModel FieldSpec ProfileModel PointsModel AsciiModel AsciiSpec.
From Verif Require Import RotateProofs.
From Verif Require Import FieldProofs2 GradProofs2 PodProofs.

(** ** unique *)
Lemma uins_in x l y : In y (uins x l) <-> y = x \/ In y l.
Proof.
  induction l as [|a l IH]; cbn; [intuition congruence|].
  destruct (qltb_spec x a); [cbn; intuition congruence|].
  destruct (qeqb_spec x a); [subst; cbn; intuition congruence|]. cbn. rewrite IH. intuition.
Qed.
Lemma unique_in l y : In y (unique l) <-> In y l.
Proof. induction l as [|a l IH]; cbn; [tauto|]. rewrite uins_in, IH. intuition congruence. Qed.
Lemma increasing_cons_iff x l : increasing (x :: l) <-> increasing l /\ (forall y, In y l -> (x < y)%num).
Proof.
  split.
  - intros H. split.
    + intros i j Hij. specialize (H (S i) (S j)). cbn in H. intros Hj. apply H; lia.
    + intros y Hy. destruct (In_nth_error _ _ Hy) as [k Hk]. pose proof (nth_error_Some_lt _ _ _ Hk).
      specialize (H 0 (S k)). cbn in H. rewrite <- (nth_error_nths _ _ _ Hk). apply H; lia.
  - intros [H1 H2] i j Hij Hj. destruct j as [|j]; [lia|]. destruct i as [|i]; cbn in *.
    + apply H2. apply nth_In. lia.
    + apply H1; lia.
Qed.
Lemma uins_incr x l : increasing l -> increasing (uins x l).
Proof.
  induction l as [|a l IH]; intros H; cbn; [intros i j ? ?; cbn in *; lia|].
  apply increasing_cons_iff in H. destruct H as [H1 H2].
  destruct (qltb_spec x a) as [E|E].
  - apply increasing_cons_iff. split; [apply increasing_cons_iff; auto|].
    intros y [<-|Hy]; [assumption|]. specialize (H2 y Hy). qlra.
  - destruct (qeqb_spec x a) as [->|N]; [apply increasing_cons_iff; auto|].
    apply increasing_cons_iff. split; [now apply IH|]. intros y Hy. apply uins_in in Hy. destruct Hy as [->|Hy]; [|now apply H2].
    destruct (qle_lt_or_eq a x) as [?|?]; [qlra|assumption|congruence].
Qed.
Lemma unique_incr l : increasing (unique l).
Proof. induction l as [|a l IH]; cbn; [intros i j ? ?; cbn in *; lia|now apply uins_incr]. Qed.
Lemma unique_is l X : increasing X -> (forall x, In x X <-> In x l) -> unique l = X.
Proof. intros H E. apply increasing_ext; [apply unique_incr|assumption|]. intros x. now rewrite unique_in, E. Qed.

(** ** Reading *)
Section Reading.
Context {A : Type} (gives : list onum -> A -> Prop).
Hypothesis nonempty : forall r p, gives r p -> r <> [].

Lemma rows_of_row r f : r <> [] -> rows_of (Row r :: f) = r :: rows_of f.
Proof. intros N. cbn. destruct r; [congruence|reflexivity]. Qed.
Lemma rows_forall2 f l : lists gives f l -> Forall2 gives (rows_of f) l.
Proof using nonempty. induction 1; [constructor|assumption|]. rewrite rows_of_row by eauto. now constructor. Qed.
Lemma rows_in f r : In r (rows_of f) -> In (Row r) f.
Proof.
  unfold rows_of. rewrite in_flat_map. intros (x & Hx & Hr). destruct x as [|[|a s]]; cbn in Hr; try tauto.
  destruct Hr as [<-|[]]; assumption.
Qed.
Lemma genfromtxt_ok f l n : lists gives f l -> regular f n -> 2 <= n -> 2 <= length l -> genfromtxt f = Ok (rows_of f).
Proof.
  intros L R N2 L2. pose proof (rows_forall2 f l L) as F. unfold genfromtxt.
  assert (forall r, In r (rows_of f) -> length r = n) as H by (intros r Hr; apply R; now apply rows_in).
  pose proof (Forall2_len _ _ _ F) as FL.
  destruct (rows_of f) as [|r t] eqn:E; [cbn in FL; lia|].
  pose proof (H r (or_introl eq_refl)) as Hr.
  replace (existsb (fun s => negb (Nat.eqb (length s) (length r))) t) with false.
  2:{ symmetry. apply not_true_is_false. rewrite existsb_exists. intros (s & Hs & K). rewrite (H s (or_intror Hs)), Hr in K.
      now rewrite Nat.eqb_refl in K. }
  cbn [guard]. replace (Nat.eqb (length t) 0 || Nat.eqb (length r) 1)%bool with false; [reflexivity|].
  symmetry. apply orb_false_iff. rewrite !Nat.eqb_neq. cbn in FL. lia.
Qed.
Lemma mapM_col {B} (F : list onum -> res B) (G : A -> B) t l :
  Forall2 gives t l -> (forall r p, gives r p -> F r = Ok (G p)) -> mapM F t = Ok (map G l).
Proof. intros H K. induction H as [|r p t l Hr Hl IH]; cbn; [reflexivity|]. rewrite (K _ _ Hr), IH. reflexivity. Qed.
End Reading.
Lemma column_ok {A} (gives : list onum -> A -> Prop) t l k (G : A -> onum) :
  Forall2 gives t l -> (forall r p, gives r p -> cell r k (G p)) -> column t k = Ok (map G l).
Proof. intros H K. apply (mapM_col gives); [assumption|]. intros r p Hg. destruct (K _ _ Hg) as [_ ->]. reflexivity. Qed.
Lemma numbers_map l : numbers (map Some l) = Ok l.
Proof. unfold numbers. induction l as [|a l IH]; cbn; [reflexivity|]. now rewrite IH. Qed.
Lemma coords_ok {A} (gives : list onum -> A -> Prop) t l k (G : A -> num) :
  Forall2 gives t l -> (forall r p, gives r p -> cell r k (Some (G p))) -> coords t k = Ok (map G l).
Proof.
  intros H K. unfold coords. rewrite (column_ok gives t l k (fun p => Some (G p))) by assumption. cbn [bind].
  rewrite <- (map_map G Some). apply numbers_map.
Qed.
Lemma cell_nonempty r k v : cell r k v -> r <> [].
Proof. intros [_ H] ->. now destruct (k - 1). Qed.
Lemma cell_col r k v : cell r k v -> Nat.eqb k 0 = false.
Proof. intros [H _]. apply Nat.eqb_neq. lia. Qed.

(** ** The loop of import_vf_from_ascii *)
Lemma find_last_ok X x k i : increasing X -> nth_error X i = Some x -> find_last x X k = Some i.
Proof.
  intros H E. unfold find_last. pose proof (nth_error_Some_lt _ _ _ E) as Hi.
  assert (forall n k, n <= length X -> fold_left (fun k j => if qeqb (nths X j) x then Some j else k) (seq 0 n) k = (if Nat.ltb i n then Some i else k)) as G.
  { induction n as [|n IH]; intros k' Hn; [reflexivity|].
    rewrite seq_S, fold_left_app, IH by lia. cbn [fold_left Nat.add].
    destruct (qeqb_spec (nths X n) x) as [Eq|Ne].
    - assert (i = n) as ->. { apply (increasing_inj X); auto. now rewrite (nth_error_nths _ _ _ E). }
      now rewrite (proj2 (Nat.ltb_lt n (S n))) by lia.
    - assert (i <> n) by (intros ->; apply Ne; now rewrite (nth_error_nths _ _ _ E)).
      destruct (Nat.ltb_spec i n); destruct (Nat.ltb_spec i (S n)); try lia; reflexivity. }
  rewrite G by lia. now rewrite (proj2 (Nat.ltb_lt _ _) Hi).
Qed.

(** the last value of a list at (x, y) *)
Fixpoint final {V} (l : list (num * num * V)) (x y : num) (d : option V) : option V :=
  match l with
  | [] => d
  | p :: t => final t x y (if (qeqb (fst (fst p)) x && qeqb (snd (fst p)) y)%bool then Some (snd p) else d)
  end.
Lemma final_nothing {V} (l : list (num * num * V)) x y d : nothing_at l x y -> final l x y d = d.
Proof.
  revert d; induction l as [|[[a b] v] l IH]; intros d H; cbn; [reflexivity|].
  rewrite IH by (intros w Hw; apply (H w); now right).
  destruct (qeqb_spec a x) as [->|]; [|reflexivity]. destruct (qeqb_spec b y) as [->|]; [|reflexivity].
  exfalso. apply (H v). now left.
Qed.
Lemma final_last {V} (l : list (num * num * V)) x y d v : last_at l x y v -> final l x y d = Some v.
Proof.
  intros (a & b & -> & Hb). revert d; induction a as [|p a IH]; intros d; cbn; [|apply IH].
  rewrite !qeqb_refl. cbn. now apply final_nothing.
Qed.
Lemma last_or_nothing {V} (l : list (num * num * V)) x y : nothing_at l x y \/ exists v, last_at l x y v.
Proof.
  induction l as [|[[a b] v] l [IH|[w (l1 & l2 & -> & H)]]].
  - left. intros v [].
  - destruct (qeqb_spec a x) as [->|N]; [destruct (qeqb_spec b y) as [->|N]|].
    + right. exists v, [], l. split; [reflexivity|assumption].
    + left. intros w [E|Hw]; [congruence|now apply (IH w)].
    + left. intros w [E|Hw]; [congruence|now apply (IH w)].
  - right. exists w, ((a, b, v) :: l1), l2. split; [reflexivity|assumption].
Qed.

Lemma aput_at {A} (a : arr A) i j v k l : at_ (aput a i j v) k l = if (Nat.eqb k i && Nat.eqb l j)%bool then v else at_ a k l.
Proof. reflexivity. Qed.
Lemma vf_loop_ok X Y : increasing X -> increasing Y -> forall l s xi yi a b,
  (forall p, In p l -> In (fst (fst p)) X /\ In (snd (fst p)) Y) ->
  s = (xi, yi, a, b) ->
  exists xi' yi' a' b', vf_loop X Y s l = Ok (xi', yi', a', b') /\
    d0 a' = d0 a /\ d1 a' = d1 a /\ d0 b' = d0 b /\ d1 b' = d1 b /\
    forall i j x y, nth_error X i = Some x -> nth_error Y j = Some y ->
      at_ a' i j = match final l x y None with Some v => Some (fst v) | None => at_ a i j end /\
      at_ b' i j = match final l x y None with Some v => Some (snd v) | None => at_ b i j end.
Proof.
  intros HX HY l. induction l as [|[[x0 y0] [vx vy]] l IH]; intros s xi yi a b Hin ->.
  - do 4 eexists. split; [reflexivity|]. repeat split.
  - cbn [vf_loop vf_turn].
    destruct (Hin _ (or_introl eq_refl)) as [Hx Hy]. cbn in Hx, Hy.
    destruct (In_nth_error _ _ Hx) as [i0 Ei]. destruct (In_nth_error _ _ Hy) as [j0 Ej].
    rewrite (find_last_ok X x0 xi i0 HX Ei), (find_last_ok Y y0 yi j0 HY Ej). cbn [bind].
    destruct (IH _ (Some i0) (Some j0) (aput a i0 j0 (Some vx)) (aput b i0 j0 (Some vy)) (fun p Hp => Hin p (or_intror Hp)) eq_refl)
      as (xi' & yi' & a' & b' & -> & D0 & D1 & D2 & D3 & H).
    do 4 eexists. split; [reflexivity|]. repeat (split; [assumption|]).
    intros i j x y Hi Hj. destruct (H i j x y Hi Hj) as [Ha Hb]. rewrite Ha, Hb, !aput_at. cbn [final fst snd].
    destruct (last_or_nothing l x y) as [Hn|[v Hv]].
    2:{ rewrite !(final_last _ _ _ _ v Hv). auto. }
    rewrite !(final_nothing _ _ _ _ Hn).
    destruct (qeqb_spec x0 x) as [->|Nx].
    + assert (i = i0) as -> by (apply (increasing_inj X); auto; [eapply nth_error_Some_lt; eauto|eapply nth_error_Some_lt; eauto|
        now rewrite (nth_error_nths _ _ _ Hi), (nth_error_nths _ _ _ Ei)]).
      destruct (qeqb_spec y0 y) as [->|Ny].
      * assert (j = j0) as -> by (apply (increasing_inj Y); auto; [eapply nth_error_Some_lt; eauto|eapply nth_error_Some_lt; eauto|
          now rewrite (nth_error_nths _ _ _ Hj), (nth_error_nths _ _ _ Ej)]).
        now rewrite !Nat.eqb_refl.
      * assert (j <> j0) by (intros ->; congruence). cbn. destruct (Nat.eqb_spec j j0); [congruence|]. now rewrite andb_false_r.
    + assert (i <> i0) by (intros ->; congruence). cbn. destruct (Nat.eqb_spec i i0); [congruence|]. auto.
Qed.

Lemma two_length X (a b : num) : In a X -> In b X -> a <> b -> 2 <= length X.
Proof.
  intros Ha Hb N. destruct X as [|u [|w X]]; cbn in *; [tauto| |lia].
  destruct Ha as [<-|[]], Hb as [<-|[]]. congruence.
Qed.
Lemma x_in_map {V} (l : list (num * num * V)) x : In x (map (fun p => fst (fst p)) l) <-> x_in l x.
Proof.
  rewrite in_map_iff. split.
  - intros ([[a b] v] & <- & H). now exists b, v.
  - intros (y & v & H). now exists (x, y, v).
Qed.
Lemma y_in_map {V} (l : list (num * num * V)) y : In y (map (fun p => snd (fst p)) l) <-> y_in l y.
Proof.
  rewrite in_map_iff. split.
  - intros ([[a b] v] & <- & H). now exists a, v.
  - intros (x & v & H). now exists (x, y, v).
Qed.
Lemma combine_map2 {P A B} (F : P -> A) (G : P -> B) l : combine (map F l) (map G l) = map (fun p => (F p, G p)) l.
Proof. induction l; cbn; [reflexivity|]. now rewrite IHl. Qed.
Lemma two_x_length {V} (l : list (num * num * V)) : two_x l -> 2 <= length l.
Proof.
  intros (a & b & (y & v & Ha) & (y' & v' & Hb) & N). destruct l as [|p [|q l]]; cbn in *; [tauto| |lia].
  destruct Ha as [->|[]], Hb as [[=]|[]]. congruence.
Qed.

(** ** C129: the import of a vector field, whatever the order of the lines *)
Lemma import_vf_lemma f n xc yc vxc vyc l u w z :
  lists (gives2 xc yc vxc vyc) f l -> regular f n -> 2 <= n -> two_x l -> two_y l ->
  exists g, import_vf f xc yc vxc vyc u w z = Ok g /\ vf_wf g /\ grid_sorted (vg g) /\
    ux (vg g) = u /\ uy (vg g) = w /\ vuv g = z /\
    (forall x, In x (ax (vg g)) <-> x_in l x) /\ (forall y, In y (ay (vg g)) <-> y_in l y) /\
    forall x y, x_in l x -> y_in l y ->
      (nothing_at l x y -> vf_shows g x y None None true) /\
      (forall vx vy, last_at l x y (vx, vy) ->
         let m := (isnan vx || isnan vy)%bool in
         vf_shows g x y (if m then None else vx) (if m then None else vy) m).
Proof.
  intros L R N2 TX TY. unfold import_vf.
  assert (l <> []) as Ne. { destruct TX as (a & _ & (y & v & Ha) & _). now intros ->. }
  assert (Forall2 (gives2 xc yc vxc vyc) (rows_of f) l) as F.
  { apply rows_forall2; [|assumption]. intros r p [H _]. now apply cell_nonempty in H. }
  assert ((Nat.eqb xc 0 || Nat.eqb yc 0 || Nat.eqb vxc 0 || Nat.eqb vyc 0)%bool = false) as ->.
  { destruct F as [|r p t l (H1 & H2 & H3 & H4) F]; [congruence|].
    apply cell_col in H1, H2, H3, H4. now rewrite H1, H2, H3, H4. }
  cbn [guard]. rewrite (genfromtxt_ok (gives2 xc yc vxc vyc)) with (l := l) (n := n); auto using two_x_length.
  2:{ intros r p [H _]. now apply cell_nonempty in H. }
  cbn [bind].
  rewrite (coords_ok _ _ l xc (fun p => fst (fst p)) F) by (intros ? ? H; apply H). cbn [bind]. cbv zeta.
  rewrite (coords_ok _ _ l yc (fun p => snd (fst p)) F) by (intros ? ? H; apply H). cbn [bind]. cbv zeta.
  rewrite (column_ok _ _ l vxc (fun p => fst (snd p)) F) by (intros ? ? H; apply H). cbn [bind].
  rewrite (column_ok _ _ l vyc (fun p => snd (snd p)) F) by (intros ? ? H; apply H). cbn [bind].
  set (X := unique _). set (Y := unique _).
  assert (increasing X) as IX by apply unique_incr. assert (increasing Y) as IY by apply unique_incr.
  assert (forall x, In x X <-> x_in l x) as EX by (intros x; unfold X; now rewrite unique_in, x_in_map).
  assert (forall y, In y Y <-> y_in l y) as EY by (intros y; unfold Y; now rewrite unique_in, y_in_map).
  rewrite !combine_map2. replace (map _ l) with l.
  2:{ rewrite <- (map_id l) at 1. apply map_ext. intros [[a b] [c d]]. reflexivity. }
  set (e := afull (length X) (length Y) None).
  destruct (vf_loop_ok X Y IX IY l (None, None, e, e) None None e e) as (xi & yi & a & b & -> & A0 & A1 & B0 & B1 & H); [|reflexivity|].
  { intros [[x y] v] Hp. cbn. rewrite EX, EY. split; [now exists y, v|now exists x, v]. }
  cbn [bind].
  assert (2 <= length X) as LX. { destruct TX as (p & q & Hp & Hq & Npq). apply (two_length X p q); [now apply EX|now apply EX|assumption]. }
  assert (2 <= length Y) as LY. { destruct TY as (p & q & Hp & Hq & Npq). apply (two_length Y p q); [now apply EY|now apply EY|assumption]. }
  destruct (vf_import_plain X Y (ma_data a) (ma_data b) (ma_mask a) u w z) as (g & -> & G & K); try assumption.
  1-3: split; cbn; assumption.
  exists g. split; [reflexivity|]. destruct G as (Gg & Gu & Gw).
  rewrite Gg. cbn [ax ay ux uy]. rewrite Gu. repeat (split; [first [assumption|reflexivity|now split]|]).
  intros x y Hx Hy. apply EX in Hx. apply EY in Hy.
  destruct (In_nth_error _ _ Hx) as [i Hi]. destruct (In_nth_error _ _ Hy) as [j Hj].
  destruct (H i j x y Hi Hj) as [Ha Hb]. specialize (K i j). cbv zeta in K. cbn [ma_data ma_mask amap at_] in K. rewrite Ha, Hb in K.
  split.
  - intros Hn. rewrite (final_nothing _ _ _ _ Hn) in K. cbn in K. destruct K as (K1 & K2 & K3).
    exists i, j. rewrite Gg. auto.
  - intros vx vy Hl. rewrite (final_last _ _ _ _ _ Hl) in K. cbn [fst snd] in K.
    cbv zeta. rewrite orb_diag in K. destruct K as (K1 & K2 & K3). exists i, j. rewrite Gg. auto.
Qed.
