(** * MirrorProofs4: a mirrored field is the kept part with its images *)
From Verif Require Import Num Res ListLib Arr FieldModel FieldSpec FieldProofs FieldProofs2 FieldProofs3 ScalarFieldModel ScalarProofs
  BlModel MirrorModel MirrorSpec MirrorProofs MirrorProofs2 MirrorProofs3.
Open Scope num_scope.

Definition lo_of (s : side) (c : nat) : nat := match s with Low => c | High => 0 end.
Definition hi_of (s : side) (c : nat) : nat := match s with Low => 0 | High => c end.
(** the call of extend, by direction *)
Lemma mirror_extend_call k d s n e : mirror_extend k d s n = Ok e ->
  (0 <= n)%Z /\
  match d with
  | DX => sf_extend k (lo_of s (Z.to_nat n)) (hi_of s (Z.to_nat n)) 0 0 None true
  | DY => sf_extend k 0 0 (hi_of s (Z.to_nat n)) (lo_of s (Z.to_nat n)) None true
  end = Ok e.
Proof.
  unfold mirror_extend. destruct (Z.ltb_spec n 0) as [|Hn]; cbn [guard]; [discriminate|]. intro H. split; [lia|].
  destruct d, s; exact H.
Qed.
Lemma sf_import_len x y v m u w t e : sf_import x y v m u w t = Ok e -> length (ax (sg e)) = length x /\ length (ay (sg e)) = length y.
Proof.
  unfold sf_import. intro H.
  destruct (Nat.ltb (length y) 2); cbn [guard] in H; [discriminate|].
  destruct (negb (uneven y) && Nat.ltb (length x) 2)%bool; cbn [guard] in H; [discriminate|].
  injection H as <-. cbn [sg ax ay]. destruct (qltb (last x (qz 0)) (nths x 0)), (qltb (last y (qz 0)) (nths y 0)); rewrite ?rev_length; auto.
Qed.
Lemma extend_axis_len l a b l' : extend_axis l a b = Ok l' -> (2 <= length l')%nat -> (2 <= length l)%nat.
Proof.
  unfold extend_axis. destruct (Nat.eqb_spec a 0) as [->|]; destruct (Nat.eqb_spec b 0) as [->|]; cbn [negb orb andb guard].
  - intro H. injection H as <-. cbn [app]. now rewrite app_nil_r.
  - destruct (Nat.ltb_spec (length l) 2); cbn [guard]; [discriminate|auto].
  - destruct (Nat.ltb_spec (length l) 2); cbn [guard]; [discriminate|auto].
  - destruct (Nat.ltb_spec (length l) 2); cbn [guard]; [discriminate|auto].
Qed.
Lemma sf_extend_len k a b c dd e : sf_extend k a b c dd None true = Ok e ->
  (2 <= length (ax (sg e)))%nat -> (2 <= length (ay (sg e)))%nat -> (2 <= length (ax (sg k)))%nat /\ (2 <= length (ay (sg k)))%nat.
Proof.
  unfold sf_extend, grid_extend. intros H LX LY.
  destruct (extend_axis (ax (sg k)) a b) as [x|] eqn:EX; cbn [bind] in H; [|discriminate].
  destruct (extend_axis (ay (sg k)) dd c) as [y|] eqn:EY; cbn [bind] in H; [|discriminate].
  apply sf_import_len in H. cbn [ax ay] in H. destruct H as [Q1 Q2].
  split; [apply (extend_axis_len _ _ _ _ EX)|apply (extend_axis_len _ _ _ _ EY)]; lia.
Qed.
(** the extended field along the direction *)
Lemma mirror_extend_spec k d s n e : sf_wf k -> sf_clean k -> grid_sorted (sg k) -> mirror_extend k d s n = Ok e ->
  (2 <= length (ax (sg e)))%nat -> (2 <= length (ay (sg e)))%nat ->
  exists c, Z.of_nat c = n /\ sf_wf e /\ sf_clean e /\ grid_sorted (sg e) /\
    axis_extends (pos_axis k d) (pos_axis e d) (lo_of s c) (hi_of s c) /\ run_axis e d = run_axis k d /\
    (2 <= length (pos_axis k d))%nat /\ (2 <= length (run_axis k d))%nat /\
    (forall x y v m, sf_shows k x y v m -> sf_shows e x y v m) /\
    (forall x y v m, sf_shows e x y v m -> ~ (In x (ax (sg k)) /\ In y (ay (sg k))) -> m = true /\ v = None) /\
    ux (sg e) = ux (sg k) /\ uy (sg e) = uy (sg k) /\ uv e = uv k.
Proof.
  intros W C S H LX LY. apply mirror_extend_call in H. destruct H as [Hn H]. exists (Z.to_nat n). split; [lia|].
  set (c := Z.to_nat n) in *.
  assert ((2 <= length (ax (sg k)))%nat /\ (2 <= length (ay (sg k)))%nat) as [KX KY].
  { destruct d; eapply sf_extend_len; eauto. }
  assert (forall nl nr nu nd, sf_extend k nl nr nu nd None true = Ok e ->
    sf_wf e /\ sf_clean e /\ grid_sorted (sg e) /\ axis_extends (ax (sg k)) (ax (sg e)) nl nr /\
    axis_extends (ay (sg k)) (ay (sg e)) nd nu /\
    (forall x y v m, sf_shows k x y v m -> sf_shows e x y v m) /\
    (forall x y v m, sf_shows e x y v m -> ~ (In x (ax (sg k)) /\ In y (ay (sg k))) -> m = true /\ v = None) /\
    ux (sg e) = ux (sg k) /\ uy (sg e) = uy (sg k) /\ uv e = uv k) as EX.
  { intros nl nr nu nd E. destruct (sf_extend_full k nl nr nu nd None W C S KX KY) as (e' & E' & P1 & P2 & P3 & P4 & P5 & P6 & P7 & P8 & P9).
    rewrite E in E'. injection E' as <-. split; [exact P1|]. split.
    { intros x y v m Q. destruct (in_dec Qc_eq_dec x (ax (sg k))) as [I1|I1]; [destruct (in_dec Qc_eq_dec y (ay (sg k))) as [I2|I2]|].
      - apply (P5 x y v m I1 I2) in Q. exact (C _ _ _ _ Q).
      - destruct (P6 x y v m Q) as [-> ->]; [tauto|]. tauto.
      - destruct (P6 x y v m Q) as [-> ->]; [tauto|]. tauto. }
    split; [exact P2|]. split; [exact P3|]. split; [exact P4|]. split; [|auto].
    intros x y v m Q. apply P5; [| |exact Q]; destruct Q as (i & j & E1 & E2 & _); eapply nth_error_In; eauto. }
  destruct d; apply EX in H; destruct H as (P1 & P2 & P3 & P4 & P5 & P6 & P7 & P8 & P9 & P10); cbn [pos_axis run_axis].
  - apply axis_extends_none in P5. rewrite P5 in *. repeat (split; [assumption || reflexivity|]). auto.
  - apply axis_extends_none in P4. rewrite P4 in *. repeat (split; [assumption || reflexivity|]). auto.
Qed.

(** ** The extended axis *)
Section Ext.
Variables (K A : list num) (s : side) (c : nat) (p dl : num).
Hypothesis (HK : increasing K) (LK : (2 <= length K)%nat) (HX : axis_extends K A (lo_of s c) (hi_of s c)).
Hypothesis (HE : axis_evenly K dl) (HP : forall x, In x K -> 0 <= sgn s * (x - p)).
Definition bidx : nat := match s with Low => c | High => length K - 1 end.
Definition bet : num := sgn s * (nths A bidx - p).
Notation lo := (lo_of s c).
Lemma ext_len : length A = (length K + c)%nat.
Proof using All. destruct HX as (L & _). rewrite L. destruct s; cbn; lia. Qed.
Lemma ext_nth i : (i < length K)%nat -> nths A (lo + i) = nths K i.
Proof using All.
  intro L. destruct HX as (_ & _ & _ & H & _). specialize (H i L). rewrite (nths_nth_error K i L) in H. now apply nth_error_nths in H.
Qed.
Lemma ext_inc : increasing A.
Proof using All. apply HX. Qed.
Lemma ext_first : nths K 1 - nths K 0 = dl.
Proof using All. apply HE. lia. Qed.
Lemma ext_last : nths K (length K - 1) - nths K (length K - 2) = dl.
Proof using All. replace (length K - 1)%nat with (S (length K - 2)) by lia. apply HE. lia. Qed.
Lemma ext_pos : 0 < dl.
Proof using All. rewrite <- ext_first. assert (nths K 0 < nths K 1) by (apply HK; lia). qlra. Qed.
Lemma ext_even : axis_evenly A dl.
Proof using All.
  intros i Li. rewrite ext_len in Li. destruct HX as (_ & _ & H1 & _ & H3). rewrite ext_first in H1. rewrite ext_last in H3.
  assert (lo + length K + hi_of s c = length K + c)%nat as LL by (destruct s; cbn; lia).
  assert (forall a, (a < lo)%nat -> nths A a = nths K 0 - (qn lo - qn a) * dl) as LOW by exact H1.
  assert (forall a, (a < hi_of s c)%nat -> nths A (lo + length K + a) = nths K (length K - 1) + (qn a + 1) * dl) as HIG by exact H3.
  destruct (Nat.lt_ge_cases (S i) lo) as [C1|C1].
  { rewrite !LOW by lia. rewrite qn_S. qring. }
  destruct (Nat.lt_ge_cases i lo) as [C2|C2].
  { pose proof (ext_nth 0 ltac:(lia)) as Q0. rewrite Nat.add_0_r in Q0. rewrite (LOW i C2).
    assert (lo = S i) as EL by lia. rewrite EL in *. rewrite Q0, qn_S. qring. }
  destruct (Nat.lt_ge_cases (S i) (lo + length K)) as [C3|C3].
  { replace (S i) with (lo + S (i - lo))%nat by lia. replace i with (lo + (i - lo))%nat at 2 by lia.
    rewrite !ext_nth by lia. apply HE. lia. }
  destruct (Nat.lt_ge_cases i (lo + length K)) as [C4|C4].
  { replace (S i) with (lo + length K + 0)%nat by lia. rewrite HIG by lia.
    replace i with (lo + (length K - 1))%nat by lia. rewrite ext_nth by lia. change (qn 0) with (qz 0). qring. }
  replace (S i) with (lo + length K + S (i - lo - length K))%nat by lia. rewrite HIG by lia.
  replace i with (lo + length K + (i - lo - length K))%nat at 2 by lia. rewrite HIG by lia. rewrite qn_S. qring.
Qed.
Lemma bidx_lt : (bidx < length A)%nat.
Proof using All. rewrite ext_len. unfold bidx. destruct s; lia. Qed.
Definition kend : num := match s with Low => nths K 0 | High => last K (qz 0) end.
Lemma border_val : nths A bidx = kend.
Proof using All.
  unfold bidx, kend. pose proof (ext_nth 0 ltac:(lia)) as Q0. pose proof (ext_nth (length K - 1) ltac:(lia)) as Q1.
  rewrite last_nths by (intros ->; cbn in LK; lia). destruct s; cbn [lo_of] in *.
  - now rewrite Nat.add_0_r in Q0.
  - exact Q1.
Qed.
Lemma bet_val : bet = sgn s * (kend - p).
Proof using All. unfold bet. now rewrite border_val. Qed.
Lemma kend_in : In kend K.
Proof using All. unfold kend. destruct s; [|rewrite last_nths by (intros ->; cbn in LK; lia)]; apply nth_In; lia. Qed.
Lemma bet_nonneg : 0 <= bet.
Proof using All. rewrite bet_val. apply HP, kend_in. Qed.
Lemma in_K_kept x : In x K -> bet <= sgn s * (x - p).
Proof using All.
  intro I. rewrite bet_val. apply (In_nth _ _ (qz 0)) in I. destruct I as (i & L & <-).
  destruct (last_le_nth K i HK L) as [Q1 Q2]. unfold kend. destruct s; cbn [sgn]; qlra.
Qed.
(** an added node is not kept *)
Lemma added_not_kept i : (i < length A)%nat -> ~ In (nths A i) K -> kept A p (sgn s) bet i = false.
Proof using All.
  intros L N. apply kept_no. rewrite ext_len in L.
  assert ((i < lo)%nat \/ (lo + length K <= i)%nat) as CS.
  { destruct (Nat.lt_ge_cases i lo) as [C1|C1]; [left; exact C1|]. destruct (Nat.lt_ge_cases i (lo + length K)) as [C2|C2]; [|right; exact C2].
    exfalso. apply N. replace i with (lo + (i - lo))%nat by lia. rewrite ext_nth by lia. apply nth_In. lia. }
  unfold bet. assert (nths A i < nths A bidx /\ s = Low \/ nths A bidx < nths A i /\ s = High) as [[Q ->]|[Q ->]].
  { unfold bidx. pose proof ext_inc as EI. pose proof ext_len as EL. destruct s; cbn in CS.
    - left. split; [|reflexivity]. apply EI; lia.
    - right. split; [|reflexivity]. apply EI; lia. }
  - cbn [sgn]. qlra.
  - cbn [sgn]. qlra.
Qed.
Lemma kept_in i : (i < length A)%nat -> kept A p (sgn s) bet i = true -> In (nths A i) K.
Proof using All. intros L Q. destruct (in_dec Qc_eq_dec (nths A i) K) as [I|I]; [exact I|]. rewrite (added_not_kept i L I) in Q. discriminate. Qed.
(** the hull is the range of the kept axis *)
Lemma hull_range q : hull A p (sgn s) bet q = true <-> nths K 0 <= q /\ q <= last K (qz 0).
Proof using All.
  rewrite hull_iff, onax_iff, bet_val. unfold kend.
  assert (A <> []) as NA by (intros Q; pose proof ext_len as E; rewrite Q in E; cbn in E; lia).
  assert (K <> []) as NK by (intros Q; rewrite Q in LK; cbn in LK; lia).
  pose proof (last_le_nth K 0 HK ltac:(lia)) as [_ KK].
  destruct (last_le_nth A lo ext_inc ltac:(rewrite ext_len; destruct s; cbn; lia)) as [Q1 _].
  assert (nths A lo = nths K 0) as EL by (rewrite <- (Nat.add_0_r lo), ext_nth by lia; reflexivity).
  destruct (last_le_nth A (lo + (length K - 1)) ext_inc ltac:(rewrite ext_len; destruct s; cbn; lia)) as [_ Q2].
  rewrite ext_nth, <- last_nths in Q2 by (auto; lia). rewrite EL in Q1.
  pose proof (ext_nth (length K - 1) ltac:(lia)) as EN. pose proof ext_len as LEN.
  destruct s; cbn [sgn lo_of] in *.
  - assert (last A (qz 0) = last K (qz 0)) as EQ.
    { rewrite (last_nths A NA), (last_nths K NK), LEN, <- EN. f_equal. lia. }
    rewrite EQ in *. split; intros; repeat split; try qlra.
  - assert (nths A 0 = nths K 0) as EQ by exact EL. rewrite EQ in *. split; intros; repeat split; try qlra.
Qed.
Lemma lval_ext (w v : nat -> onum) q : (forall i, (i < length K)%nat -> w (lo + i)%nat = v i) ->
  nths K 0 <= q -> q <= last K (qz 0) -> lval A w q = lval K v q.
Proof using All.
  intros HV B1 B2. assert (K <> []) as NK by (intros Q; rewrite Q in LK; cbn in LK; lia).
  assert (forall i, (i < length K)%nat -> (lo + i < length A)%nat) as LL by (intros; rewrite ext_len; destruct s; cbn; lia).
  destruct (bounds_cases K q HK NK B1 B2) as [(i & L & <- & _)|(i & L & Q1 & Q2 & _)].
  - rewrite (lval_node K) by assumption. rewrite <- (ext_nth i L), lval_node; auto using ext_inc.
  - rewrite (lval_between K _ q i) by assumption. rewrite (lval_between A _ q (lo + i)).
    + rewrite <- !(Nat.add_succ_r lo), !ext_nth, !HV by lia. reflexivity.
    + exact ext_inc.
    + specialize (LL (S i) L). lia.
    + rewrite ext_nth by lia. exact Q1.
    + rewrite <- Nat.add_succ_r, ext_nth by lia. exact Q2.
Qed.
End Ext.

Lemma shows_unique f x y v m v' m' : grid_sorted (sg f) -> sf_shows f x y v m -> sf_shows f x y v' m' -> v = v' /\ m = m'.
Proof.
  intros [HX HY] (i & j & E1 & E2 & <- & <-) (i' & j' & E1' & E2' & <- & <-).
  assert (i = i') as ->.
  { pose proof (nth_error_Some_lt _ _ _ E1). pose proof (nth_error_Some_lt _ _ _ E1'). apply nth_error_nths in E1, E1'. apply (increasing_inj (ax (sg f))); auto. congruence. }
  assert (j = j') as ->.
  { pose proof (nth_error_Some_lt _ _ _ E2). pose proof (nth_error_Some_lt _ _ _ E2'). apply nth_error_nths in E2, E2'. apply (increasing_inj (ay (sg f))); auto. congruence. }
  auto.
Qed.
