(** * CriterionProofs6: linear fields, counterexamples and fields used in the examples *)
From Coq Require Import Reals Lra Qreals.
From Verif Require Import Num Res ListLib Arr FieldModel ScalarFieldModel VectorFieldModel PointsModel FieldSpec FieldProofs FieldProofs2
  GradModel GradSpec GradProofs GradProofs2 GradProofs3 GradProofs4 GradProofs5 GradProofs6 Concrete TemporalEx
  CriterionModel CriterionSpec CriterionProofs CriterionProofs2 CriterionProofs3 CriterionProofs4 CriterionProofs5.
#[local] Open Scope R_scope.

Lemma toR_0 : toR 0%num = 0. Proof. change 0%num with (qz 0). apply toR_qz. Qed.
Lemma toR_1 : toR 1%num = 1. Proof. change 1%num with (qz 1). apply toR_qz. Qed.
Lemma jacobian_linear f hx hy a0 a1 a2 b0 b1 b2 i j : vf_wf f -> evenly (ax (vg f)) hx -> evenly (ay (vg f)) hy ->
  vf_is f (fun x y => a0 + a1 * x + a2 * y)%num (fun x y => b0 + b1 * x + b2 * y)%num ->
  (i < length (ax (vg f)))%nat -> (j < length (ay (vg f)))%nat -> jacobian f i j (toR a1) (toR a2) (toR b1) (toR b2).
Proof.
  intros W Ex Ey F Hi Hj.
  destruct (rgrads_value f hx hy i j W (vf_is_full _ _ _ F) Ex Ey Hi Hj) as (a & b & c & d & Ea & Eb & Ec & Ed & _ & J & _).
  pose proof (proj1 (vf_is_idx f _ _) F) as F'. destruct W as ([X0 X1] & [Y0 Y1] & _).
  rewrite (grad0_lin (ax (vg f)) (ay (vg f)) (cx f) hx a0 a1 a2 Ex X0 X1 (fun i j Hi Hj => proj1 (F' i j Hi Hj)) i j Hi Hj) in Ea.
  rewrite (grad1_lin (ax (vg f)) (ay (vg f)) (cx f) hy a0 a1 a2 Ey X0 X1 (fun i j Hi Hj => proj1 (F' i j Hi Hj)) i j Hi Hj) in Eb.
  rewrite (grad0_lin (ax (vg f)) (ay (vg f)) (cy f) hx b0 b1 b2 Ex Y0 Y1 (fun i j Hi Hj => proj1 (proj2 (F' i j Hi Hj))) i j Hi Hj) in Ec.
  rewrite (grad1_lin (ax (vg f)) (ay (vg f)) (cy f) hy b0 b1 b2 Ey Y0 Y1 (fun i j Hi Hj => proj1 (proj2 (F' i j Hi Hj))) i j Hi Hj) in Ed.
  injection Ea as <-. injection Eb as <-. injection Ec as <-. injection Ed as <-. exact J.
Qed.
(** u = x - y, v = x + y: every trajectory is a spiral, and the residual vorticity is 0 everywhere *)
Lemma residual_refuted : exists f r, vf_is f (fun x y => x - y)%num (fun x y => x + y)%num /\ get_residual dfill f = Ok r /\
  forall i j, (i < length (ax (vg f)))%nat -> (j < length (ay (vg f)))%nat ->
    jacobian f i j 1 (-1) 1 1 /\ turns_all 1 (-1) 1 1 /\ at_ r i j = Some 0.
Proof.
  destruct (lin_vf_ok 5 5 1%num 1%num 0%num 1%num (- (1))%num 0%num 1%num 1%num ltac:(lia) ltac:(lia) eq_refl eq_refl) as (W & Ex & Ey & F).
  set (f := lin_vf _ _ _ _ _ _ _ _ _ _) in *.
  destruct (residual_field_lemma no_interp no_interp no_interp f _ _ W (vf_is_full _ _ _ F) Ex Ey) as (w & r & s & _ & Er & _ & P).
  exists f, r. split.
  { intros x y vx vy m H. destruct (F x y vx vy m H) as (-> & -> & ->). repeat split; f_equal; qring. }
  split; [exact Er|]. intros i j Hi Hj.
  pose proof (jacobian_linear f _ _ _ _ _ _ _ _ i j W Ex Ey F Hi Hj) as J. rewrite toR_opp, toR_1 in J. replace (- (1)) with (-1) in J by lra.
  split; [exact J|]. split; [apply turns_all_iff; lra|]. destruct (P i j Hi Hj) as (vw & vr & vs & _ & -> & _ & _ & _ & _ & Q).
  destruct (Q _ _ _ _ J) as (Hw & R1 & _). f_equal. destruct (Req_EM_T vr 0) as [Z|Z]; [exact Z|]. apply R1 in Z. rewrite Hw in Z. lra.
Qed.
(** in a rotation the streamlines are closed at every cell, and delta is positive at every cell *)
Lemma delta_refuted eig : eigenvalues eig -> exists f v, vf_is f (fun _ y => - y)%num (fun x _ => x)%num /\ get_delta eig f = Ok v /\
  forall i j, (i < length (ax (vg f)))%nat -> (j < length (ay (vg f)))%nat ->
    jacobian f i j 0 (-1) 1 0 /\ turns_all 0 (-1) 1 0 /\ exists d, at_ v i j = (Some d, false) /\ 0 < d.
Proof.
  intro He. destruct (lin_vf_ok 5 5 1%num 1%num 0%num 0%num (- (1))%num 0%num 1%num 0%num ltac:(lia) ltac:(lia) eq_refl eq_refl) as (W & Ex & Ey & F).
  set (f := lin_vf _ _ _ _ _ _ _ _ _ _) in *.
  destruct (from_grads_value (fun a b c d => let (x, m) := delta_of eig a b c d in (Some x, m)) (None, true) f _ _ W (vf_is_full _ _ _ F) Ex Ey)
    as (v & E & _ & _ & P).
  exists f, v. split.
  { intros x y vx vy m H. destruct (F x y vx vy m H) as (-> & -> & ->). repeat split; f_equal; qring. }
  split; [exact E|]. intros i j Hi Hj.
  pose proof (jacobian_linear f _ _ _ _ _ _ _ _ i j W Ex Ey F Hi Hj) as J. rewrite toR_opp, toR_1, toR_0 in J. replace (- (1)) with (-1) in J by lra.
  split; [exact J|]. split; [apply turns_all_iff; lra|]. rewrite (P i j _ _ _ _ Hi Hj J).
  destruct (delta_lemma eig 0 (-1) 1 0 He) as [_ D]. destruct D as [D1 D2]; [reflexivity|reflexivity|lra|lra|].
  destruct (delta_of eig 0 (-1) 1 0) as [x m]. cbn [fst snd] in D1, D2. subst m. eauto.
Qed.
(** numpy's eigenvalues can be met: the roots of the characteristic polynomial *)
Definition root_eig (a b c d : R) : (R * R) * (R * R) :=
  let D := (a - d) * (a - d) + 4 * (b * c) in
  if Rlt_dec D 0 then (((a + d) / 2, sqrt (- D) / 2), ((a + d) / 2, - (sqrt (- D) / 2)))
  else (((a + d + sqrt D) / 2, 0), ((a + d - sqrt D) / 2, 0)).
Lemma root_eig_ok : eigenvalues root_eig.
Proof.
  intros a b c d. unfold root_eig. set (D := (a - d) * (a - d) + 4 * (b * c)).
  assert (D = (a - d) * (a - d) + 4 * (b * c)) as HD by reflexivity. clearbody D.
  destruct (Rlt_dec D 0) as [L|L]; cbn [fst snd].
  - pose proof (sqrt_sqrt (- D) ltac:(lra)) as Q. repeat split; nra.
  - pose proof (sqrt_sqrt D ltac:(lra)) as Q. repeat split; nra.
Qed.
(** ** a rotation around the middle of a 5 x 5 field *)
Definition spin_vf : vfield := lin_vf 5 5 1%num 1%num 2%num 0%num (- (1))%num (- (2))%num 1%num 0%num.
Lemma spin_ok : vf_wf spin_vf /\ evenly (ax (vg spin_vf)) 1%num /\ evenly (ay (vg spin_vf)) 1%num /\
  vf_is spin_vf (fun x y => 2 + 0 * x + - (1) * y)%num (fun x y => - (2) + 1 * x + 0 * y)%num.
Proof. apply lin_vf_ok; try lia; reflexivity. Qed.
Lemma spin_spoiled : ~ spoiled 5 5 (both_masks spin_vf None) 1%num 2 2 /\ spoiled 5 5 (both_masks spin_vf None) 1%num 0 2.
Proof.
  destruct spin_ok as (W & _). destruct (neighbourhood_ind_lemma spin_vf None 1%num W I eq_refl) as (k & E & _ & _ & P).
  assert (forall i j, (i < 5)%nat -> (j < 5)%nat -> (skipped k i j = true <-> spoiled 5 5 (both_masks spin_vf None) 1%num i j)) as P' by exact P.
  destruct (ok_ex (neighbourhood spin_vf None 1%num true) (fun k => (negb (skipped k 2 2) && skipped k 0 2)%bool)) as (k' & E' & H); [vm_compute; reflexivity|].
  assert (k' = k) by congruence. subst k'. apply andb_true_iff in H. destruct H as [H1 H2]. split.
  - intro K. apply P' in K; [|lia|lia]. apply negb_true_iff in H1. congruence.
  - apply P'; [lia|lia|exact H2].
Qed.
Lemma spin_gamma : exists v m, get_gamma spin_vf None 1%num true Gamma1 = Ok (v, m) /\ at_ m 2 2 = false /\ at_ v 2 2 = Some 1.
Proof.
  destruct spin_ok as (W & Ex & Ey & F). pose proof (full_clean _ (vf_is_full _ _ _ F)) as C.
  destruct (gamma_lemma spin_vf None 1%num 1%num 1%num Gamma1 W C I Ex Ey eq_refl) as (v & m & E & _ & _ & P).
  destruct (gamma_rotation_lemma spin_vf None 1%num 1%num 1%num Gamma1 2%num (- (2))%num 1%num W I Ex Ey) as (v' & m' & E' & Q).
  { qlra. } { exact F. } { intro K. apply qz_inj in K. discriminate. }
  assert (v' = v) by congruence. assert (m' = m) by congruence. subst v' m'. exists v, m. split; [exact E|].
  assert (at_ m 2 2 = false) as M.
  { destruct (at_ m 2 2) eqn:K; [|reflexivity]. exfalso. apply (proj1 spin_spoiled). apply (P 2%nat 2%nat); [vm_compute; lia|vm_compute; lia|exact K]. }
  split; [exact M|]. destruct (Q 2%nat 2%nat) as [Q1 _]; [vm_compute; lia|vm_compute; lia|exact M| |].
  { right. split; [reflexivity|]. split; vm_compute; do 2 f_equal; apply Qc_is_canon; reflexivity. }
  apply Q1. reflexivity.
Qed.
(** with a distance, the cell itself is counted among its neighbours: gamma1 at the centre of this rotation is 4/5 *)
Definition cross_motif : list (Z * Z) := [(0%Z, (-1)%Z); ((-1)%Z, 0%Z); (0%Z, 0%Z); (1%Z, 0%Z); (0%Z, 1%Z)].
Definition zz_eqb (a b : Z * Z) : bool := ((fst a =? fst b) && (snd a =? snd b))%Z%bool.
Fixpoint zzs_eqb (l m : list (Z * Z)) : bool :=
  match l, m with [], [] => true | a :: l', b :: m' => (zz_eqb a b && zzs_eqb l' m')%bool | _, _ => false end.
Lemma zzs_eq l : forall m, zzs_eqb l m = true -> l = m.
Proof.
  induction l as [|[a b] l IH]; intros [|[c d] m] H; cbn in H; try discriminate; [reflexivity|].
  apply andb_true_iff in H. destruct H as [H1 H2]. unfold zz_eqb in H1. cbn in H1. apply andb_true_iff in H1. destruct H1 as [H1 H3].
  apply Z.eqb_eq in H1. apply Z.eqb_eq in H3. subst. f_equal. now apply IH.
Qed.
Lemma velocities_in f motif i j : vf_wf f ->
  (forall s, In s motif -> (0 <= Z.of_nat i + fst s < Z.of_nat (length (ax (vg f))))%Z /\ (0 <= Z.of_nat j + snd s < Z.of_nat (length (ay (vg f))))%Z) ->
  velocities f motif i j = Ok (all_some (map (fun s => let p := Z.to_nat (Z.of_nat i + fst s) in let q := Z.to_nat (Z.of_nat j + snd s) in
    ovec (at_ (cx f) p q) (at_ (cy f) p q)) motif)).
Proof.
  intros ([X0 X1] & [Y0 Y1] & _) H. unfold velocities.
  rewrite (mapM_map _ (fun s => let p := Z.to_nat (Z.of_nat i + fst s) in let q := Z.to_nat (Z.of_nat j + snd s) in
    ovec (at_ (cx f) p q) (at_ (cy f) p q))); [reflexivity|].
  intros s Hs. destruct (H s Hs) as [H1 H2]. rewrite (read_in (cx f) i j s X0 X1 H1 H2). cbn [bind].
  rewrite (read_in (cy f) i j s Y0 Y1 H1 H2). reflexivity.
Qed.
Lemma cross_unit a b : dot a a = 1 -> dot b b = 1 -> cross_term a b = cross a b.
Proof.
  intros Ha Hb. apply (sine_unique a b); [apply cross_term_sine|]. unfold sine, len. rewrite Ha, Hb, sqrt_1. split; [ring|lra].
Qed.
Lemma gamma_distance_refuted : exists v m, get_gamma spin_vf None 1%num false Gamma1 = Ok (v, m) /\ at_ m 2 2 = false /\ at_ v 2 2 = Some (4 / 5).
Proof.
  destruct spin_ok as (W & Ex & Ey & F).
  destruct (ok_ex (neighbourhood spin_vf None 1%num false)
    (fun k => (zzs_eqb (nmotif k) cross_motif && negb (skipped k 2 2) &&
       forallb (fun p => skipped k (fst p) (snd p) || (Nat.leb 1 (fst p) && Nat.leb (fst p) 3 && Nat.leb 1 (snd p) && Nat.leb (snd p) 3)) (aidx 5 5))%bool))
    as (k & E & H); [vm_compute; reflexivity|].
  apply andb_true_iff in H. destruct H as [H H3]. apply andb_true_iff in H. destruct H as [H1 H2]. apply zzs_eq in H1. apply negb_true_iff in H2.
  rewrite forallb_forall in H3.
  assert (forall i j, (i < 5)%nat -> (j < 5)%nat -> skipped k i j = false ->
    velocities spin_vf cross_motif i j = Ok (all_some (map (fun s => let p := Z.to_nat (Z.of_nat i + fst s) in let q := Z.to_nat (Z.of_nat j + snd s) in
      ovec (at_ (cx spin_vf) p q) (at_ (cy spin_vf) p q)) cross_motif))) as V.
  { intros i j Hi Hj S. assert (In (i, j) (aidx 5 5)) as In5 by (apply in_aidx; lia). pose proof (H3 _ In5) as K. cbn [fst snd] in K. rewrite S in K. cbn [orb] in K.
    apply andb_true_iff in K. destruct K as [K K4]. apply andb_true_iff in K. destruct K as [K K3]. apply andb_true_iff in K. destruct K as [K1 K2].
    apply Nat.leb_le in K1. apply Nat.leb_le in K2. apply Nat.leb_le in K3. apply Nat.leb_le in K4.
    apply velocities_in; [exact W|]. change (length (ax (vg spin_vf))) with 5%nat. change (length (ay (vg spin_vf))) with 5%nat.
    intros s Hs. cbn in Hs. destruct Hs as [<-|[<-|[<-|[<-|[<-|[]]]]]]; cbn [fst snd]; lia. }
  unfold get_gamma, criterion. rewrite E. cbn [bind]. rewrite H1. change (length (ax (vg spin_vf))) with 5%nat. change (length (ay (vg spin_vf))) with 5%nat.
  cbn [Nat.ltb Nat.leb orb guard].
  rewrite each_cell_ok.
  2: { intros i j Hi Hj. destruct (skipped k i j) eqn:S; [eauto|]. rewrite (V i j Hi Hj S). cbn [bind]. eauto. }
  cbn [bind]. eexists. eexists. split; [reflexivity|]. cbn [at_]. split; [exact H2|]. rewrite H2, (V 2%nat 2%nat ltac:(lia) ltac:(lia) H2).
  cbn [bind cell_or]. rewrite (evenly_step _ _ Ex), (evenly_step _ _ Ey).
  assert (forall p q, (p < 5)%nat -> (q < 5)%nat -> ovec (at_ (cx spin_vf) p q) (at_ (cy spin_vf) p q) = Some (2 - INR q, INR p - 2)) as O.
  { intros p q Hp Hq. destruct (proj1 (vf_is_idx spin_vf _ _) F p q Hp Hq) as (-> & -> & _). cbn [ovec].
    assert (forall l i, evenly l 1%num -> nths l 0 = 0%num -> (i < length l)%nat -> toR (nths l i) = INR i) as A.
    { intros l i (_ & _ & El) H0 Hl. rewrite (El i Hl), H0, toR_add, toR_mul, toR_0, toR_1. unfold qn. rewrite toR_qz, <- INR_IZR_INZ. ring. }
    rewrite !toR_add, !toR_mul, !toR_opp, toR_0, toR_1.
    rewrite (A _ p Ex eq_refl Hp), (A _ q Ey eq_refl Hq). change 2%num with (qz 2). rewrite toR_qz. f_equal. f_equal; ring. }
  unfold cross_motif at 2. cbn [map fst snd]. cbv zeta. rewrite !O by (vm_compute; lia). cbn [all_some option_map]. f_equal.
  unfold gamma_of, arms, cross_motif. cbn [map combine rsum length fst snd]. rewrite toR_1.
  unfold vminus. cbn [fst snd].
  change (Z.to_nat (Z.of_nat 2 + 0)) with 2%nat. change (Z.to_nat (Z.of_nat 2 + 1)) with 3%nat. change (Z.to_nat (Z.of_nat 2 + -1)) with 1%nat.
  cbn [INR]. rewrite (cross_unit (0 * 1, -1 * 1)), (cross_unit (-1 * 1, 0 * 1)), (cross_unit (1 * 1, 0 * 1)), (cross_unit (0 * 1, 1 * 1));
    try (unfold dot; cbn [fst snd]; ring).
  assert (cross_term (0 * 1, 0 * 1) (2 - (1 + 1) - 0, 1 + 1 - 2 - 0) = 0) as ->.
  { unfold cross_term. destruct (Req_EM_T _ 0) as [Z|Z]; [reflexivity|]. exfalso. apply Z. unfold norm2. cbn [fst snd].
    replace (0 * 1 * (0 * 1) + 0 * 1 * (0 * 1)) with 0 by ring. rewrite sqrt_0. ring. }
  unfold cross. cbn [fst snd]. field.
Qed.
