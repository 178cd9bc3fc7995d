(** * CriterionProofs2: what the gamma and kappa criteria are at each cell (radius in cells) *)
From Coq Require Import Reals Lra Qreals Permutation.
From Verif Require Import Num Res ListLib Arr FieldModel ScalarFieldModel VectorFieldModel PointsModel FieldSpec FieldProofs
  GradModel GradSpec GradProofs GradProofs3 GradProofs5 CriterionModel CriterionSpec CriterionProofs.
#[local] Open Scope R_scope.

(** ** Qc in R *)
Lemma toR_add a b : toR (a + b)%num = toR a + toR b.
Proof. unfold toR. rewrite <- Q2R_plus. apply Qeq_eqR. apply Qred_correct. Qed.
Lemma toR_mul a b : toR (a * b)%num = toR a * toR b.
Proof. unfold toR. rewrite <- Q2R_mult. apply Qeq_eqR. apply Qred_correct. Qed.
Lemma toR_opp a : toR (- a)%num = - toR a.
Proof. unfold toR. rewrite <- Q2R_opp. apply Qeq_eqR. apply Qred_correct. Qed.
Lemma toR_qz z : toR (qz z) = IZR z.
Proof. transitivity (Q2R (inject_Z z)); [apply Qeq_eqR, Qred_correct|]. unfold Q2R. cbn. field. Qed.
Lemma toR_lt a b : (a < b)%num <-> toR a < toR b.
Proof. unfold toR, Qclt. split; [apply Qlt_Rlt|apply Rlt_Qlt]. Qed.
Lemma toR_inj a b : toR a = toR b -> a = b.
Proof. unfold toR. intro H. apply Qc_is_canon. now apply eqR_Qeq. Qed.

(** ** the cells *)
Definition velo (f : vfield) (c : nat * nat) : vec :=
  match ovec (at_ (cx f) (fst c) (snd c)) (at_ (cy f) (fst c) (snd c)) with Some v => v | None => (0, 0) end.
Lemma velo_spec f c x y : at_ (cx f) (fst c) (snd c) = Some x -> at_ (cy f) (fst c) (snd c) = Some y -> has_velocity f c (velo f c).
Proof. intros Hx Hy. exists x, y. unfold velo. rewrite Hx, Hy. auto. Qed.
Lemma all_some_map {A} (l : list A) : all_some (map Some l) = Some l.
Proof. induction l as [|a l IH]; [reflexivity|]. cbn. now rewrite IH. Qed.
Lemma velocities_run f user r motif i j : vf_wf f -> vf_clean f ->
  (forall a b, In (a, b) motif <-> (a, b) <> (0, 0)%Z /\ disc r 0 0 a b) ->
  ~ spoiled (length (ax (vg f))) (length (ay (vg f))) (both_masks f user) r i j ->
  velocities f motif i j = Ok (Some (map (velo f) (cells_of motif i j))) /\
  Forall (fun c => has_velocity f c (velo f c)) (cells_of motif i j).
Proof.
  intros ([X0 X1] & [Y0 Y1] & _) C Sm Ns. pose proof (not_spoiled _ _ _ _ _ _ Ns) as P.
  assert (forall s, In s motif -> let c := (Z.to_nat (Z.of_nat i + fst s), Z.to_nat (Z.of_nat j + snd s)) in
    read_at (cx f) i j s = Ok (at_ (cx f) (fst c) (snd c)) /\ read_at (cy f) i j s = Ok (at_ (cy f) (fst c) (snd c)) /\
    has_velocity f c (velo f c)) as K.
  { intros [a b] Hs. cbv zeta. apply Sm in Hs. destruct Hs as [_ D]. destruct (P _ _ (disc_of_shift r i j (a, b) D)) as (Q1 & Q2 & M).
    cbn [fst snd] in *. split; [now apply (read_in (cx f) i j (a, b) X0 X1)|]. split; [now apply (read_in (cy f) i j (a, b) Y0 Y1)|].
    set (p := Z.to_nat (Z.of_nat i + a)) in *. set (q := Z.to_nat (Z.of_nat j + b)) in *.
    assert (p < length (ax (vg f)))%nat as Hp by lia. assert (q < length (ay (vg f)))%nat as Hq by lia.
    assert (at_ (vmsk f) p q = false) as M'. { unfold both_masks in M. destruct user; [|exact M]. now apply orb_false_iff in M. }
    destruct (C p q Hp Hq) as [Cx Cy].
    destruct (at_ (cx f) p q) as [x|] eqn:Ex; [|rewrite (proj1 Cx eq_refl) in M'; discriminate].
    destruct (at_ (cy f) p q) as [y|] eqn:Ey; [|rewrite (proj1 Cy eq_refl) in M'; discriminate].
    now apply (velo_spec f (p, q) x y). }
  split.
  - unfold velocities.
    rewrite (mapM_map _ (fun s => Some (velo f (Z.to_nat (Z.of_nat i + fst s), Z.to_nat (Z.of_nat j + snd s))))).
    + cbn [bind]. unfold cells_of. rewrite map_map. rewrite <- (map_map (fun s => velo f (Z.to_nat (Z.of_nat i + fst s), Z.to_nat (Z.of_nat j + snd s))) Some).
      now rewrite all_some_map.
    + intros s Hs. destruct (K s Hs) as (-> & -> & x & y & Ex & Ey & Ev). cbn [bind]. rewrite Ev, Ex, Ey. reflexivity.
  - unfold cells_of. apply Forall_forall. intros c Hc. apply in_map_iff in Hc. destruct Hc as (s & <- & Hs). now apply K.
Qed.
Lemma arms_run f hx hy n m mask r motif i j : evenly (ax (vg f)) hx -> evenly (ay (vg f)) hy -> n = length (ax (vg f)) -> m = length (ay (vg f)) ->
  (i < n)%nat -> (j < m)%nat ->
  (forall a b, In (a, b) motif <-> (a, b) <> (0, 0)%Z /\ disc r 0 0 a b) -> ~ spoiled n m mask r i j ->
  arms motif (toR hx) (toR hy) = map (fun c => vsub (cell_pos f c) (cell_pos f (i, j))) (cells_of motif i j).
Proof.
  intros (_ & _ & Ex) (_ & _ & Ey) -> -> Hi Hj Sm Ns. unfold arms, cells_of. rewrite map_map. apply map_ext_in. intros [a b] Hs.
  apply Sm in Hs. destruct Hs as [_ D]. destruct (not_spoiled _ _ _ _ _ _ Ns _ _ (disc_of_shift r i j (a, b) D)) as (Q1 & Q2 & _).
  unfold vsub, cell_pos. cbn [fst snd] in *. rewrite (Ex i Hi), (Ey j Hj).
  rewrite (Ex (Z.to_nat (Z.of_nat i + a))), (Ey (Z.to_nat (Z.of_nat j + b))) by lia.
  rewrite !toR_add, !toR_mul. unfold qn. rewrite !toR_qz, !Z2Nat.id, !plus_IZR by lia. f_equal; ring.
Qed.
Lemma criterion_run f user r hx hy at_cell : vf_wf f -> vf_clean f -> user_fits f user -> evenly (ax (vg f)) hx -> evenly (ay (vg f)) hy -> (0 < r)%num ->
  (forall motif i j, (i < length (ax (vg f)))%nat -> (j < length (ay (vg f)))%nat ->
     (forall a b, In (a, b) motif <-> (a, b) <> (0, 0)%Z /\ disc r 0 0 a b) ->
     ~ spoiled (length (ax (vg f))) (length (ay (vg f))) (both_masks f user) r i j -> exists o, at_cell (toR hx) (toR hy) motif i j = Ok o) ->
  exists v m, criterion f user r true at_cell = Ok (v, m) /\
    has_shape v (length (ax (vg f))) (length (ay (vg f))) /\ has_shape m (length (ax (vg f))) (length (ay (vg f))) /\
    exists motif, NoDup motif /\ (forall a b, In (a, b) motif <-> (a, b) <> (0, 0)%Z /\ disc r 0 0 a b) /\
    forall i j, (i < length (ax (vg f)))%nat -> (j < length (ay (vg f)))%nat ->
      (at_ m i j = true <-> spoiled (length (ax (vg f))) (length (ay (vg f))) (both_masks f user) r i j) /\
      (at_ m i j = true -> at_ v i j = Some 0) /\
      (at_ m i j = false -> ~ spoiled (length (ax (vg f))) (length (ay (vg f))) (both_masks f user) r i j /\
         neighbours r i j (cells_of motif i j) /\ at_cell (toR hx) (toR hy) motif i j = Ok (at_ v i j)).
Proof.
  intros W C U Ex Ey Hr H. destruct (neighbourhood_ind_lemma f user r W U Hr) as (k & Ek & N & Sm & Sk).
  pose proof Ex as (_ & Lx & _). pose proof Ey as (_ & Ly & _).
  unfold criterion. rewrite Ek. cbn [bind]. rewrite !ltb2 by assumption. cbn [orb guard].
  rewrite (evenly_step _ _ Ex), (evenly_step _ _ Ey).
  set (n := length (ax (vg f))) in *. set (m := length (ay (vg f))) in *.
  assert (forall i j, (i < n)%nat -> (j < m)%nat -> skipped k i j = false -> ~ spoiled n m (both_masks f user) r i j /\
            exists o, at_cell (toR hx) (toR hy) (nmotif k) i j = Ok o) as Cell.
  { intros i j Hi Hj K. assert (~ spoiled n m (both_masks f user) r i j) as Ns by (intro Sp; apply (Sk i j Hi Hj) in Sp; congruence).
    split; [exact Ns|]. now apply H. }
  rewrite each_cell_ok.
  2: { intros i j Hi Hj. destruct (skipped k i j) eqn:K; [eauto|]. now apply Cell. }
  cbn [bind]. eexists _, _. split; [reflexivity|]. split; [split; reflexivity|]. split; [split; reflexivity|].
  exists (nmotif k). split; [exact N|]. split; [exact Sm|]. intros i j Hi Hj. cbn [at_]. split; [now apply Sk|].
  destruct (skipped k i j) eqn:K; (split; [try discriminate; reflexivity|]); [discriminate|]. intros _.
  destruct (Cell i j Hi Hj K) as [Ns [o Eo]]. split; [exact Ns|]. split; [|now rewrite Eo].
  now apply (cells_neighbours n m (both_masks f user) r (nmotif k) i j N Sm Ns).
Qed.

(** ** gamma *)
Lemma total_sine arm vel c : length arm = length vel ->
  mean_sine arm vel c (rsum (map (fun p => cross_term (fst p) (vminus c (snd p))) (combine arm vel)) / INR (length vel)).
Proof.
  intro L. exists (map (fun p => cross_term (fst p) (vminus c (snd p))) (combine arm vel)).
  assert (length (map (fun p => cross_term (fst p) (vminus c (snd p))) (combine arm vel)) = length vel) as Lm by (rewrite map_length; now apply combine_len).
  split; [exact Lm|]. split; [now apply mean_is_div|]. apply forall2_map. intro a. apply cross_term_sine.
Qed.
Lemma total_cosine arm vel c : length arm = length vel ->
  mean_cosine arm vel c (rsum (map (fun p => dot_term (fst p) (vminus c (snd p))) (combine arm vel)) / INR (length vel)).
Proof.
  intro L. exists (map (fun p => dot_term (fst p) (vminus c (snd p))) (combine arm vel)).
  assert (length (map (fun p => dot_term (fst p) (vminus c (snd p))) (combine arm vel)) = length vel) as Lm by (rewrite map_length; now apply combine_len).
  split; [exact Lm|]. split; [now apply mean_is_div|]. apply forall2_map. intro a. apply dot_term_cosine.
Qed.
Lemma rsum_plus {A} (f g : A -> R) l : rsum (map f l) + rsum (map g l) = rsum (map (fun a => f a + g a) l).
Proof. induction l as [|a l IH]; cbn; [ring|]. rewrite <- IH. ring. Qed.
Lemma rsum_nonneg l : (forall x, In x l -> 0 <= x) -> 0 <= rsum l.
Proof. induction l as [|a l IH]; intro H; cbn; [lra|]. pose proof (H a (or_introl eq_refl)). specialize (IH (fun x K => H x (or_intror K))). lra. Qed.
Lemma div_nonneg a n : 0 <= a -> 0 <= a / INR n.
Proof.
  intro H. destruct n as [|n]; [cbn; unfold Rdiv; rewrite Rinv_0; lra|]. apply Rmult_le_pos; [exact H|]. apply Rlt_le, Rinv_0_lt_compat, lt_0_INR. lia.
Qed.
Lemma gamma_of_is kind arm vel : length arm = length vel -> gamma_is kind arm vel (gamma_of kind arm vel).
Proof.
  intro L. destruct kind; unfold gamma_is, gamma_of.
  - now apply total_sine.
  - exists (vmean vel). eexists. split; [apply vmean_vmean_is|]. split; [now apply total_sine|reflexivity].
  - exists (vmean vel). split; [apply vmean_vmean_is|]. now apply total_sine.
  - set (w := vmean vel). set (sx := rmean (map (fun v => (fst v - fst w) * (fst v - fst w)) vel)).
    set (sy := rmean (map (fun v => (snd v - snd w) * (snd v - snd w)) vel)).
    change (norm2 (fst w) (snd w)) with (len w).
    set (fact := if Req_EM_T (len w) 0 then 1 else sqrt (sx + sy) / len w).
    exists w. eexists. exists (if Rlt_dec 1 (Rabs fact) then 1 else fact). split; [apply vmean_vmean_is|]. split; [now apply total_sine|].
    split; [reflexivity|]. assert (0 <= fact) as Hf by (apply fact_nonneg, sqrt_pos). split; [now apply fact_bound|].
    exists (sqrt (sx + sy)).
    assert (sx + sy = rmean (map (fun v => dot (vsub v w) (vsub v w)) vel)) as Es.
    { unfold sx, sy, rmean. rewrite !map_length. unfold Rdiv. rewrite <- Rmult_plus_distr_r, rsum_plus. reflexivity. }
    assert (0 <= sx + sy) as Hs.
    { rewrite Es. apply div_nonneg, rsum_nonneg. intros x Hx. apply in_map_iff in Hx. destruct Hx as (v & <- & _). apply dot_nonneg. }
    rewrite sqrt_sqrt by exact Hs. rewrite Es at 1. split; [apply rmean_is|]. split; [apply sqrt_pos|].
    rewrite Rabs_right by lra. unfold fact. pose proof (len_nonneg w). split.
    + intros Hl Hp. destruct (Req_EM_T (len w) 0); [lra|].
      assert (sqrt (sx + sy) / len w <= 1). { apply (Rmult_le_reg_r (len w)); [lra|]. unfold Rdiv. rewrite Rmult_assoc, Rinv_l, Rmult_1_r; lra. }
      destruct (Rlt_dec 1 (sqrt (sx + sy) / len w)); [lra|]. unfold Rdiv. rewrite Rmult_assoc, Rinv_l; lra.
    + intros Hl. destruct (Req_EM_T (len w) 0); [destruct (Rlt_dec 1 1); reflexivity|].
      assert (1 < sqrt (sx + sy) / len w). { apply (Rmult_lt_reg_r (len w)); [lra|]. unfold Rdiv. rewrite Rmult_assoc, Rinv_l, Rmult_1_r; lra. }
      destruct (Rlt_dec 1 (sqrt (sx + sy) / len w)); [reflexivity|lra].
Qed.
Lemma shows_velo f l : Forall (fun c => has_velocity f c (velo f c)) l -> shows_velocities f l (map (velo f) l).
Proof. induction 1; constructor; auto. Qed.
Lemma gamma_lemma f user r hx hy kind : vf_wf f -> vf_clean f -> user_fits f user -> evenly (ax (vg f)) hx -> evenly (ay (vg f)) hy -> (0 < r)%num ->
  exists v m, get_gamma f user r true kind = Ok (v, m) /\
    has_shape v (length (ax (vg f))) (length (ay (vg f))) /\ has_shape m (length (ax (vg f))) (length (ay (vg f))) /\
    forall i j, (i < length (ax (vg f)))%nat -> (j < length (ay (vg f)))%nat ->
      (at_ m i j = true <-> spoiled (length (ax (vg f))) (length (ay (vg f))) (both_masks f user) r i j) /\
      (at_ m i j = false -> exists l vel g, neighbours r i j l /\ shows_velocities f l vel /\
         at_ v i j = Some g /\ gamma_is kind (map (fun c => vsub (cell_pos f c) (cell_pos f (i, j))) l) vel g).
Proof.
  intros W C U Ex Ey Hr.
  destruct (criterion_run f user r hx hy (fun dx dy motif i j => let* o := velocities f motif i j in Ok (option_map (gamma_of kind (arms motif dx dy)) o))
              W C U Ex Ey Hr) as (v & m & E & Sv & Sm & motif & N & Hm & P).
  { intros motif i j Hi Hj Hm Ns. destruct (velocities_run f user r motif i j W C Hm Ns) as [-> _]. cbn [bind]. eauto. }
  exists v, m. split; [exact E|]. split; [exact Sv|]. split; [exact Sm|]. intros i j Hi Hj. destruct (P i j Hi Hj) as (P1 & _ & P3).
  split; [exact P1|]. intro K. destruct (P3 K) as (Ns & Nb & Ec). exists (cells_of motif i j), (map (velo f) (cells_of motif i j)).
  destruct (velocities_run f user r motif i j W C Hm Ns) as [Ev Sh]. rewrite Ev in Ec. cbn [bind option_map] in Ec. injection Ec as Ec.
  eexists. split; [exact Nb|]. split; [now apply shows_velo|]. split; [symmetry; exact Ec|].
  rewrite (arms_run f hx hy _ _ _ r motif i j Ex Ey eq_refl eq_refl Hi Hj Hm Ns). apply gamma_of_is. now rewrite !map_length.
Qed.
(** kappa: the velocities are relative to the one of the cell for kappa2 *)
Lemma kappa_lemma f user r hx hy (relative : bool) : vf_wf f -> vf_clean f -> user_fits f user -> evenly (ax (vg f)) hx -> evenly (ay (vg f)) hy -> (0 < r)%num ->
  exists v m, get_kappa f user r true relative = Ok (v, m) /\
    has_shape v (length (ax (vg f))) (length (ay (vg f))) /\ has_shape m (length (ax (vg f))) (length (ay (vg f))) /\
    forall i j, (i < length (ax (vg f)))%nat -> (j < length (ay (vg f)))%nat ->
      (at_ m i j = true <-> spoiled (length (ax (vg f))) (length (ay (vg f))) (both_masks f user) r i j) /\
      (at_ m i j = false -> exists l vel w g, neighbours r i j l /\ shows_velocities f l vel /\
         (if relative then has_velocity f (i, j) w else w = (0, 0)) /\
         at_ v i j = Some g /\ mean_cosine (map (fun c => vsub (cell_pos f c) (cell_pos f (i, j))) l) vel w g).
Proof.
  intros W C U Ex Ey Hr.
  assert (forall i j, (i < length (ax (vg f)))%nat -> (j < length (ay (vg f)))%nat ->
     ~ spoiled (length (ax (vg f))) (length (ay (vg f))) (both_masks f user) r i j -> 
     has_velocity f (i, j) (velo f (i, j))) as Hc.
  { intros i j Hi Hj Ns. destruct (not_spoiled _ _ _ _ _ _ Ns (Z.of_nat i) (Z.of_nat j)) as (_ & _ & M).
    { unfold disc. replace (Z.of_nat i - Z.of_nat i)%Z with 0%Z by lia. replace (Z.of_nat j - Z.of_nat j)%Z with 0%Z by lia.
      pose proof (qsq_nonneg r). change (qz 0) with 0%num. qlra. }
    rewrite !Nat2Z.id in M.
    assert (at_ (vmsk f) i j = false) as M'. { unfold both_masks in M. destruct user; [|exact M]. now apply orb_false_iff in M. }
    destruct (C i j Hi Hj) as [Cx Cy].
    destruct (at_ (cx f) i j) as [x|] eqn:E1; [|rewrite (proj1 Cx eq_refl) in M'; discriminate].
    destruct (at_ (cy f) i j) as [y|] eqn:E2; [|rewrite (proj1 Cy eq_refl) in M'; discriminate].
    now apply (velo_spec f (i, j) x y). }
  destruct (criterion_run f user r hx hy (fun dx dy motif i j => let* o := velocities f motif i j in
              Ok (match o, (if relative then ovec (at_ (cx f) i j) (at_ (cy f) i j) else Some (0, 0)) with
                  | Some vel, Some c => Some (kappa_of (arms motif dx dy) vel c) | _, _ => None end))
              W C U Ex Ey Hr) as (v & m & E & Sv & Sm & motif & N & Hm & P).
  { intros motif i j Hi Hj Hm Ns. destruct (velocities_run f user r motif i j W C Hm Ns) as [-> _]. cbn [bind]. eauto. }
  exists v, m. split; [exact E|]. split; [exact Sv|]. split; [exact Sm|]. intros i j Hi Hj. destruct (P i j Hi Hj) as (P1 & _ & P3).
  split; [exact P1|]. intro K. destruct (P3 K) as (Ns & Nb & Ec). exists (cells_of motif i j), (map (velo f) (cells_of motif i j)).
  destruct (velocities_run f user r motif i j W C Hm Ns) as [Ev Sh]. rewrite Ev in Ec. cbn [bind] in Ec.
  assert (exists w, (if relative then has_velocity f (i, j) w else w = (0, 0)) /\
            (if relative then ovec (at_ (cx f) i j) (at_ (cy f) i j) else Some (0, 0)) = Some w) as (w & Hw & Ew).
  { destruct relative; [|eauto]. pose proof (Hc i j Hi Hj Ns) as V. exists (velo f (i, j)). split; [exact V|].
    destruct V as (x & y & E1 & E2 & ->). cbn [fst snd] in E1, E2. now rewrite E1, E2. }
  rewrite Ew in Ec. injection Ec as Ec. exists w. eexists. split; [exact Nb|]. split; [now apply shows_velo|]. split; [exact Hw|].
  split; [symmetry; exact Ec|]. unfold kappa_of.
  rewrite (arms_run f hx hy _ _ _ r motif i j Ex Ey eq_refl eq_refl Hi Hj Hm Ns). apply total_cosine. now rewrite !map_length.
Qed.
