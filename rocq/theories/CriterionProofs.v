(** * CriterionProofs: bounds and values of the gamma and kappa criteria *)
From Coq Require Import Reals Lra Qreals Permutation.
From Verif Require Import Num Res ListLib Arr FieldModel ScalarFieldModel VectorFieldModel PointsModel FieldSpec FieldProofs
  GradModel GradSpec GradProofs GradProofs3 GradProofs5 CriterionModel CriterionSpec.
#[local] Open Scope R_scope.

(** ** one term *)
Lemma norm2_len x y : norm2 x y = len (x, y).
Proof. reflexivity. Qed.
Lemma len_nonneg a : 0 <= len a.
Proof. apply sqrt_pos. Qed.
Lemma dot_nonneg a : 0 <= dot a a.
Proof. unfold dot. nra. Qed.
Lemma len_sq a : len a * len a = dot a a.
Proof. apply sqrt_sqrt, dot_nonneg. Qed.
Lemma cross_dot_sq a b : cross a b * cross a b + dot a b * dot a b = dot a a * dot b b.
Proof. unfold cross, dot. ring. Qed.
Lemma len_prod_sq a b : (len a * len b) * (len a * len b) = dot a a * dot b b.
Proof. rewrite <- (len_sq a), <- (len_sq b). ring. Qed.
Lemma abs_le_of_sq x d : 0 <= d -> x * x <= d * d -> - d <= x <= d.
Proof. intros Hd H. split; nra. Qed.
Lemma cross_bound a b : - (len a * len b) <= cross a b <= len a * len b.
Proof.
  apply abs_le_of_sq; [apply Rmult_le_pos; apply len_nonneg|]. rewrite len_prod_sq. pose proof (cross_dot_sq a b). nra.
Qed.
Lemma dot_bound a b : - (len a * len b) <= dot a b <= len a * len b.
Proof.
  apply abs_le_of_sq; [apply Rmult_le_pos; apply len_nonneg|]. rewrite len_prod_sq. pose proof (cross_dot_sq a b). nra.
Qed.
Lemma cross_term_sine a b : sine a b (cross_term a b).
Proof.
  unfold sine, cross_term. rewrite !norm2_len, <- !surjective_pairing. rewrite (Rmult_comm (len b)).
  destruct (Req_EM_T (len a * len b) 0) as [Z|Z]; split; try reflexivity; try tauto.
  - pose proof (cross_bound a b). rewrite Z in *. lra.
  - unfold Rdiv. now rewrite Rmult_assoc, Rinv_l, Rmult_1_r by exact Z.
Qed.
Lemma dot_term_cosine a b : cosine a b (dot_term a b).
Proof.
  unfold cosine, dot_term. rewrite !norm2_len, <- !surjective_pairing. rewrite (Rmult_comm (len b)).
  destruct (Req_EM_T (len a * len b) 0) as [Z|Z]; split; try reflexivity; try tauto.
  - pose proof (dot_bound a b). rewrite Z in *. lra.
  - unfold Rdiv. now rewrite Rmult_assoc, Rinv_l, Rmult_1_r by exact Z.
Qed.
Lemma ratio_bound s d x : 0 <= d -> s * d = x -> (d = 0 -> s = 0) -> - d <= x <= d -> -1 <= s <= 1.
Proof.
  intros Hd E Z B. destruct (Req_EM_T d 0) as [D|D]; [rewrite (Z D); lra|]. subst x. assert (0 < d) by lra.
  split; [destruct (Rle_dec (-1) s)|destruct (Rle_dec s 1)]; try assumption; exfalso; nra.
Qed.
Lemma sine_bound a b s : sine a b s -> -1 <= s <= 1.
Proof.
  intros [E Z]. apply (ratio_bound s (len a * len b) (cross a b)); auto; [|apply cross_bound].
  apply Rmult_le_pos; apply len_nonneg.
Qed.
Lemma cosine_bound a b s : cosine a b s -> -1 <= s <= 1.
Proof.
  intros [E Z]. apply (ratio_bound s (len a * len b) (dot a b)); auto; [|apply dot_bound].
  apply Rmult_le_pos; apply len_nonneg.
Qed.
Lemma sine_unique a b s s' : sine a b s -> sine a b s' -> s = s'.
Proof.
  intros [E Z] [E' Z']. destruct (Req_EM_T (len a * len b) 0) as [D|D]; [rewrite (Z D), (Z' D); reflexivity|].
  apply (Rmult_eq_reg_r (len a * len b)); congruence.
Qed.

(** ** means *)
Lemma rsum_fold l : rsum l = fold_right Rplus 0 l.
Proof. induction l as [|a l IH]; [reflexivity|]. cbn. now rewrite IH. Qed.
Lemma rsum_bound l : (forall x, In x l -> -1 <= x <= 1) -> - INR (length l) <= rsum l <= INR (length l).
Proof.
  induction l as [|a l IH]; intro H; [cbn; lra|]. cbn [rsum length]. rewrite S_INR.
  pose proof (H a (or_introl eq_refl)). specialize (IH (fun x Hx => H x (or_intror Hx))). lra.
Qed.
Lemma mean_bound l n : (length l <= n)%nat -> (forall x, In x l -> -1 <= x <= 1) -> -1 <= rsum l / INR n <= 1.
Proof.
  intros L H. pose proof (rsum_bound l H) as B. pose proof (le_INR _ _ L) as Ln. pose proof (pos_INR (length l)).
  destruct n as [|n].
  - destruct l; [|cbn in L; lia]. cbn [rsum INR]. unfold Rdiv. rewrite Rmult_0_l. lra.
  - assert (0 < INR (S n)) by (apply lt_0_INR; lia).
    split; [apply (Rmult_le_reg_r (INR (S n)))|apply (Rmult_le_reg_r (INR (S n)))]; try assumption;
      unfold Rdiv; rewrite Rmult_assoc, Rinv_l, Rmult_1_r by lra; lra.
Qed.
Lemma mean_is_div l n : n = length l -> mean_is l (rsum l / INR n).
Proof.
  intros ->. unfold mean_is. pose proof (rsum_fold l) as E. symmetry in E. refine (eq_trans _ (eq_sym E)). clear E. destruct l as [|a l]; [cbn; ring|].
  field. change (INR (length (a :: l)) <> 0). apply not_0_INR. discriminate.
Qed.
Lemma rmean_is l : mean_is l (rmean l).
Proof. now apply mean_is_div. Qed.
Lemma vmean_vmean_is l : vmean_is l (vmean l).
Proof. split; apply rmean_is. Qed.
Lemma combine_len {A B} (l : list A) (l' : list B) : length l = length l' -> length (combine l l') = length l'.
Proof. intro H. rewrite combine_length. lia. Qed.
Lemma forall2_map {A C} (P : A -> C -> Prop) (f : A -> C) (l : list A) : (forall a, P a (f a)) -> Forall2 P l (map f l).
Proof. intro H. induction l; constructor; auto. Qed.

(** ** the criteria at a cell *)
Lemma total_bound f arm vel n : (forall a b, -1 <= f a b <= 1) -> n = length vel ->
  -1 <= rsum (map (fun p => f (fst p) (snd p)) (combine arm vel : list (vec * vec))) / INR n <= 1.
Proof.
  intros H ->. apply mean_bound.
  - rewrite map_length, combine_length. lia.
  - intros x Hx. apply in_map_iff in Hx. destruct Hx as (p & <- & _). apply H.
Qed.
Lemma gamma_total_bound arm vel c : -1 <= rsum (map (fun p => cross_term (fst p) (vminus c (snd p))) (combine arm vel)) / INR (length vel) <= 1.
Proof. apply (total_bound (fun a b => cross_term a (vminus c b))); [|reflexivity]. intros a b. apply (sine_bound _ _ _ (cross_term_sine a (vminus c b))). Qed.
Lemma prod_bound x k : -1 <= x <= 1 -> 0 <= k <= 1 -> -1 <= x * k <= 1.
Proof. intros. split; nra. Qed.
Lemma fact_bound (x : R) : 0 <= x -> 0 <= (if Rlt_dec 1 (Rabs x) then 1 else x) <= 1.
Proof. intro H. rewrite Rabs_right by lra. destruct (Rlt_dec 1 x); lra. Qed.
Lemma fact_nonneg (s d : R) : 0 <= s -> 0 <= (if Req_EM_T (sqrt d) 0 then 1 else s / sqrt d).
Proof.
  intro H. destruct (Req_EM_T (sqrt d) 0) as [Z|Z]; [lra|]. apply Rmult_le_pos; [exact H|].
  apply Rlt_le, Rinv_0_lt_compat. pose proof (sqrt_pos d). lra.
Qed.
Lemma gamma_of_bound kind arm vel : kind <> Gamma1b -> -1 <= gamma_of kind arm vel <= 1.
Proof.
  intro K. destruct kind; [| congruence | |]; unfold gamma_of; try apply gamma_total_bound.
  apply prod_bound; [apply gamma_total_bound|]. apply fact_bound. apply fact_nonneg. apply sqrt_pos.
Qed.
Lemma gamma1b_bound arm vel : Rabs (gamma_of Gamma1b arm vel) <= len (vmean vel).
Proof.
  unfold gamma_of. rewrite Rabs_mult. change (norm2 (fst (vmean vel)) (snd (vmean vel))) with (len (vmean vel)).
  rewrite (Rabs_right (len _)) by (apply Rle_ge, len_nonneg). pose proof (gamma_total_bound arm vel (0, 0)) as B. pose proof (len_nonneg (vmean vel)).
  apply Rabs_le in B. nra.
Qed.
Lemma kappa_of_bound arm vel c : -1 <= kappa_of arm vel c <= 1.
Proof.
  unfold kappa_of. apply (total_bound (fun a b => dot_term a (vminus c b))); [|reflexivity]. intros a b. apply (cosine_bound _ _ _ (dot_term_cosine a (vminus c b))).
Qed.

(** ** the bounds, for every cell of every result *)
Lemma each_cell_inv {A} n m (f : nat -> nat -> res A) u : each_cell n m f = Ok u -> forall i j, (i < n)%nat -> (j < m)%nat -> exists a, f i j = Ok a.
Proof.
  unfold each_cell. intro H. destruct (mapM (fun p => f (fst p) (snd p)) (aidx n m)) as [l|] eqn:E; [|discriminate]. intros i j Hi Hj.
  assert (In (i, j) (aidx n m)) as I by (apply in_aidx; tauto). clear H. revert l E I. generalize (aidx n m). intro l.
  induction l as [|p l IH]; intros l' E I; [contradiction|]. cbn [mapM] in E. destruct (f (fst p) (snd p)) as [a|] eqn:Ea; [|discriminate].
  cbn [bind] in E. destruct (mapM _ l) as [r|] eqn:Er; [|discriminate]. destruct I as [->|I]; [eauto|]. now apply (IH r).
Qed.
Lemma criterion_cells f user r ind at_cell v m : criterion f user r ind at_cell = Ok (v, m) ->
  d0 v = length (ax (vg f)) /\ d1 v = length (ay (vg f)) /\
  exists k, neighbourhood f user r ind = Ok k /\ forall i j, (i < d0 v)%nat -> (j < d1 v)%nat -> at_ m i j = skipped k i j /\
    (skipped k i j = true -> at_ v i j = Some 0) /\
    (skipped k i j = false -> at_cell (toR (step0 (ax (vg f)))) (toR (step0 (ay (vg f)))) (nmotif k) i j = Ok (at_ v i j)).
Proof.
  unfold criterion. destruct (neighbourhood f user r ind) as [k|]; [|discriminate]. cbn [bind].
  destruct (_ || _)%bool; [discriminate|]. cbn [guard].
  set (cell := fun i j => if skipped k i j then _ else _). destruct (each_cell _ _ cell) eqn:E; [|discriminate]. cbn [bind].
  intro H. injection H as <- <-. cbn [d0 d1 at_]. split; [reflexivity|]. split; [reflexivity|]. exists k. split; [reflexivity|].
  intros i j Hi Hj. split; [reflexivity|]. destruct (each_cell_inv _ _ _ _ E i j Hi Hj) as (x & Ex).
  unfold cell in *. destruct (skipped k i j); [split; [reflexivity|discriminate]|]. split; [discriminate|]. intros _. rewrite Ex. reflexivity.
Qed.
Lemma gamma_bound_lemma f user r ind kind v m : kind <> Gamma1b -> get_gamma f user r ind kind = Ok (v, m) ->
  forall i j g, (i < d0 v)%nat -> (j < d1 v)%nat -> at_ v i j = Some g -> -1 <= g <= 1.
Proof.
  intros K H i j g Hi Hj Hg. apply criterion_cells in H. destruct H as (_ & _ & k & _ & P). destruct (P i j Hi Hj) as (_ & P1 & P2).
  destruct (skipped k i j). { rewrite (P1 eq_refl) in Hg. injection Hg as <-. lra. }
  specialize (P2 eq_refl). destruct (velocities f (nmotif k) i j) as [o|]; [|discriminate]. cbn [bind] in P2. injection P2 as P2.
  rewrite Hg in P2. destruct o as [vel|]; [|discriminate]. injection P2 as <-. now apply gamma_of_bound.
Qed.
Lemma kappa_bound_lemma f user r ind relative v m : get_kappa f user r ind relative = Ok (v, m) ->
  forall i j g, (i < d0 v)%nat -> (j < d1 v)%nat -> at_ v i j = Some g -> -1 <= g <= 1.
Proof.
  intros H i j g Hi Hj Hg. apply criterion_cells in H. destruct H as (_ & _ & k & _ & P). destruct (P i j Hi Hj) as (_ & P1 & P2).
  destruct (skipped k i j). { rewrite (P1 eq_refl) in Hg. injection Hg as <-. lra. }
  specialize (P2 eq_refl). destruct (velocities f (nmotif k) i j) as [o|]; [|discriminate]. cbn [bind] in P2. injection P2 as P2.
  rewrite Hg in P2. destruct o as [vel|]; [|discriminate]. destruct (if relative then _ else _) as [c|]; [|discriminate].
  injection P2 as <-. apply kappa_of_bound.
Qed.
