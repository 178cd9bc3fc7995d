From Coq Require Import Lia Permutation Sorted.
From Verif Require Import Num Res ListLib SortLib Arr FieldModel ScalarFieldModel VectorFieldModel FieldSpec FieldProofs FieldProofs2 GradModel ProfileModel ProfileSpec ProfileProofs ProfileProofs2 ProfileProofs3 ProfileProofs4 ProfileProofs5
  RotateProofs PodProofs UtilsProofs3 AsciiModel AsciiProofs AsciiProofs2 AsciiProofs3 AsciiProofs4 Prof2Model Prof2Spec Prof2Proofs Prof2Proofs2 Prof2Proofs3 Prof2Proofs4 Prof2Proofs5 Prof2Proofs6 Prof2Proofs7.

Lemma group_single rnd p i t : prof_ok p -> increasing (px p) -> (forall x, In x (px p) -> rnd x = x) -> nth_error (samples p) i = Some t -> group rnd (sx t) (samples p) = [t].
Proof.
  intros OK I R H. destruct (samples_fst p OK) as (X & _). assert (I' : increasing (map sx (samples p))) by now rewrite X. rewrite <- X in R. clear X OK I. revert i H R I'. generalize (samples p). intro l. induction l as [|a l IH]; intros i H R I; [destruct i; discriminate|].
  cbn [map] in I. apply increasing_cons_iff in I. destruct I as [I1 I2]. unfold group. cbn [filter]. destruct i as [|i].
  - cbn in H. injection H as ->. rewrite (R (sx t)) by now left. rewrite qeqb_refl. f_equal. assert (G : forall k, (forall u, In u k -> (sx t < sx u)%num /\ rnd (sx u) = sx u) -> filter (fun u => qeqb (rnd (sx u)) (sx t)) k = []).
    { induction k as [|u k IHk]; intro Q; [reflexivity|]. cbn. destruct (Q u (or_introl eq_refl)) as [Q1 Q2]. rewrite Q2. rewrite (proj2 (qeqb_neq _ _) (qgt_neq _ _ Q1)) || (assert (qeqb (sx u) (sx t) = false) as -> by (apply qeqb_neq; intro Z; rewrite Z in Q1; qlra)). apply IHk. intros v Hv. apply Q. now right. }
    apply G. intros u Hu. split; [apply I2; now apply in_map|]. apply R. right. now apply in_map.
  - cbn in H. assert (Ht := nth_error_In _ _ H). rewrite (R (sx a)) by now left. assert (L : (sx a < sx t)%num) by (apply I2; now apply in_map). assert (qeqb (sx a) (sx t) = false) as -> by (apply qeqb_neq; intro Z; rewrite Z in L; qlra).
    apply (IH i H); [|exact I1]. intros x Hx. apply R. now right.
Qed.
Lemma doublons_keep rnd p m : prof_ok p -> prof_clean p -> increasing (px p) -> (exists t, In t (samples p) /\ sx t <> 0%num) -> m <> DOther ->
  (forall x, In x (px p) -> rnd x = x) -> exists p', remove_doublons rnd p m = (p', None) /\ samples p' = samples p.
Proof.
  intros OK CL I NZ NO R. destruct (doublons_lemma rnd p m OK CL NZ NO) as (p' & E & OK' & I' & _ & _ & HX & HT). exists p'. split; [exact E|].
  destruct (samples_fst p OK) as (X & _). assert (PX : px p' = px p). { apply increasing_ext; [exact I'|exact I|]. intro x. rewrite HX. split.
    - intros (t & Ht & <-). assert (J : In (sx t) (px p)) by (rewrite <- X; now apply in_map). now rewrite R.
    - intro Hx. assert (Hx' := Hx). rewrite <- X in Hx'. apply in_map_iff in Hx'. destruct Hx' as (t & Et & Ht). exists t. split; [exact Ht|]. rewrite Et. now apply R. }
  apply nth_error_ext'. intro i. destruct (Nat.lt_ge_cases i (length (px p))) as [Q|Q].
  - assert (E1 := nth_error_nth' (samples p) (qz 0, None, false) (eq_ind_r (fun n => i < n) Q (samples_length p OK))). assert (Q' : i < length (samples p')) by (rewrite (samples_length p' OK'), PX; exact Q). assert (E2 := nth_error_nth' (samples p') (qz 0, None, false) Q').
    rewrite E1, E2. f_equal. set (t := nth i (samples p) (qz 0, None, false)) in *. set (t' := nth i (samples p') (qz 0, None, false)) in *. assert (SX : sx t' = sx t) by (unfold t, t'; rewrite !samples_nth by assumption; cbn; now rewrite PX).
    destruct (HT t' (nth_error_In _ _ E2)) as [H1 H2]. rewrite SX, (group_single rnd p i t OK I R E1) in H1, H2. assert (C := CL t (nth_error_In _ _ E1)). destruct t as [[x y] b], t' as [[x' y'] b']. cbn in *. subst x' b. destruct y as [v|]; cbn in *.
    + destruct H2 as (w & -> & -> & MW); [intros s [<-|[]]; reflexivity|]. do 2 f_equal. destruct m; cbn in MW; [| | |contradiction].
      * subst w. unfold average. cbn. change (qn 1) with 1%num. f_equal. qfield. discriminate.
      * destruct MW as [[->|[]] _]. reflexivity.
      * destruct MW as [[->|[]] _]. reflexivity.
    + destruct H1 as [-> ->]; [eexists; split; [now left|reflexivity]|]. reflexivity.
  - rewrite !(proj2 (nth_error_None _ i)); [reflexivity| |]; rewrite samples_length by assumption; [exact Q|rewrite PX; exact Q].
Qed.
