(** * TemporalEx: concrete series of frames for the examples and the counterexamples. *)
From Verif Require Import Num Res ListLib SortLib Arr FieldModel ScalarFieldModel VectorFieldModel FieldSpec FieldProofs SeqSpec Concrete PointsModel PointsSpec TemporalModel TemporalSpec.
From Coq Require Import Lia.

Definition clean_b (f : sfield) : bool :=
  forallb (fun p => Bool.eqb (isnan (at_ (values f) (fst p) (snd p))) (at_ (msk f) (fst p) (snd p))) (aidx (length (ax (sg f))) (length (ay (sg f)))).
Lemma clean_b_ok f : clean_b f = true -> sf_clean f.
Proof.
  intros H x y v m (i & j & Hx & Hy & <- & <-).
  pose proof (proj1 (forallb_forall _ _) H (i, j)) as K. cbn [fst snd] in K.
  assert (i < length (ax (sg f))) by (apply nth_error_Some; congruence). assert (j < length (ay (sg f))) by (apply nth_error_Some; congruence).
  rewrite in_aidx in K. specialize (K (conj H0 H1)). apply Bool.eqb_prop in K. destruct (at_ (values f) i j); cbn in K; rewrite <- K; split; congruence.
Qed.
Definition vclean_b (f : vfield) : bool :=
  forallb (fun p => (Bool.eqb (isnan (at_ (cx f) (fst p) (snd p))) (at_ (vmsk f) (fst p) (snd p)) && Bool.eqb (isnan (at_ (cy f) (fst p) (snd p))) (at_ (vmsk f) (fst p) (snd p)))%bool)
    (aidx (length (ax (vg f))) (length (ay (vg f)))).
Lemma vclean_b_ok f : vclean_b f = true -> vf_clean f.
Proof.
  intros H x y vx vy m (i & j & Hx & Hy & <- & <- & <-).
  pose proof (proj1 (forallb_forall _ _) H (i, j)) as K. cbn [fst snd] in K.
  assert (i < length (ax (vg f))) by (apply nth_error_Some; congruence). assert (j < length (ay (vg f))) by (apply nth_error_Some; congruence).
  rewrite in_aidx in K. specialize (K (conj H0 H1)). apply andb_true_iff in K. destruct K as [K1 K2]. apply Bool.eqb_prop in K1, K2.
  destruct (at_ (cx f) i j), (at_ (cy f) i j); cbn in K1, K2; rewrite <- ?K1, <- ?K2; split; split; congruence.
Qed.

(** four frames of 2 x 2 values; one cell is masked in the second frame, another one in all but the third *)
Definition fr (a b c d : onum) : sfield := sf_of [0; 1]%Z [10; 20]%Z [[a; b]; [c; d]] [[isnan a; isnan b]; [isnan c; isnan d]].
Definition g22 : grid := mkgrid (zs [0; 1]%Z) (zs [10; 20]%Z) metre metre.
Definition ex_t : tfield sfield :=
  mktf g22 [fr (oz 1) (oz 2) (oz 3) None; fr (oz 5) None (oz 4) None; fr (oz 6) (oz 8) (oz 5) (oz 7); fr (oz 0) (oz 5) (oz (-4)) None]
       true (zs [0; 1; 3; 4]%Z) second.
Definition ex_tv : tfield vfield :=
  let v a b c d := vf_of [0; 1]%Z [10; 20]%Z [[a; b]; [c; d]] [[d; b]; [c; a]] [[false; false]; [isnan c; false]] in
  mktf g22 [v (oz 1) (oz 2) (oz 3) (oz 0); v (oz 5) (oz 1) None (oz 2); v (oz 6) (oz 8) (oz 5) (oz 7)] true (zs [0; 1; 3]%Z) second.
Lemma ex_t_ok : tf_ok ex_t.
Proof. split; [reflexivity|]. apply increasing_nondecreasing. incr. Qed.
Lemma ex_tv_ok : tf_ok ex_tv.
Proof. split; [reflexivity|]. apply increasing_nondecreasing. incr. Qed.
Lemma ex_t_inc : increasing (tft ex_t).
Proof. incr. Qed.
Lemma ex_tv_inc : increasing (tft ex_tv).
Proof. incr. Qed.
Lemma g22_ok : grid_ok2 g22.
Proof. split; [split; incr|]. split; cbn; lia. Qed.
Ltac each_frame_tac := let f := fresh "f" in let I := fresh "I" in intros f I; cbn in I; repeat (destruct I as [<-|I]; [|]); [..|contradiction].
Lemma ex_t_series : sf_series_ok ex_t.
Proof.
  split; [exact g22_ok|]. split; [each_frame_tac; reflexivity|]. split.
  - each_frame_tac; (split; [repeat split|split; [apply clean_b_ok; reflexivity|reflexivity]]).
  - intros f h I. revert f I h. each_frame_tac; each_frame_tac; reflexivity.
Qed.
Lemma ex_tv_series : vf_series_ok ex_tv.
Proof.
  split; [exact g22_ok|]. split; [each_frame_tac; reflexivity|]. split.
  - each_frame_tac; (split; [repeat split|split; [apply vclean_b_ok; reflexivity|reflexivity]]).
  - intros f h I. revert f I h. each_frame_tac; each_frame_tac; reflexivity.
Qed.

(** observation of a computed result *)
Lemma ok_ex {A} (r : res A) (P : A -> bool) : match r with Ok a => P a | Err _ => false end = true -> exists a, r = Ok a /\ P a = true.
Proof. destruct r as [a|]; [eauto|discriminate]. Qed.
Lemma out_ex {A} (r : A * option exn) e (P : A -> bool) : snd r = e -> P (fst r) = true -> exists a, r = (a, e) /\ P a = true.
Proof. destruct r as [a e']. cbn. intros -> H. eauto. Qed.
Definition oeqb (a b : onum) : bool := match a, b with Some x, Some y => qeqb x y | None, None => true | _, _ => false end.
Lemma oeqb_eq a b : oeqb a b = true -> a = b.
Proof. destruct a, b; cbn; intro H; try discriminate; [|reflexivity]. apply qeqb_eq in H. now subst. Qed.
Fixpoint oseqb (a b : list onum) : bool := match a, b with [], [] => true | x :: a', y :: b' => (oeqb x y && oseqb a' b')%bool | _, _ => false end.
Lemma oseqb_eq a : forall b, oseqb a b = true -> a = b.
Proof. induction a as [|x a IH]; intros [|y b] H; try discriminate H; [reflexivity|]. cbn in H. apply andb_true_iff in H. destruct H as [H1 H2]. apply oeqb_eq in H1. subst. f_equal. now apply IH. Qed.
Ltac vmr := vm_compute; reflexivity.
