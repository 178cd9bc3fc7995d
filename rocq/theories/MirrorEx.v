(** * MirrorEx: fields on which the theorems on mirroring are instantiated *)
From Coq Require Import Lia.
From Verif Require Import Num Res ListLib SortLib Arr FieldModel ScalarFieldModel VectorFieldModel FieldSpec Concrete TemporalModel TemporalSpec TemporalEx TurbEx GradModel GradSpec
  BlModel MirrorModel MirrorSpec MirrorProofs8.

(** values 1, 3, 4 and 2, 5, 7 at x = 0, 1, 2 *)
Definition ex_m : sfield := sf_of [0; 1; 2]%Z [0; 1]%Z [[oz 1; oz 2]; [oz 3; oz 5]; [oz 4; oz 7]] [[false; false]; [false; false]; [false; false]].
(** the same turned, with a masked cell *)
Definition ex_my : sfield := sf_of [0; 1]%Z [0; 1; 2]%Z [[oz 1; oz 3; oz 4]; [oz 2; oz 5; oz 7]] [[false; false; false]; [false; false; false]].
Definition ex_mh : sfield := sf_of [0; 1; 2]%Z [0; 1]%Z [[oz 1; oz 2]; [None; oz 5]; [oz 4; oz 7]] [[false; false]; [true; false]; [false; false]].
Definition ex_mv : vfield := vf_of [0; 1; 2]%Z [0; 1]%Z [[oz 1; oz 2]; [oz 3; oz 5]; [oz 4; oz 7]] [[oz 7; oz 8]; [oz 6; oz 9]; [oz 1; oz 0]] [[false; false]; [false; false]; [false; false]].
Definition no_ci : sfield -> nat -> nat -> num -> num -> onum := fun _ _ _ _ _ => None.
Definition no_interp : interps := fun _ _ _ => None.

Definition evenly_b (l : list num) (d : num) : bool := forallb (fun i => qeqb (nths l (S i) - nths l i)%num d) (seq 0 (length l - 1)).
Lemma evenly_b_ok l d : qltb 0%num d = true -> evenly_b l d = true -> evenly l.
Proof.
  intros D H. exists d. split; [now apply qltb_lt|]. intros i Li. unfold evenly_b in H. rewrite forallb_forall in H. apply qeqb_eq, H. apply in_seq. lia.
Qed.
Lemma ex_m_ok : sf_wf ex_m /\ sf_clean ex_m /\ grid_sorted (sg ex_m) /\ evenly (pos_axis ex_m DX).
Proof. split; [repeat split|]. split; [apply clean_b_ok; reflexivity|]. split; [split; incr|]. now apply (evenly_b_ok _ 1%num). Qed.
Lemma ex_my_ok : sf_wf ex_my /\ sf_clean ex_my /\ grid_sorted (sg ex_my) /\ evenly (ay (sg ex_my)).
Proof. split; [repeat split|]. split; [apply clean_b_ok; reflexivity|]. split; [split; incr|]. now apply (evenly_b_ok _ 1%num). Qed.
Lemma ex_mh_ok : sf_wf ex_mh /\ sf_clean ex_mh /\ grid_sorted (sg ex_mh) /\ evenly (pos_axis ex_mh DX).
Proof. split; [repeat split|]. split; [apply clean_b_ok; reflexivity|]. split; [split; incr|]. now apply (evenly_b_ok _ 1%num). Qed.
Lemma plain_b f : sf_wf f -> any_masked f = false -> nothing_masked f.
Proof. apply none_masked_idx. Qed.

(** reading a result *)
Definition osame (a b : onum) : bool := match a, b with Some x, Some y => qeqb x y | None, None => true | _, _ => false end.
Definition shows_b (f : sfield) (x y : num) (v : onum) (m : bool) : bool :=
  existsb (fun p => (match nth_error (ax (sg f)) (fst p) with Some x' => qeqb x' x | None => false end && match nth_error (ay (sg f)) (snd p) with Some y' => qeqb y' y | None => false end
    && osame (at_ (values f) (fst p) (snd p)) v && Bool.eqb (at_ (msk f) (fst p) (snd p)) m)%bool) (aidx (length (ax (sg f))) (length (ay (sg f)))).
Lemma osame_eq a b : osame a b = true -> a = b.
Proof. destruct a, b; cbn; try discriminate; auto. intro H. apply qeqb_eq in H. now subst. Qed.
Lemma shows_b_ok f x y v m : shows_b f x y v m = true -> sf_shows f x y v m.
Proof.
  unfold shows_b. rewrite existsb_exists. intros ([i j] & _ & H). cbn [fst snd] in H. repeat (apply andb_prop in H; destruct H as [H ?]).
  destruct (nth_error (ax (sg f)) i) eqn:E1; [|discriminate]. destruct (nth_error (ay (sg f)) j) eqn:E2; [|discriminate].
  apply qeqb_eq in H. apply qeqb_eq in H2. subst. exists i, j. repeat split; auto; [now apply osame_eq|now apply Bool.eqb_prop].
Qed.
Definition axis_b (l l' : list num) : bool := if list_eq_dec Qc_eq_dec l l' then true else false.
Lemma axis_b_ok l l' : axis_b l l' = true -> l = l'.
Proof. unfold axis_b. now destruct (list_eq_dec _ l l'). Qed.
(** the masked cells are the rows strictly between the coordinates *)
Definition band_b (f : sfield) (d : pdir) (a b : num) : bool :=
  (existsb (qeqb a) (pos_axis f d) && existsb (qeqb b) (pos_axis f d) && existsb (fun c => qltb a c && qltb c b)%bool (pos_axis f d) &&
   forallb (fun p => Bool.eqb (at_ (msk f) (fst p) (snd p)) (let c := coord d (nths (ax (sg f)) (fst p)) (nths (ay (sg f)) (snd p)) in qltb a c && qltb c b)%bool)
     (aidx (length (ax (sg f))) (length (ay (sg f)))))%bool.
Lemma qltb_iff a b : qltb a b = true <-> (a < b)%num.
Proof. apply qltb_lt. Qed.
Lemma band_b_ok f d a b : band_b f d a b = true -> band f d a b.
Proof.
  unfold band_b. intro H. apply andb_prop in H. destruct H as [H H4]. apply andb_prop in H. destruct H as [H H3]. apply andb_prop in H. destruct H as [H1 H2].
  apply existsb_exists in H1, H2, H3. destruct H1 as (a' & I1 & Q1), H2 as (b' & I2 & Q2), H3 as (c & I3 & Q3).
  apply qeqb_eq in Q1, Q2. subst a' b'. apply andb_prop in Q3. destruct Q3 as [Q3 Q4]. rewrite qltb_iff in Q3, Q4.
  split; [exact I1|]. split; [exact I2|]. split; [exists c; auto|].
  intros x y v m (i & j & E1 & E2 & E3 & E4). rewrite forallb_forall in H4.
  specialize (H4 (i, j)). cbn [fst snd] in H4. rewrite (nth_error_nths _ _ _ E1), (nth_error_nths _ _ _ E2), E4 in H4.
  assert (In (i, j) (aidx (length (ax (sg f))) (length (ay (sg f))))) as I by (apply in_aidx; split; eapply nth_error_Some_lt; eassumption).
  apply H4 in I. apply Bool.eqb_prop in I. rewrite I, andb_true_iff, !qltb_iff. reflexivity.
Qed.
Definition two_b (f : sfield) : bool := (Nat.leb 2 (length (ax (sg f))) && Nat.leb 2 (length (ay (sg f))))%bool.
Lemma two_b_ok f : two_b f = true -> (2 <= length (ax (sg f)))%nat /\ (2 <= length (ay (sg f)))%nat.
Proof. unfold two_b. intro H. apply andb_prop in H. destruct H as [H1 H2]. now apply Nat.leb_le in H1, H2. Qed.
(** a series of two frames *)
Definition ex_mt : tfield sfield := mktf (sg ex_m) [ex_m; ex_m] true (zs [0; 1]%Z) second.
Lemma ex_mt_ok : tf_ok ex_mt /\ one_grid sf_ops ex_mt.
Proof. split; [split; [reflexivity|apply increasing_nondecreasing; incr]|]. each_frame_tac; reflexivity. Qed.
