(** * SortLib: numpy.argsort and fancy indexing. *)
From Verif Require Import Num Res ListLib.
From Coq Require Export Permutation.

(** numpy.argsort, as a stable insertion sort on indices.
    numpy's default kind leaves the order of equal keys unspecified for long arrays; the theorems
    about sorted data do not depend on that order. *)
Fixpoint ins_idx (key : nat -> num) (i : nat) (l : list nat) : list nat :=
  match l with
  | [] => [i]
  | j :: r => if qleb (key i) (key j) then i :: j :: r else j :: ins_idx key i r
  end.
Definition argsort (l : list num) : list nat := fold_right (ins_idx (fun i => nths l i)) [] (seq 0 (length l)).
(** [l[idx]] with an integer index array (all indices valid) *)
Definition gather {A} (d : A) (idx : list nat) (l : list A) : list A := map (fun i => nth i l d) idx.
(** [l[filt]] with a boolean array *)
Fixpoint keep {A} (filt : list bool) (l : list A) : list A :=
  match filt, l with
  | b :: f', x :: l' => if b then x :: keep f' l' else keep f' l'
  | _, _ => []
  end.
(** numpy.delete / concatenation around index i *)
Definition delete_at {A} (i : nat) (l : list A) : list A := firstn i l ++ skipn (S i) l.
Definition insert_at {A} (i : nat) (x : A) (l : list A) : list A := firstn i l ++ x :: skipn i l.

Lemma ins_idx_perm key i l : Permutation (ins_idx key i l) (i :: l).
Proof.
  induction l as [|j r IH]; simpl; [reflexivity|]. destruct (qleb (key i) (key j)); [reflexivity|].
  rewrite IH. apply perm_swap.
Qed.
Lemma argsort_perm l : Permutation (argsort l) (seq 0 (length l)).
Proof.
  unfold argsort. generalize (seq 0 (length l)) as s. induction s as [|i s IH]; simpl; [reflexivity|].
  rewrite ins_idx_perm. now constructor.
Qed.
Lemma ins_idx_sorted key i l : nondecreasing (map key l) -> nondecreasing (map key (ins_idx key i l)).
Proof.
  induction l as [|j r IH]; intro H.
  - apply nondecreasing_cons. split; [exact H|]. intros y [].
  - simpl. destruct (qleb_spec (key i) (key j)) as [C|C].
    + simpl. apply nondecreasing_cons. split; [exact H|]. simpl in H. apply nondecreasing_cons in H. destruct H as [_ H].
      intros y [<-|Hy]; [exact C|]. eapply qle_trans; [exact C|now apply H].
    + simpl in *. apply nondecreasing_cons in H. destruct H as [H1 H2]. apply nondecreasing_cons. split; [now apply IH|].
      intros y Hy. assert (P : Permutation (map key (ins_idx key i r)) (map key (i :: r))) by (apply Permutation_map, ins_idx_perm).
      apply (Permutation_in _ P) in Hy. destruct Hy as [<-|Hy]; [now apply qlt_le|now apply H2].
Qed.
Lemma argsort_sorted l : nondecreasing (gather (qz 0) (argsort l) l).
Proof.
  unfold gather, argsort. generalize (seq 0 (length l)) as s. induction s as [|i s IH]; simpl.
  - intros i j _ Hj. simpl in Hj. lia.
  - apply ins_idx_sorted, IH.
Qed.
Lemma gather_perm {A} (d : A) idx l : Permutation idx (seq 0 (length l)) -> Permutation (gather d idx l) l.
Proof.
  intro H. unfold gather. rewrite H. replace (map (fun i => nth i l d) (seq 0 (length l))) with l; [reflexivity|].
  apply list_ext; [now rewrite map_length, seq_length|]. intros i Hi. rewrite nth_error_map.
  rewrite (nth_error_nth' (seq 0 (length l)) 0) by (rewrite seq_length; exact Hi). rewrite seq_nth by exact Hi. simpl.
  apply nth_error_nth'. exact Hi.
Qed.
Lemma gather_length {A} (d : A) idx l : length (gather d idx l) = length idx.
Proof. apply map_length. Qed.
Lemma argsort_length l : length (argsort l) = length l.
Proof. rewrite (Permutation_length (argsort_perm l)). apply seq_length. Qed.
Lemma gather_combine {A B} (a : A) (b : B) idx l m : length l = length m -> (forall i, In i idx -> i < length l) ->
  combine (gather a idx l) (gather b idx m) = gather (a, b) idx (combine l m).
Proof.
  intros E H. induction idx as [|i idx IH]; [reflexivity|]. simpl. f_equal.
  - rewrite combine_nth by exact E. reflexivity.
  - apply IH. intros k Hk. apply H. now right.
Qed.
Lemma argsort_in l i : In i (argsort l) -> i < length l.
Proof. intro H. apply (Permutation_in _ (argsort_perm l)) in H. apply in_seq in H. lia. Qed.
Lemma gather_sort_perm {B} (b : B) (l : list num) (m : list B) : length l = length m ->
  Permutation (combine (gather (qz 0) (argsort l) l) (gather b (argsort l) m)) (combine l m).
Proof.
  intro E. rewrite gather_combine by (auto; apply argsort_in). apply gather_perm. rewrite combine_length, <- E, Nat.min_id.
  apply argsort_perm.
Qed.
(** sorting a sorted list changes nothing *)
Lemma ins_idx_head key i l : (forall j, In j l -> (key i <= key j)%num) -> ins_idx key i l = i :: l.
Proof.
  destruct l as [|j r]; intro H; [reflexivity|]. simpl. destruct (qleb_spec (key i) (key j)) as [C|C]; [reflexivity|].
  specialize (H j (or_introl eq_refl)). exfalso. qlra.
Qed.
Lemma argsort_id l : nondecreasing l -> argsort l = seq 0 (length l).
Proof.
  intro H. unfold argsort.
  assert (G : forall a n, a + n = length l -> fold_right (ins_idx (fun i => nths l i)) [] (seq a n) = seq a n).
  { intros a n; revert a; induction n as [|n IH]; intros a E; [reflexivity|]. cbn [seq fold_right]. rewrite IH by lia. apply ins_idx_head.
    intros j Hj. apply in_seq in Hj. apply H; lia. }
  apply G. reflexivity.
Qed.
Lemma gather_seq {A} (d : A) l : gather d (seq 0 (length l)) l = l.
Proof.
  unfold gather. apply list_ext; [now rewrite map_length, seq_length|]. intros i Hi. rewrite map_length, seq_length in Hi. rewrite nth_error_map.
  rewrite (nth_error_nth' (seq 0 (length l)) 0) by (rewrite seq_length; exact Hi). rewrite seq_nth by exact Hi. simpl.
  symmetry. apply nth_error_nth'. exact Hi.
Qed.
Lemma keep_length_le {A} f (l : list A) : length (keep f l) <= length l.
Proof. revert l; induction f as [|b f IH]; intros [|x l]; simpl; try lia. destruct b; simpl; specialize (IH l); lia. Qed.
Lemma keep_map {A} (p : A -> bool) l : keep (map p l) l = filter p l.
Proof. induction l as [|x l IH]; simpl; [reflexivity|]. destruct (p x); now rewrite IH. Qed.
Lemma keep_combine {A B} f (l : list A) (m : list B) : combine (keep f l) (keep f m) = keep f (combine l m).
Proof.
  revert l m; induction f as [|b f IH]; intros [|x l] [|y m]; cbn [keep combine]; rewrite ?combine_nil; try reflexivity.
  destruct b; cbn [combine]; now rewrite IH.
Qed.
Lemma keep_length_eq {A B} f (l : list A) (m : list B) : length l = length m -> length (keep f l) = length (keep f m).
Proof. revert l m; induction f as [|b f IH]; intros [|x l] [|y m] E; try discriminate; try reflexivity. simpl in *. destruct b; simpl; rewrite (IH l m); lia. Qed.
Lemma keep_in {A} f (l : list A) x : In x (keep f l) -> In x l.
Proof. revert l; induction f as [|b f IH]; intros [|y l]; simpl; try tauto. destruct b; simpl; intuition. Qed.
Lemma nondecreasing_keep f l : nondecreasing l -> nondecreasing (keep f l).
Proof.
  revert l; induction f as [|b f IH]; intros [|y l] H; try (intros i j _ Hj; simpl in Hj; lia).
  apply nondecreasing_cons in H. destruct H as [H1 H2]. simpl. destruct b; [|now apply IH].
  apply nondecreasing_cons. split; [now apply IH|]. intros z Hz. apply H2. eapply keep_in; eauto.
Qed.
Lemma nondecreasing_app a b : nondecreasing a -> nondecreasing b -> (forall x y, In x a -> In y b -> (x <= y)%num) -> nondecreasing (a ++ b).
Proof.
  intros Ha Hb H. induction a as [|x a IH]; [exact Hb|]. simpl. apply nondecreasing_cons in Ha. destruct Ha as [A1 A2].
  apply nondecreasing_cons. split; [apply IH; [exact A1|]|].
  - intros u v Hu. apply H. now right.
  - intros y Hy. apply in_app_or in Hy. destruct Hy as [Hy|Hy]; [now apply A2|]. apply H; [now left|exact Hy].
Qed.
Lemma nondecreasing_sub a b : nondecreasing (a ++ b) -> nondecreasing a /\ nondecreasing b /\ (forall x y, In x a -> In y b -> (x <= y)%num).
Proof.
  induction a as [|x a IH]; simpl; intro H.
  - split; [intros i j _ Hj; simpl in Hj; lia|]. split; [exact H|]. intros u v [].
  - apply nondecreasing_cons in H. destruct H as [H1 H2]. destruct (IH H1) as (I1 & I2 & I3). split; [|split; [exact I2|]].
    + apply nondecreasing_cons. split; [exact I1|]. intros y Hy. apply H2. apply in_or_app. now left.
    + intros u v [<-|Hu] Hv; [apply H2; apply in_or_app; now right|now apply I3].
Qed.
Lemma nondecreasing_delete i l : nondecreasing l -> nondecreasing (delete_at i l).
Proof.
  intro H. rewrite <- (firstn_skipn i l) in H. apply nondecreasing_sub in H. destruct H as (H1 & H2 & H3).
  unfold delete_at. replace (skipn (S i) l) with (skipn 1 (skipn i l)).
  2:{ revert l H1 H2 H3; induction i as [|i IH]; intros [|x l] H1 H2 H3; try reflexivity. simpl. apply IH; auto;
      simpl in *. apply nondecreasing_cons in H1; tauto. intros; apply H3; auto. }
  apply nondecreasing_app; [exact H1| |].
  - destruct (skipn i l); [exact H2|]. apply nondecreasing_cons in H2. tauto.
  - intros x y Hx Hy. apply H3; [exact Hx|]. destruct (skipn i l); [exact Hy|now right].
Qed.
Lemma combine_app' {A B} (a a' : list A) (b b' : list B) : length a = length b -> combine (a ++ a') (b ++ b') = combine a b ++ combine a' b'.
Proof. revert b; induction a as [|x a IH]; intros [|y b] E; try discriminate; [reflexivity|]. simpl. f_equal. apply IH. simpl in E. lia. Qed.
Lemma combine_firstn' {A B} n (a : list A) (b : list B) : combine (firstn n a) (firstn n b) = firstn n (combine a b).
Proof. revert a b; induction n as [|n IH]; intros [|x a] [|y b]; try reflexivity. simpl. now rewrite IH. Qed.
Lemma combine_skipn' {A B} n (a : list A) (b : list B) : length a = length b -> combine (skipn n a) (skipn n b) = skipn n (combine a b).
Proof. revert a b; induction n as [|n IH]; intros [|x a] [|y b] E; try discriminate; try reflexivity. simpl. apply IH. simpl in E. lia. Qed.
Lemma delete_combine {A B} i (a : list A) (b : list B) : length a = length b -> combine (delete_at i a) (delete_at i b) = delete_at i (combine a b).
Proof.
  intro E. unfold delete_at. rewrite combine_app' by (rewrite !firstn_length, E; reflexivity).
  now rewrite combine_firstn', combine_skipn'.
Qed.
Lemma insert_combine {A B} i x y (a : list A) (b : list B) : length a = length b ->
  combine (insert_at i x a) (insert_at i y b) = insert_at i (x, y) (combine a b).
Proof.
  intro E. unfold insert_at. rewrite combine_app' by (rewrite !firstn_length, E; reflexivity). simpl.
  now rewrite combine_firstn', combine_skipn'.
Qed.
Lemma insert_perm {A} i (x : A) l : Permutation (insert_at i x l) (x :: l).
Proof. unfold insert_at. rewrite <- Permutation_middle. now rewrite firstn_skipn. Qed.
Lemma insert_length {A} i (x : A) l : length (insert_at i x l) = S (length l).
Proof. apply (Permutation_length (insert_perm i x l)). Qed.
Lemma delete_length_eq {A B} i (a : list A) (b : list B) : length a = length b -> length (delete_at i a) = length (delete_at i b).
Proof. intro E. unfold delete_at. now rewrite !app_length, !firstn_length, !skipn_length, E. Qed.
Lemma insert_sorted l x : nondecreasing l -> nondecreasing (insert_at (searchsorted l x) x l).
Proof.
  intro H. destruct (searchsorted_spec l x H) as (B & H1 & H2). unfold insert_at.
  assert (F : forall y, In y (firstn (searchsorted l x) l) -> (y <= x)%num).
  { intros y Hy. apply In_nth_error in Hy. destruct Hy as [k Hk].
    assert (K : k < searchsorted l x) by (apply nth_error_Some_lt in Hk; rewrite firstn_length in Hk; lia).
    rewrite nth_error_firstn in Hk by exact K. apply nth_error_nths in Hk. rewrite <- Hk. apply qlt_le, H1, K. }
  assert (G : forall y, In y (skipn (searchsorted l x) l) -> (x <= y)%num).
  { intros y Hy. apply In_nth_error in Hy. destruct Hy as [k Hk]. rewrite nth_error_skipn in Hk.
    pose proof (nth_error_Some_lt _ _ _ Hk). apply nth_error_nths in Hk. rewrite <- Hk. apply H2; lia. }
  rewrite <- (firstn_skipn (searchsorted l x) l) in H. apply nondecreasing_sub in H. destruct H as (S1 & S2 & S3).
  apply nondecreasing_app; [exact S1| |].
  - apply nondecreasing_cons. split; assumption.
  - intros u v Hu [<-|Hv]; [now apply F|now apply S3].
Qed.
Lemma nondecreasing_slice a b l : nondecreasing l -> nondecreasing (slice a b l).
Proof.
  intros H i j Hij Hj. rewrite slice_length in Hj.
  assert (E : forall k, k < Nat.min b (length l) - a -> nths (slice a b l) k = nths l (a + k)).
  { intros k Hk. apply nth_error_nths. rewrite nth_error_slice by lia. apply nths_nth_error. lia. }
  rewrite !E by lia. apply H; lia.
Qed.
Lemma slice_combine {A B} i j (a : list A) (b : list B) : length a = length b -> combine (slice i j a) (slice i j b) = slice i j (combine a b).
Proof. intro E. unfold slice. now rewrite combine_firstn', combine_skipn'. Qed.
