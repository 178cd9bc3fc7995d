(** * ListLib: 1-D arrays.  numpy slicing, searchsorted, arange, and list lemmas. *)
From Verif Require Import Num Res.

Notation nths l i := (nth i l (qz 0)).

(** Python slice [l[a:b]] with non negative bounds (numpy clips them). *)
Definition slice {A} (a b : nat) (l : list A) : list A := firstn (b - a) (skipn a l).

(** numpy.searchsorted (side='left'): the binary search of numpy/core/src/npysort/binsearch.
    [fuel] bounds the number of halvings; [length l] of them always suffice. *)
Fixpoint bsearch (fuel : nat) (l : list num) (v : num) (lo hi : nat) : nat :=
  match fuel with
  | O => lo
  | S fuel' =>
    if Nat.ltb lo hi then
      let mid := lo + Nat.div2 (hi - lo) in
      if qltb (nths l mid) v then bsearch fuel' l v (S mid) hi
      else bsearch fuel' l v lo mid
    else lo
  end.
Definition searchsorted (l : list num) (v : num) : nat := bsearch (length l) l v 0 (length l).

(** numpy.arange(start, stop, step) with step > 0: ceil((stop-start)/step) values. *)
Definition arange (start stop step : num) : list num :=
  map (fun i => start + qn i * step)%num
      (seq 0 (Z.to_nat (qceil ((stop - start) / step)%num))).

(** Strictly increasing axis, as a user would state it. *)
Definition increasing (l : list num) : Prop :=
  forall i j, i < j -> j < length l -> (nths l i < nths l j)%num.
Definition nondecreasing (l : list num) : Prop :=
  forall i j, i <= j -> j < length l -> (nths l i <= nths l j)%num.

(** ** nth_error lemmas *)
Lemma nth_error_nths (l : list num) i x : nth_error l i = Some x -> nths l i = x.
Proof. apply nth_error_nth. Qed.
Lemma nth_error_Some_lt {A} (l : list A) i x : nth_error l i = Some x -> i < length l.
Proof. intro H. apply nth_error_Some. congruence. Qed.
Lemma nths_nth_error (l : list num) i : i < length l -> nth_error l i = Some (nths l i).
Proof. intro H. apply nth_error_nth'. exact H. Qed.
Lemma nth_error_ex {A} (l : list A) i : i < length l -> exists x, nth_error l i = Some x.
Proof.
  intro H. destruct (nth_error l i) as [x|] eqn:E; [eauto|]. apply nth_error_None in E. lia.
Qed.

Lemma slice_length {A} a b (l : list A) : length (slice a b l) = Nat.min b (length l) - a.
Proof. unfold slice. rewrite firstn_length, skipn_length. lia. Qed.
Lemma nth_error_skipn {A} a (l : list A) i : nth_error (skipn a l) i = nth_error l (a + i).
Proof.
  revert l; induction a as [|a IH]; intros l; [reflexivity|]. destruct l as [|x l]; simpl.
  - now destruct i.
  - apply IH.
Qed.
Lemma nth_error_firstn {A} n (l : list A) i : i < n -> nth_error (firstn n l) i = nth_error l i.
Proof.
  revert l i; induction n as [|n IH]; intros l i H; [lia|].
  destruct l as [|x l]; [reflexivity|]. destruct i as [|i]; [reflexivity|]. simpl. apply IH. lia.
Qed.
Lemma nth_error_slice {A} a b (l : list A) i : i < b - a -> nth_error (slice a b l) i = nth_error l (a + i).
Proof. intro H. unfold slice. rewrite nth_error_firstn by exact H. apply nth_error_skipn. Qed.
Lemma nth_error_rev {A} (l : list A) i : i < length l -> nth_error (rev l) i = nth_error l (length l - 1 - i).
Proof.
  intro H. destruct l as [|d l]; [simpl in H; lia|].
  rewrite (nth_error_nth' (rev (d :: l)) d) by (rewrite rev_length; exact H).
  rewrite (nth_error_nth' (d :: l) d) by lia.
  rewrite rev_nth by exact H. do 2 f_equal. lia.
Qed.
Lemma nth_error_map' {A B} (f : A -> B) l i : nth_error (map f l) i = option_map f (nth_error l i).
Proof. apply nth_error_map. Qed.
Lemma nth_error_map_inv {A B} (f : A -> B) l i y :
  nth_error (map f l) i = Some y -> exists x, nth_error l i = Some x /\ y = f x.
Proof. rewrite nth_error_map. destruct (nth_error l i); simpl; intro H; inversion H; eauto. Qed.

Lemma nths_map (f : num -> num) l i : i < length l -> nths (map f l) i = f (nths l i).
Proof.
  intro H. rewrite (nth_indep _ (qz 0) (f (qz 0))) by (rewrite map_length; exact H). apply map_nth.
Qed.
Lemma nths_rev l i : i < length l -> nths (rev l) i = nths l (length l - 1 - i).
Proof. intro H. rewrite rev_nth by exact H. f_equal. lia. Qed.

Lemma list_ext {A} (l m : list A) : length l = length m ->
  (forall i, i < length l -> nth_error l i = nth_error m i) -> l = m.
Proof.
  revert m; induction l as [|x l IH]; intros [|y m] Hl H; try discriminate; [reflexivity|].
  pose proof (H 0 ltac:(simpl; lia)) as H0. simpl in H0. injection H0 as ->. f_equal.
  apply IH; [simpl in Hl; lia|]. intros i Hi. apply (H (S i)). simpl; lia.
Qed.

(** ** Sortedness *)
Lemma increasing_nondecreasing l : increasing l -> nondecreasing l.
Proof.
  intros H i j Hij Hj. destruct (Nat.eq_dec i j) as [->|Hne]; [apply qle_refl|].
  apply qlt_le. apply H; lia.
Qed.
Lemma increasing_inj l i j : increasing l -> i < length l -> j < length l ->
  nths l i = nths l j -> i = j.
Proof.
  intros H Hi Hj E. destruct (lt_eq_lt_dec i j) as [[L|L]|L]; [|exact L|].
  - specialize (H i j L Hj). rewrite E in H. now apply qlt_irrefl in H.
  - specialize (H j i L Hi). rewrite E in H. now apply qlt_irrefl in H.
Qed.
Lemma increasing_lt_inv l i j : increasing l -> i < length l -> j < length l ->
  (nths l i < nths l j)%num -> i < j.
Proof.
  intros H Hi Hj L. destruct (lt_eq_lt_dec i j) as [[E|E]|E]; [exact E| |].
  - subst j. now apply qlt_irrefl in L.
  - specialize (H j i E Hi). exfalso. qlra.
Qed.
Lemma increasing_le_inv l i j : increasing l -> i < length l -> j < length l ->
  (nths l i <= nths l j)%num -> i <= j.
Proof.
  intros H Hi Hj L. destruct (le_lt_dec i j) as [E|E]; [exact E|].
  specialize (H j i E Hi). exfalso. qlra.
Qed.
Lemma increasing_rev_neg l : increasing l -> increasing (map Qcopp (rev l)).
Proof.
  intros H i j Hij Hj. rewrite map_length, rev_length in Hj.
  rewrite !nths_map by (rewrite rev_length; lia). rewrite !nths_rev by lia.
  pose proof (H (length l - 1 - j) (length l - 1 - i) ltac:(lia) ltac:(lia)). qlra.
Qed.
Lemma increasing_map (f : num -> num) l : (forall a b, (a < b)%num -> (f a < f b)%num) ->
  increasing l -> increasing (map f l).
Proof.
  intros Hf H i j Hij Hj. rewrite map_length in Hj. rewrite !nths_map by lia. apply Hf. apply H; lia.
Qed.
Lemma increasing_slice l a b : increasing l -> increasing (slice a b l).
Proof.
  intros H i j Hij Hj. rewrite slice_length in Hj.
  assert (E : forall k, k < Nat.min b (length l) - a -> nths (slice a b l) k = nths l (a + k)).
  { intros k Hk. apply nth_error_nths. rewrite nth_error_slice by lia. apply nths_nth_error. lia. }
  rewrite !E by lia. apply H; lia.
Qed.

Lemma increasing_cons x l : increasing (x :: l) <->
  increasing l /\ (forall y, In y l -> (x < y)%num).
Proof.
  split.
  - intro H. split.
    + intros i j Hij Hj. apply (H (S i) (S j)); simpl; lia.
    + intros y Hy. apply (In_nth _ _ (qz 0)) in Hy. destruct Hy as (k & Hk & <-).
      apply (H 0 (S k)); simpl; lia.
  - intros [H H2] i j Hij Hj. destruct j as [|j]; [lia|]. simpl in Hj. destruct i as [|i]; simpl.
    + apply H2. apply nth_In. lia.
    + apply H; lia.
Qed.
Lemma nondecreasing_cons x l : nondecreasing (x :: l) <->
  nondecreasing l /\ (forall y, In y l -> (x <= y)%num).
Proof.
  split.
  - intro H. split.
    + intros i j Hij Hj. apply (H (S i) (S j)); simpl; lia.
    + intros y Hy. apply (In_nth _ _ (qz 0)) in Hy. destruct Hy as (k & Hk & <-).
      apply (H 0 (S k)); simpl; lia.
  - intros [H H2] i j Hij Hj. destruct j as [|j].
    + replace i with 0 by lia. apply qle_refl.
    + simpl in Hj. destruct i as [|i]; simpl.
      * apply H2. apply nth_In. lia.
      * apply H; lia.
Qed.
Lemma increasing_NoDup l : increasing l -> NoDup l.
Proof.
  induction l as [|x l IH]; intro H; constructor.
  - apply increasing_cons in H. destruct H as [_ H]. intro Hx. apply H in Hx. now apply qlt_irrefl in Hx.
  - apply IH. apply increasing_cons in H. tauto.
Qed.

(** ** searchsorted *)
Lemma bsearch_spec fuel l v lo hi :
  nondecreasing l -> hi - lo <= fuel -> lo <= hi -> hi <= length l ->
  (forall i, i < lo -> (nths l i < v)%num) ->
  (forall i, hi <= i -> i < length l -> (v <= nths l i)%num) ->
  let k := bsearch fuel l v lo hi in
  k <= length l /\ (forall i, i < k -> (nths l i < v)%num) /\
  (forall i, k <= i -> i < length l -> (v <= nths l i)%num).
Proof.
  intro Hs. revert lo hi; induction fuel as [|fuel IH]; intros lo hi Hf Hlo Hhi H1 H2; simpl.
  - assert (lo = hi) by lia. subst hi. repeat split; try lia; auto.
  - destruct (Nat.ltb_spec lo hi) as [L|L].
    + pose proof (Nat.div2_decr (hi - lo) (hi - lo)) as D0.
      assert (Nat.div2 (hi - lo) < hi - lo) as D by (apply Nat.lt_div2; lia).
      destruct (qltb_spec (nths l (lo + Nat.div2 (hi - lo))) v) as [C|C].
      * apply IH; try lia; auto.
        intros i Hi. apply qle_lt_trans with (nths l (lo + Nat.div2 (hi - lo))); [|exact C].
        apply Hs; lia.
      * apply IH; try lia; auto.
        intros i Hi Hl. apply qle_trans with (nths l (lo + Nat.div2 (hi - lo))); [exact C|].
        apply Hs; lia.
    + assert (lo = hi) by lia. subst hi. repeat split; try lia; auto.
Qed.

Lemma searchsorted_spec l v : nondecreasing l ->
  searchsorted l v <= length l /\
  (forall i, i < searchsorted l v -> (nths l i < v)%num) /\
  (forall i, searchsorted l v <= i -> i < length l -> (v <= nths l i)%num).
Proof.
  intro H. unfold searchsorted. apply bsearch_spec; try lia; auto.
Qed.

(** ** last *)
Lemma last_nths (l : list num) : l <> [] -> last l (qz 0) = nths l (length l - 1).
Proof.
  intro H. destruct (exists_last H) as (m & x & ->). rewrite last_last, app_length. simpl.
  rewrite app_nth2 by lia. replace (length m + 1 - 1 - length m) with 0 by lia. reflexivity.
Qed.
