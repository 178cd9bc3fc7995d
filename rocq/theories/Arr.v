(** * Arr: 2-D numpy arrays as a shape and an index function.
    Two arrays are the same ([aeq]) when the shapes are equal and they agree inside of the shape. *)
From Coq Require Import FinFun.
From Verif Require Import Num Res ListLib.

Record arr (A : Type) : Type := mkarr { d0 : nat; d1 : nat; at_ : nat -> nat -> A }.
Arguments mkarr {A} _ _ _.
Arguments d0 {A} _.
Arguments d1 {A} _.
Arguments at_ {A} _ _ _.

Definition aeq {A} (a b : arr A) : Prop :=
  d0 a = d0 b /\ d1 a = d1 b /\ forall i j, i < d0 a -> j < d1 a -> at_ a i j = at_ b i j.

Definition afull {A} (n m : nat) (x : A) : arr A := mkarr n m (fun _ _ => x).
Definition amap {A B} (f : A -> B) (a : arr A) : arr B := mkarr (d0 a) (d1 a) (fun i j => f (at_ a i j)).
Definition amap2 {A B C} (f : A -> B -> C) (a : arr A) (b : arr B) : arr C :=
  mkarr (d0 a) (d1 a) (fun i j => f (at_ a i j) (at_ b i j)).
(** numpy basic slicing [a[i0:i1, j0:j1]], non negative bounds, clipped *)
Definition aslice {A} (i0 i1 j0 j1 : nat) (a : arr A) : arr A :=
  mkarr (Nat.min i1 (d0 a) - i0) (Nat.min j1 (d1 a) - j0) (fun i j => at_ a (i0 + i) (j0 + j)).
(** [a[::-1, :]] and [a[:, ::-1]] *)
Definition aflip0 {A} (a : arr A) : arr A := mkarr (d0 a) (d1 a) (fun i j => at_ a (d0 a - 1 - i) j).
Definition aflip1 {A} (a : arr A) : arr A := mkarr (d0 a) (d1 a) (fun i j => at_ a i (d1 a - 1 - j)).
Definition atrans {A} (a : arr A) : arr A := mkarr (d1 a) (d0 a) (fun i j => at_ a j i).
(** numpy.rot90(a, k) (numpy/lib/function_base.py): k mod 4;
    1: transpose(flip(a,1)); 2: flip(flip(a,0),1); 3: flip(transpose(a),1) *)
Definition rot90 {A} (k : nat) (a : arr A) : arr A :=
  match k with
  | 0 => a
  | 1 => atrans (aflip1 a)
  | 2 => aflip1 (aflip0 a)
  | _ => aflip1 (atrans a)
  end.
(** assignment of a sub-block: [big[i0:i0+n, j0:j0+m] = small] *)
Definition ablit {A} (big small : arr A) (i0 j0 : nat) : arr A :=
  mkarr (d0 big) (d1 big) (fun i j =>
    if (Nat.leb i0 i && Nat.ltb i (i0 + d0 small) && Nat.leb j0 j && Nat.ltb j (j0 + d1 small))%bool
    then at_ small (i - i0) (j - j0) else at_ big i j).

(** all index pairs in C order, and the flattened array *)
Definition aidx (n m : nat) : list (nat * nat) := flat_map (fun i => map (fun j => (i, j)) (seq 0 m)) (seq 0 n).
Definition flatten {A} (a : arr A) : list A := map (fun p => at_ a (fst p) (snd p)) (aidx (d0 a) (d1 a)).
Definition of_rows {A} (d : A) (n m : nat) (rows : list (list A)) : arr A :=
  mkarr n m (fun i j => nth j (nth i rows []) d).
Definition to_rows {A} (a : arr A) : list (list A) :=
  map (fun i => map (fun j => at_ a i j) (seq 0 (d1 a))) (seq 0 (d0 a)).

Lemma aeq_refl {A} (a : arr A) : aeq a a.
Proof. repeat split. Qed.
Lemma aeq_sym {A} (a b : arr A) : aeq a b -> aeq b a.
Proof. intros (H0 & H1 & H). repeat split; try congruence. intros i j Hi Hj. symmetry. apply H; congruence. Qed.
Lemma aeq_trans {A} (a b c : arr A) : aeq a b -> aeq b c -> aeq a c.
Proof.
  intros (H0 & H1 & H) (G0 & G1 & G). repeat split; try congruence.
  intros i j Hi Hj. rewrite H by assumption. apply G; congruence.
Qed.

Lemma in_aidx n m i j : In (i, j) (aidx n m) <-> i < n /\ j < m.
Proof.
  unfold aidx. rewrite in_flat_map. split.
  - intros (x & Hx & H). rewrite in_map_iff in H. destruct H as (y & E & Hy).
    rewrite in_seq in Hx, Hy. injection E as -> ->. lia.
  - intros [Hi Hj]. exists i. rewrite in_seq. split; [lia|]. rewrite in_map_iff. exists j. rewrite in_seq. split; [reflexivity|lia].
Qed.
Lemma NoDup_app' {A} (l m : list A) : NoDup l -> NoDup m -> (forall x, In x l -> ~ In x m) -> NoDup (l ++ m).
Proof.
  induction l as [|x l IH]; simpl; intros Hl Hm H; [exact Hm|]. inversion Hl; subst. constructor.
  - rewrite in_app_iff. intros [Hx|Hx]; [contradiction|]. apply (H x); [now left|exact Hx].
  - apply IH; auto.
Qed.
Lemma NoDup_flat_map {A B} (f : A -> list B) l :
  NoDup l -> (forall a, In a l -> NoDup (f a)) ->
  (forall a b x, In a l -> In b l -> In x (f a) -> In x (f b) -> a = b) -> NoDup (flat_map f l).
Proof.
  induction l as [|a l IH]; simpl; intros Hl H1 H2; [constructor|]. inversion Hl; subst. apply NoDup_app'.
  - apply H1; now left.
  - apply IH; auto. intros; eapply H2; eauto.
  - intros x Hx Hx2. apply in_flat_map in Hx2. destruct Hx2 as (b & Hb & Hxb).
    assert (a = b) by (eapply H2; eauto). subst b. contradiction.
Qed.
Lemma NoDup_aidx n m : NoDup (aidx n m).
Proof.
  unfold aidx. apply NoDup_flat_map.
  - apply seq_NoDup.
  - intros a _. apply Injective_map_NoDup; [|apply seq_NoDup]. intros x y H. now injection H.
  - intros a b x _ _ Ha Hb. rewrite in_map_iff in Ha, Hb.
    destruct Ha as (j & <- & _), Hb as (k & E & _). now injection E.
Qed.
Lemma aidx_length n m : length (aidx n m) = n * m.
Proof.
  unfold aidx. assert (H : forall a, length (flat_map (fun i : nat => map (fun j : nat => (i, j)) (seq 0 m)) (seq a n)) = n * m).
  { induction n as [|n IH]; intro a; [reflexivity|]. simpl. rewrite app_length, map_length, seq_length, IH. lia. }
  apply H.
Qed.
