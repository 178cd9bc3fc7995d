(** * Concrete: helpers to build concrete fields for the satisfiability examples and counterexamples. *)
From Verif Require Import Num Res ListLib Arr FieldModel ScalarFieldModel VectorFieldModel.

Definition zs (l : list Z) : list num := map qz l.
Definition metre : unit_t := mkunit [1%Z] 1%num.
Definition millimetre : unit_t := mkunit [1%Z] (qq 1 1000).
Definition second : unit_t := mkunit [0%Z; 1%Z] 1%num.
Definition millisecond : unit_t := mkunit [0%Z; 1%Z] (qq 1 1000).
Definition oz (z : Z) : onum := Some (qz z).
(** a field given by its rows (first index x) *)
Definition arr_of {A} (d : A) (n m : nat) (rows : list (list A)) : arr A :=
  mkarr n m (fun i j => nth j (nth i rows []) d).
Definition sf_of (x y : list Z) (rows : list (list onum)) (mask : list (list bool)) : sfield :=
  mksf (mkgrid (zs x) (zs y) metre metre) (arr_of None (length x) (length y) rows)
       (arr_of false (length x) (length y) mask) metre.
Definition vf_of (x y : list Z) (rx ry : list (list onum)) (mask : list (list bool)) : vfield :=
  mkvf (mkgrid (zs x) (zs y) metre metre) (arr_of None (length x) (length y) rx) (arr_of None (length x) (length y) ry)
       (arr_of false (length x) (length y) mask) metre.

Fixpoint increasingb (l : list num) : bool :=
  match l with
  | x :: ((y :: _) as r) => (qltb x y && increasingb r)%bool
  | _ => true
  end.
Lemma increasingb_ok l : increasingb l = true -> increasing l.
Proof.
  induction l as [|x [|y r] IH]; intro H.
  - intros i j Hij Hj. simpl in Hj. lia.
  - intros i j Hij Hj. simpl in Hj. lia.
  - cbn [increasingb] in H. apply andb_true_iff in H. destruct H as [H1 H2]. specialize (IH H2).
    apply qltb_lt in H1. apply increasing_cons. split; [exact IH|].
    intros z Hz. destruct Hz as [<-|Hz]; [exact H1|].
    apply increasing_cons in IH. destruct IH as [_ IH]. eapply qlt_trans; [exact H1|]. now apply IH.
Qed.
Ltac incr := apply increasingb_ok; vm_compute; reflexivity.
(** equalities between concrete numbers *)
Ltac qc := apply Qc_is_canon; vm_compute; reflexivity.

(** a 3 x 2 scalar field with one masked cell, and a 3 x 2 vector field *)
Definition ex_sf : sfield :=
  sf_of [0; 1; 3]%Z [10; 20]%Z [[oz 1; oz 2]; [None; oz 4]; [oz 5; oz 6]] [[false; false]; [true; false]; [false; false]].
Definition ex_vf : vfield :=
  vf_of [0; 1; 3]%Z [10; 20]%Z [[oz 1; oz 2]; [None; oz 4]; [oz 5; oz 6]] [[oz 7; oz 8]; [None; oz 9]; [oz 1; oz 0]]
        [[false; false]; [true; false]; [false; false]].
