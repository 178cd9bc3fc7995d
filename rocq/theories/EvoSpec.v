(** * EvoSpec: the vocabulary of C315 to C317. *)
From Verif Require Import Num Res ListLib SortLib Arr FieldModel ScalarFieldModel VectorFieldModel FieldSpec EvoModel.

(** each state comes from the one before *)
Fixpoint history {S} (evolve : S -> res S) (s : S) (l : list S) : Prop :=
  match l with [] => True | s' :: r => evolve s = Ok s' /\ history evolve s' r end.
(** what is seen of a masked cell is NaN *)
Definition seen (m : bool) (v : onum) : onum := if m then None else v.
