(** * ProtSpec: the results of the chain of computations, independently of how they are obtained. *)
From Coq Require Import List ZArith.
From Verif Require Import Res ProtModel.
Import ListNotations.

(** what each file should hold, for the parameters [p] and the source [raw] *)
Definition expected {P V} (w : work P V) (p : P) (raw : V) (f : slot) : res V :=
  let cln := w_clean w p raw in
  let pod := let* c := cln in w_pod w p c in
  let rec := fun det => let* x := pod in w_rec w p det x in
  let traj := fun det => let* r := rec det in w_traj w p 1%Z r in
  match f with
  | Raw => Ok raw
  | Cln => cln
  | Mean => let* c := cln in w_mean w p c
  | Pod => pod
  | Rec => rec false
  | Traj => traj false
  | RecDet => rec true
  | TrajDet => traj true
  end.
(** the file is there and holds what it should *)
Definition holds {P V} (w : work P V) (p : P) (raw : V) (d : disk V) (f : slot) : Prop := exists v, expected w p raw f = Ok v /\ d f = Some (Whole v).
(** the source is there, and each result is missing or what it should be *)
Definition sound {P V} (w : work P V) (p : P) (raw : V) (d : disk V) : Prop :=
  d Raw = Some (Whole raw) /\ forall f, d f = None \/ holds w p raw d f.
(** the number of threads has no effect on the result *)
Definition threads_alike {P V} (w : work P V) : Prop := forall p n m v, w_traj w p n v = w_traj w p m v.
(** an event of a history with the parameters [p], that replaces nothing by something else and in which no save is interrupted *)
Definition orderly {P V} (p : P) (e : event P V) : Prop :=
  match e with Run _ o _ | Killed _ o _ _ => par o = p | Delete f => f <> Raw | _ => False end.
(** the results of a computation, with the detailed ones or not *)
Definition results (det : bool) : list slot := [Cln; Pod; Rec; Traj] ++ (if det then [RecDet; TrajDet] else []).
(** the free memory changes when a file is loaded *)
Definition memory_moves (mem : bool -> Z * Z) : Prop := forall b, fst (mem b) <> snd (mem b).
(** only the source is there *)
Definition only_source {V} (v : V) : disk V := fun f => match f with Raw => Some (Whole v) | _ => None end.
