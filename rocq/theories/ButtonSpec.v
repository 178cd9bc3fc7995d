(** * ButtonSpec: vocabulary for the interactive display. *)
From Verif Require Import Num Res ListLib ButtonModel.
#[local] Open Scope Z_scope.

(** the frame shown is one of the frames 0 .. b_last *)
Definition in_range (s : bman) : Prop := exists i, b_ind s = Some i /\ 0 <= i <= b_last s.
(** the uses of the display that are excluded: the number 0 before up and down; a limit that is no frame number (frames
    are numbered from 1 on the screen); playing with a second limit but no first one; a slider outside of its range; a
    digit key that is no digit *)
Definition sane (s : bman) (e : bevent) : Prop :=
  match e with
  | KEnd | KBeg => b_key s <> Some 0
  | KLims => forall k, b_key s = Some k -> 1 <= k <= b_last s + 1
  | Tick => b_hi s = None \/ b_lo s <> None
  | Slide x => (qz 1 <= x <= qz (b_last s + 1))%num
  | KDigit d => 0 <= d <= 9
  | _ => True
  end.
Fixpoint sane_history (s : bman) (h : list bevent) : Prop :=
  match h with [] => True | e :: h' => sane s e /\ sane_history (fst (fst (b_step s e))) h' end.
(** the number written by a list of digits *)
Definition decimal (ds : list Z) : Z := fold_left (fun k d => k * 10 + d) ds 0.

(** the displays connected to a display *)
Inductive connected (links : nat -> list nat) (g : nat) : nat -> Prop :=
| conn_self : connected links g g
| conn_step h k : connected links g h -> In k (links h) -> connected links g k.
(** the keys that are no digits *)
Definition is_key (e : bevent) : Prop :=
  match e with KNext | KPrev | KEnd | KBeg | KGo | KPlay | KIncr | KInterv | KQuit | KLims | KGoLims | KOther => True | _ => False end.
