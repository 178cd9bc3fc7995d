(** * ButtonModel: the interactive display (plotlib/plotlib.py, ButtonManager). *)
From Verif Require Import Num Res ListLib UtilsModel.
#[local] Open Scope Z_scope.

(** The state (348-445) that decides which frame is shown: [b_last] is ind_max, [b_ind] is ind ([None] is python's None),
    [b_incr] incr, [b_key] tmp_key_number, [b_play] on_play, [b_lo] and [b_hi] ind_lims.  The widgets, the drawing and the
    play interval are not modelled. *)
Record bman := mkb { b_last : Z; b_ind : option Z; b_incr : Z; b_key : option Z; b_play : bool; b_lo : option Z; b_hi : option Z }.
Definition b_new (last : Z) : bman := mkb last (Some 0) 1 None false None None.
Definition set_ind (s : bman) (i : option Z) : bman := mkb (b_last s) i (b_incr s) (b_key s) (b_play s) (b_lo s) (b_hi s).
Definition set_key (s : bman) (k : option Z) : bman := mkb (b_last s) (b_ind s) (b_incr s) k (b_play s) (b_lo s) (b_hi s).
Definition set_incr (s : bman) (i : Z) : bman := mkb (b_last s) (b_ind s) i (b_key s) (b_play s) (b_lo s) (b_hi s).
Definition set_play (s : bman) (p : bool) : bman := mkb (b_last s) (b_ind s) (b_incr s) (b_key s) p (b_lo s) (b_hi s).
Definition set_lim (s : bman) (l h : option Z) : bman := mkb (b_last s) (b_ind s) (b_incr s) (b_key s) (b_play s) l h.

(** the outcome of a callback: the new state, the frame drawn (if any) and the exception (if any) *)
Notation bout := (bman * option Z * option exn)%type.
(** update (741-761): None + 1 raises; otherwise every displayer draws frame [ind].  The slider callback it triggers
    finds the index it has to set and stops (736-737). *)
Definition b_update (s : bman) : bout :=
  match b_ind s with Some i => (s, Some i, None) | None => (s, None, Some TypeErr) end.
(** _get_key_number (802-805): read and forget the typed number *)
Definition pop_key (s : bman) : bman := set_key s None.

(** prevf (527-544) *)
Definition prevf (s : bman) : bout :=
  let incr := match b_key s with Some k => k | None => b_incr s end in
  let s := pop_key s in
  match b_ind s with
  | None => (s, None, Some TypeErr)
  | Some i => if i =? 0 then (s, None, None)
              else b_update (set_ind s (Some (if i - incr >? 0 then i - incr else 0)))
  end.
(** nextf (546-563) *)
Definition nextf (s : bman) : bout :=
  let incr := match b_key s with Some k => k | None => b_incr s end in
  let s := pop_key s in
  match b_ind s with
  | None => (s, None, Some TypeErr)
  | Some i => if i =? b_last s then (s, None, None)
              else b_update (set_ind s (Some (if i + incr <=? b_last s then i + incr else b_last s)))
  end.
(** playf (565-577) *)
Definition playf (s : bman) : bout := (set_play (pop_key s) (negb (b_play s)), None, None).
(** timer_play (579-592) *)
Definition timer_play (s : bman) : bout :=
  let (ind1, ind2) := match b_hi s with Some h => (b_lo s, h) | None => (Some 0, b_last s + 1) end in
  match b_ind s with
  | None => (s, None, Some TypeErr)
  | Some i =>
    let i := i + b_incr s in
    b_update (set_ind s (if i >=? ind2 then ind1 else if i >=? b_last s then Some 0 else Some i))
  end.
(** goto (594-601) *)
Definition goto (s : bman) : bout :=
  match b_key s with
  | None => (s, None, None)
  | Some k => let s := pop_key s in
              if (k >? b_last s) || (k <? 1) then (s, None, None) else b_update (set_ind s (Some (k - 1)))
  end.
(** goto_end (603-610) and goto_beg (612-619) *)
Definition goto_key (dflt : Z) (s : bman) : bout :=
  let k := match b_key s with Some k => k | None => dflt end in
  let s := pop_key s in
  if k >? b_last s + 1 then (s, None, None) else b_update (set_ind s (Some (k - 1))).
Definition goto_end (s : bman) : bout := goto_key (b_last s + 1) s.
Definition goto_beg (s : bman) : bout := goto_key 1 s.
(** set_lims (621-679) without arguments, as the keyboard calls it *)
Definition oz_eqb (a b : option Z) : bool :=
  match a, b with Some x, Some y => x =? y | None, None => true | _, _ => false end.
Definition set_lims (s : bman) : bout :=
  let k := match b_key s with Some k => Some (k - 1) | None => b_ind s end in
  let s := pop_key s in
  if oz_eqb k (b_lo s) then
    match b_lo s with Some _ => (set_lim s None (b_hi s), None, None) | None => (s, None, Some AttrErr) end
  else if oz_eqb k (b_hi s) then
    match b_hi s with Some _ => (set_lim s (b_lo s) None, None, None) | None => (s, None, Some AttrErr) end
  else
    match b_lo s, b_hi s with
    | Some _, Some _ => (set_lim s None None, None, None)
    | None, _ => (set_lim s k (b_hi s), None, None)
    | Some l, None =>
      match k with
      | Some h => (if h <? l then set_lim s (Some h) (Some l) else set_lim s (Some l) (Some h), None, None)
      | None => (s, None, Some TypeErr)
      end
    end.
(** goto_lims (681-694) *)
Definition goto_lims (s : bman) : bout :=
  let s := pop_key s in
  match b_lo s with
  | Some l => if oz_eqb (b_ind s) (Some l) then
                match b_hi s with
                | Some h => if oz_eqb (b_ind s) (Some h) then (s, None, None) else b_update (set_ind s (Some h))
                | None => (s, None, None)
                end
              else b_update (set_ind s (Some l))
  | None => match b_hi s with
            | Some h => if oz_eqb (b_ind s) (Some h) then (s, None, None) else b_update (set_ind s (Some h))
            | None => (s, None, None)
            end
  end.
(** slid (734-739): the slider gives a number between 1 and ind_max + 1 *)
Definition slid (x : num) (s : bman) : bout :=
  if match b_ind s with Some i => qeqb (x - 1)%num (qz i) | None => false end then (s, None, None)
  else b_update (set_ind s (Some (qtrunc x - 1))).

Inductive bevent :=
| KNext | KPrev | KEnd | KBeg | KGo | KPlay | KIncr | KInterv | KQuit | KLims | KGoLims | KOther | KDigit (d : Z)
| Next | Prev | Play | Slide (x : num) | Tick.
(** close (897-899) *)
Definition b_close (s : bman) : bout := if b_play s then playf s else (s, None, None).
(** keyf (696-732): a key that is no digit forgets the typed number, unless its action has raised *)
Definition after_key (o : bout) : bout := match o with (s, d, None) => (pop_key s, d, None) | (s, d, Some e) => (s, d, Some e) end.
Definition b_step (s : bman) (e : bevent) : bout :=
  match e with
  | KNext => after_key (nextf s) | KPrev => after_key (prevf s) | KEnd => after_key (goto_end s) | KBeg => after_key (goto_beg s)
  | KGo => after_key (goto s) | KPlay => after_key (playf s)
  | KIncr => after_key (match b_key s with Some k => set_incr (pop_key s) k | None => s end, None, None)   (* _update_incr (807-810) *)
  | KInterv => after_key (pop_key s, None, None) | KQuit => after_key (b_close s)
  | KLims => after_key (set_lims s) | KGoLims => after_key (goto_lims s) | KOther => after_key (s, None, None)
  | KDigit d => (set_key s (Some (match b_key s with Some k => k * 10 + d | None => d end)), None, None)
  | Next => nextf s | Prev => prevf s | Play => playf s
  | Slide x => slid x s
  | Tick => if b_play s then timer_play s else (s, None, None)
  end.
(** a history: the final state and what each event has shown or raised *)
Fixpoint b_run (s : bman) (h : list bevent) : bman * list (option Z * option exn) :=
  match h with
  | [] => (s, [])
  | e :: h' => let '(s1, d, x) := b_step s e in let (s2, l) := b_run s1 h' in (s2, (d, x) :: l)
  end.

(** save_animation (840-895): start at fields[0]; fields[1] - fields[0] times: nextf, then record the frame shown *)
Fixpoint save_loop (s : bman) (k : nat) : bman * list (option Z) :=
  match k with
  | O => (s, [])
  | S k' => let '(s1, _, _) := nextf s in let (s2, l) := save_loop s1 k' in (s2, b_ind s1 :: l)
  end.
Definition save_animation (s : bman) (f0 f1 : Z) : bman * list (option Z) :=
  let (s1, l) := save_loop (set_ind s (Some f0)) (Z.to_nat (f1 - f0)) in (set_ind s1 (b_ind s), l).
Definition save_all (s : bman) : bman * list (option Z) := save_animation s 0 (b_last s).

(** ** Linked displays *)
(** link_to_other_graph (830-838) makes the links symmetric; _update_linked_graphs (792-800) gives the index of the
    display to the linked displays that have another one, which then update in turn.  [inds] are the indices of the
    displays, [fuel] bounds the recursion. *)
Definition upd_at (inds : nat -> Z) (h : nat) (v : Z) : nat -> Z := fun k => if Nat.eqb k h then v else inds k.
Fixpoint l_update (links : nat -> list nat) (fuel : nat) (inds : nat -> Z) (g : nat) : option (nat -> Z) :=
  match fuel with
  | O => None
  | S fuel' =>
    fold_left (fun acc h => match acc with
                            | None => None
                            | Some i => if i h =? i g then Some i else l_update links fuel' (upd_at i h (i g)) h
                            end) (links g) (Some inds)
  end.
(** a display goes to frame [v] and updates *)
Definition l_move (links : nat -> list nat) (fuel : nat) (inds : nat -> Z) (g : nat) (v : Z) : option (nat -> Z) :=
  l_update links fuel (upd_at inds g v) g.
