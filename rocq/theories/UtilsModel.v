(** * UtilsModel: the file memoization, the type checking decorators and the progress counter. *)
From Coq Require Import String.
From Verif Require Import Num Res ListLib.

(** ** utils/memoization.py *)
Section Memo.
Context {A K V : Type} (K_dec : forall a b : K, {a = b} + {a <> b}).
(** pickle.dumps((args, kwargs)) *)
Variable key : A -> K.
(** the function decorated in a process; a process decorates one function with one file name *)
Variable func : nat -> A -> V.
(** what pickle.load does on the first [n] bytes of an unfinished file: [true] if it raises IOError or ValueError
    (caught, 37), [false] if it raises something else (EOFError, UnpicklingError, zlib.error) *)
Variable torn_caught : nat -> bool.

Notation cache := (list (K * V)).
(** the file: absent, a complete pickled cache, or the beginning of one *)
Inductive mfile := Absent | Good (c : cache) | Torn (n : nat).
(** [cache[key]]: the last assignment wins *)
Fixpoint cget (c : cache) (k : K) : option V :=
  match c with [] => None | (k', v) :: c' => if K_dec k k' then Some v else cget c' k end.

(** a process: not running, idle with its cache, or in the middle of the write of lines 46-47, about to return cache[key] *)
Inductive mproc := Off | Idle (c : cache) | Writing (c : cache) (a : A).
Record mworld := { mf : mfile; mp : nat -> mproc }.
Definition set_proc (w : mworld) (f : mfile) (p : nat) (s : mproc) : mworld :=
  {| mf := f; mp := fun q => if Nat.eqb q p then s else mp w q |}.

(** the events: decorate in a fresh process, call, go on writing ([n] bytes are in the file), finish writing, crash *)
Inductive mevent := MStart (p : nat) | MCall (p : nat) (a : A) | MPart (p n : nat) | MDump (p : nat) | MCrash (p : nat).
(** what can be observed: the decoration succeeds or raises; a call computes (runs the function) and returns *)
Inductive mobs := Started (p : nat) | Raised (p : nat) | Returned (p : nat) (a : A) (v : V) | Computed (p : nat) (a : A) | Nothing.

(** the decoration (32-39) *)
Definition m_load (f : mfile) : option cache :=
  match f with Absent => Some [] | Good c => Some c | Torn n => if torn_caught n then Some [] else None end.
(** new_func (41-49).  The file is truncated when it is opened (46) and complete when it is closed.  Writes of two
    processes at the same time are simplified: the last one that is closed wins. *)
Definition mstep (w : mworld) (e : mevent) : mworld * mobs :=
  match e with
  | MStart p =>
    match mp w p with
    | Off => match m_load (mf w) with
             | Some c => (set_proc w (mf w) p (Idle c), Started p)
             | None => (w, Raised p)
             end
    | _ => (w, Nothing)
    end
  | MCall p a =>
    match mp w p with
    | Idle c =>
      match cget c (key a) with
      | Some v => (w, Returned p a v)
      | None => (set_proc w (Torn 0) p (Writing ((key a, func p a) :: c) a), Computed p a)
      end
    | _ => (w, Nothing)
    end
  | MPart p n =>
    match mp w p with Writing c a => (set_proc w (Torn n) p (Writing c a), Nothing) | _ => (w, Nothing) end
  | MDump p =>
    match mp w p with
    | Writing c a =>
      match cget c (key a) with
      | Some v => (set_proc w (Good c) p (Idle c), Returned p a v)
      | None => (set_proc w (Good c) p (Idle c), Nothing)
      end
    | _ => (w, Nothing)
    end
  | MCrash p => (set_proc w (mf w) p Off, Nothing)
  end.
(** the observations of a history, the first one first *)
Fixpoint mrun (w : mworld) (h : list mevent) : mworld * list mobs :=
  match h with
  | [] => (w, [])
  | e :: h' => let (w1, o) := mstep w e in let (w2, os) := mrun w1 h' in (w2, o :: os)
  end.
Definition m_init : mworld := {| mf := Absent; mp := fun _ => Off |}.
End Memo.

(** ** utils/types.py *)
Section Types.
(** types, values with their type, results *)
Context {T Val R : Type} (T_dec : forall a b : T, {a = b} + {a <> b}) (type_of : Val -> T).
(** a wanted type: one type or a collection of types *)
Inductive wtype := WOne (t : T) | WMany (ts : list T).
(** [g_type in w_type], or equality when w_type is no collection (91-94) *)
Definition accepts (w : wtype) (t : T) : bool :=
  match w with
  | WOne t' => if T_dec t t' then true else false
  | WMany ts => existsb (fun t' => if T_dec t t' then true else false) ts
  end.
(** the function: its positional parameters, its local variables (co_varnames is params ++ locals), and its effect *)
Record pyfun := { params : list string; locals : list string; call : list Val -> list (string * Val) -> res R }.

Fixpoint assoc {B} (x : string) (l : list (string * B)) : option B :=
  match l with [] => None | (y, b) :: l' => if string_dec x y then Some b else assoc x l' end.

(** extract_var_info (51-69): note that for a method the slice of line 58 is one too long *)
Definition tt_method (f : pyfun) : res bool :=
  match params f ++ locals f with [] => Err IndexErr | x :: _ => Ok (if string_dec x "self" then true else false) end.
Definition tt_varnames (f : pyfun) (m : bool) : list string :=
  let v := params f ++ locals f in firstn (length (params f)) (if m then skipn 1 v else v).
Fixpoint tt_wanted (arg_types : list wtype) (kw_types : list (string * wtype)) (vars : list string) : list (string * wtype) :=
  match vars with
  | [] => []
  | x :: r =>
    match assoc x kw_types, arg_types with
    | Some w, _ => (x, w) :: tt_wanted (tl arg_types) kw_types r
    | None, w :: _ => (x, w) :: tt_wanted (tl arg_types) kw_types r
    | None, [] => tt_wanted [] kw_types r
    end
  end.
(** the types of the given arguments (74-83) *)
Definition tt_given (vars : list string) (args : list Val) (kwargs : list (string * Val)) : res (list (string * T)) :=
  if Nat.ltb (length vars) (length args) then Err IndexErr
  else Ok (map (fun e => (fst e, type_of (snd e))) kwargs ++
           map (fun e => (fst e, type_of (snd e))) (combine vars args)).
(** the check (85-101) on the dictionary of given types: the entry of a name is its first one in the list *)
Definition tt_check (wanted : list (string * wtype)) (given : list (string * T)) : bool :=
  forallb (fun x => match assoc x wanted, assoc x given with Some w, Some t => accepts w t | _, _ => true end) (map fst given).
(** the decorated function (71-103): is the function called, and the outcome *)
Definition tt_call (arg_types : list wtype) (kw_types : list (string * wtype)) (f : pyfun) (args : list Val) (kwargs : list (string * Val))
  : res (bool * res R) :=
  let* m := tt_method f in   (* raised by the decoration *)
  let vars := tt_varnames f m in
  match tt_given vars (if m then skipn 1 args else args) kwargs with
  | Err e => Ok (false, Err e)
  | Ok given => if tt_check (tt_wanted arg_types kw_types vars) given then Ok (true, call f args kwargs) else Ok (false, Err TypeErr)
  end.
(** ReturnTest (105-127): the result must have exactly the type *)
Definition rt_call (rtype : R -> T) (t : T) (f : pyfun) (args : list Val) (kwargs : list (string * Val)) : res R :=
  let* r := call f args kwargs in raise TypeErr when (if T_dec (rtype r) t then false else true) ;; Ok r.
End Types.

(** ** utils/progresscounter.py, with a finite number of things *)
Record pcount := { pc_max : Z; pc_cur : Z; pc_interv : Z }.
(** int(): towards zero *)
Definition qtrunc (x : num) : Z := if qleb 0%num x then qfloor x else (- qfloor (0 - x)%num)%Z.
(** __init__ (33-66) for an integer [n] *)
Definition pc_new (n : Z) (perc : num) : pcount :=
  let i := qtrunc (qz n * perc / qz 100)%num in
  {| pc_max := n; pc_cur := 1; pc_interv := if Z.eqb i 0 then 1 else i |}.
(** np.round: half to even *)
Definition qround (x : num) : Z :=
  let f := qfloor x in let d := (x - qz f)%num in
  if qltb d (qq 1 2) then f else if qltb (qq 1 2) d then (f + 1)%Z else if Z.even f then f else (f + 1)%Z.
(** what a call of print_progress prints, besides the heading printed by the first one: a complaint, a progress line
    (percentage, number of '#' and of '.', item number), the end message *)
Record pcout := { po_problem : bool; po_line : option (Z * Z * Z * Z); po_end : bool }.
(** _print_progress_full (91-127); the line divides by nmb_max (ZeroDivisionError, as GenericErr); the times are not modelled *)
Definition pc_step (c : pcount) : pcount * res pcout :=
  let i := pc_cur c in
  let shown := (Z.eqb (i mod pc_interv c) 0 || Z.eqb i (pc_max c))%bool in
  if (shown && Z.eqb (pc_max c) 0)%bool then (c, Err GenericErr)
  else
    let perc := qround (qz i / qz (pc_max c) * qz 100)%num in
    let nb := qtrunc (qz perc / qz 100 * qz 15)%num in
    ({| pc_max := pc_max c; pc_cur := i + 1; pc_interv := pc_interv c |},
     Ok {| po_problem := Z.eqb i (pc_max c + 1);
           po_line := if shown then Some (perc, nb, 15 - nb, i)%Z else None;
           po_end := Z.eqb i (pc_max c) |}).
Fixpoint pc_run (c : pcount) (k : nat) : list (res pcout) :=
  match k with O => [] | S k' => let (c', o) := pc_step c in o :: pc_run c' k' end.

(** _format_time (154-171): the fields printed, the largest first; [j] days are printed with the number of minutes *)
Inductive tfieldu := Ms | Sec | Mn | Hour | Day.
Definition format_time (second : num) : list (Z * tfieldu) :=
  let ms := qtrunc ((second - qz (qfloor second)) * qz 1000)%num in
  let sec := qtrunc second in
  let m0 := (sec / 60)%Z in let s := (sec mod 60)%Z in
  let h0 := (m0 / 60)%Z in let m := (m0 mod 60)%Z in
  let j := (h0 / 24)%Z in let h := (h0 mod 24)%Z in
  if (Z.eqb s 0 && Z.eqb m 0 && Z.eqb h 0 && Z.eqb j 0)%bool then [(ms, Ms)]
  else (if Z.eqb j 0 then [] else [(m, Day)]) ++ (if Z.eqb h 0 then [] else [(h, Hour)]) ++
       (if Z.eqb m 0 then [] else [(m, Mn)]) ++ [(s, Sec)].
