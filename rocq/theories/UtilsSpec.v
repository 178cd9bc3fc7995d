(** * UtilsSpec: vocabulary for the properties of the helpers. *)
From Coq Require Import String.
From Verif Require Import Num Res ListLib UtilsModel.

(** ** type checking *)
Section Types.
Context {T Val R : Type}.
(** a type is one of the accepted ones *)
Definition accepted (w : @wtype T) (t : T) : Prop := match w with WOne t' => t = t' | WMany ts => In t ts end.
(** the parameters of a function or method, [self] not counted *)
Definition is_meth (f : @pyfun Val R) : bool := match params f with x :: _ => if string_dec x "self" then true else false | [] => false end.
Definition own_params (f : @pyfun Val R) : list string := if is_meth f then tl (params f) else params f.
Definition own_args {B} (f : @pyfun Val R) (args : list B) : list B := if is_meth f then tl args else args.
(** the type declared for a parameter: by keyword, else by position *)
Definition declared (arg_types : list (@wtype T)) (kw_types : list (string * @wtype T)) (ps : list string) (x : string) (w : @wtype T) : Prop :=
  In (x, w) kw_types \/ ((forall w', ~ In (x, w') kw_types) /\ exists i, nth_error ps i = Some x /\ nth_error arg_types i = Some w).
(** the value given to a parameter, by position or by keyword *)
Definition given (ps : list string) (args : list Val) (kwargs : list (string * Val)) (x : string) (v : Val) : Prop :=
  In (x, v) kwargs \/ exists i, nth_error ps i = Some x /\ nth_error args i = Some v.
(** a call python accepts for a function without star parameters: not too many positional arguments, each keyword names
    a parameter, no parameter is given twice *)
Definition well_called (ps : list string) (args : list Val) (kwargs : list (string * Val)) : Prop :=
  length args <= length ps /\ (forall x v, In (x, v) kwargs -> In x ps) /\ NoDup (map fst kwargs ++ firstn (length args) ps).
End Types.

(** ** elapsed time: the number of seconds a printed duration stands for *)
Definition unit_seconds (u : tfieldu) : num :=
  match u with Ms => qq 1 1000 | Sec => qz 1 | Mn => qz 60 | Hour => qz 3600 | Day => qz 86400 end.
Definition printed_seconds (l : list (Z * tfieldu)) : num := fold_right (fun e s => (qz (fst e) * unit_seconds (snd e) + s)%num) (qz 0) l.

(** ** memoization: one process that runs, calls and stops, never in the middle of a write *)
Inductive aop (A : Type) := AStart | ACall (a : A) | AStop.
Arguments AStart {A}. Arguments ACall {A} _. Arguments AStop {A}.
Definition events_of {A} (o : aop A) : list (@mevent A) :=
  match o with AStart => [MStart 0] | ACall a => [MCall 0 a; MDump 0] | AStop => [MCrash 0] end.
(** how often the function has been run for arguments with this key *)
Definition times_computed {A K V} (K_dec : forall a b : K, {a = b} + {a <> b}) (key : A -> K) (k : K) (os : list (@mobs A V)) : nat :=
  length (filter (fun o => match o with Computed _ b => if K_dec (key b) k then true else false | _ => false end) os).
