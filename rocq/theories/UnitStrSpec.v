(** * UnitStrSpec: what a string given as a unit may contain. *)
From Coq Require Import String Ascii.
From Verif Require Import Num Res ListLib.
Open Scope string_scope.

Definition has_inside (w s : string) : Prop := exists a b, s = a ++ w ++ b.
(** what lets a string do something else than compute: imports, assignments, several statements, texts, opening of files *)
Definition dangerous : list string := ["import"; "="; String (ascii_of_nat 10) ""; ";"; ":"; String (ascii_of_nat 34) ""; "'"; "open"; "__builtins__"].
(** a letter of the English alphabet *)
Definition letter (c : ascii) : Prop := (65 <= nat_of_ascii c <= 90) \/ (97 <= nat_of_ascii c <= 122).
Inductive all_letters : string -> Prop :=
| al_nil : all_letters ""
| al_cons c s : letter c -> all_letters s -> all_letters (String c s).
(** name(...)... *)
Definition starts_with_call (s : string) : Prop := exists w a b, w <> "" /\ all_letters w /\ s = w ++ "(" ++ a ++ ")" ++ b.
(** name(...) somewhere *)
Definition calls (s : string) : Prop := exists x y, s = x ++ y /\ starts_with_call y.
(** the power can be written ^ or ** *)
Inductive same_powers : string -> string -> Prop :=
| sp_nil : same_powers "" ""
| sp_caret s t : same_powers s t -> same_powers (String "^" s) (String "*" (String "*" t))
| sp_char c s t : c <> "^"%char -> same_powers s t -> same_powers (String c s) (String c t).
