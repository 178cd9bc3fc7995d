(** * UnitStrModel: the strings given as units (IMTreatment/utils/units.py 36-73).
    Python's exec of the string, in the names of unum.units, is the parameter [eval]. *)
From Coq Require Import String Ascii.
From Verif Require Import Num Res ListLib FieldModel.
Open Scope string_scope.

(** substring test (67) *)
Fixpoint occurs (w s : string) : bool :=
  (prefix w s || match s with "" => false | String _ r => occurs w r end)%bool.
Definition newline : string := String (ascii_of_nat 10) "".
Definition dquote : string := String (ascii_of_nat 34) "".
(** the names of the module when the function is called (65): the attributes every module has, its imports and its functions *)
Definition module_names : list string :=
  ["__name__"; "__doc__"; "__package__"; "__loader__"; "__spec__"; "__file__"; "__cached__"; "__builtins__";
   "np"; "re"; "unum"; "units"; "ARRAYTYPES"; "INTEGERTYPES"; "NUMBERTYPES"; "STRINGTYPES"; "make_unit"; "make_unit_old"].
Definition forbidden : list string := ["import"; "="; newline; ";"; ":"; dquote; "'"; "open"] ++ module_names.
Definition is_letter (c : ascii) : bool :=
  let n := nat_of_ascii c in ((Nat.leb 65 n && Nat.leb n 90) || (Nat.leb 97 n && Nat.leb n 122))%bool.
(** re.match("[a-zA-Z]+\(.*\)", s) (69): at the beginning only; the string has no newline *)
Fixpoint call_after (seen : bool) (s : string) : bool :=
  match s with
  | "" => false
  | String c r => if is_letter c then call_after true r else (seen && Ascii.eqb c "("%char && occurs ")" r)%bool
  end.
Definition begins_with_call : string -> bool := call_after false.
(** string.replace('^', '**') (72) *)
Fixpoint carets (s : string) : string :=
  match s with "" => "" | String c r => if Ascii.eqb c "^"%char then "**" ++ carets r else String c (carets r) end.
Definition make_unit {A} (none : A) (eval : string -> res A) (s : string) : res A :=
  if String.eqb s "" then Ok none
  else raise GenericErr when (existsb (fun w => occurs w s) forbidden) ;;
    raise GenericErr when (begins_with_call s) ;;
    eval (carets s).
