(** * PropUnitStr: the properties C174 and C179: strings given as units.
    Statements only; the proofs are in UnitStrProofs.v.  The vocabulary is in UnitStrSpec. *)
From Coq Require Import Lia List String Ascii.
From Verif Require Import Num Res ListLib UnitStrModel UnitStrSpec UnitStrProofs.
Open Scope string_scope.

(** ** C174 *)
Theorem C174_accepted {A} (none : A) eval s u :
  make_unit none eval s = Ok u ->
  (s = "" /\ u = none) \/
  (exists t, same_powers s t /\ eval t = Ok u /\ (forall w, In w dangerous -> ~ has_inside w s) /\ ~ starts_with_call s).
Proof. exact (unit_string_lemma none eval s u). Qed.
Print Assumptions C174_accepted.

Theorem C179_first_partial {A} (none : A) eval s u :
  make_unit none eval s = Ok u -> ~ starts_with_call s.
Proof. exact (unit_string_first none eval s u). Qed.
Print Assumptions C179_first_partial.

Theorem C174_refused {A} (none : A) eval s :
  s <> "" -> ((exists w, In w dangerous /\ has_inside w s) \/ starts_with_call s) -> make_unit none eval s = Err GenericErr.
Proof. exact (unit_string_refused none eval s). Qed.
Print Assumptions C174_refused.

Theorem C174_names {A} (none : A) eval s :
  has_inside "re" s \/ has_inside "np" s \/ has_inside "units" s -> make_unit none eval s = Err GenericErr.
Proof. exact (unit_string_names none eval s). Qed.
Print Assumptions C174_names.

Theorem C179_calls_refuted {A} (none : A) eval (r : res A) :
  eval "m*exit()" = r -> calls "m*exit()" /\ make_unit none eval "m*exit()" = r.
Proof. exact (unit_string_calls none eval r). Qed.
Print Assumptions C179_calls_refuted.

Theorem C174_ordinary {A} (none : A) eval (r : res A) :
  eval "m/s**2" = r -> make_unit none eval "m/s^2" = r /\ make_unit none eval "m/s**2" = r.
Proof. exact (unit_string_ordinary none eval r). Qed.
Print Assumptions C174_ordinary.

Example C174_example : has_inside "import" "m*__import__" /\ starts_with_call "exit()" /\ has_inside "re" "are".
Proof.
  split; [exists "m*__", "__"; reflexivity|]. split; [|exists "a", ""; reflexivity]. exists "exit", "", "". split; [discriminate|]. split; [|reflexivity]. repeat constructor; unfold letter; cbn; lia.
Qed.
