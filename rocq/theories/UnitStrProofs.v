(** * UnitStrProofs: the strings accepted as units. *)
From Coq Require Import String Ascii Lia List.
From Verif Require Import Num Res ListLib FieldModel UnitStrModel UnitStrSpec.
Open Scope string_scope.

Lemma prefix_iff w s : prefix w s = true <-> exists b, s = w ++ b.
Proof.
  revert s. induction w as [|c w IH]; intro s; [split; [intros _; now exists s|destruct s; reflexivity]|]. destruct s as [|d s]; [split; [discriminate|intros (b & E); discriminate]|]. cbn. destruct (ascii_dec c d) as [->|N].
  - rewrite IH. split; intros (b & E); exists b; [now rewrite E|now injection E].
  - split; [discriminate|]. intros (b & E). injection E as -> _. congruence.
Qed.
Lemma occurs_iff w s : occurs w s = true <-> has_inside w s.
Proof.
  induction s as [|c s IH].
  - cbn [occurs]. rewrite Bool.orb_false_r, prefix_iff. split; [intros (b & E); exists "", b; exact E|]. intros (a & b & E). destruct a; [now exists b|discriminate].
  - cbn [occurs]. rewrite Bool.orb_true_iff, prefix_iff, IH. split.
    + intros [(b & E)|(a & b & E)]; [exists "", b; exact E|exists (String c a), b; now rewrite E].
    + intros (a & b & E). destruct a as [|d a]; [left; now exists b|]. injection E as -> E. right. now exists a, b.
Qed.
Lemma letter_iff c : is_letter c = true <-> letter c.
Proof. unfold is_letter, letter. rewrite Bool.orb_true_iff, !Bool.andb_true_iff, !Nat.leb_le. tauto. Qed.
Lemma call_iff s : forall seen, call_after seen s = true <-> exists w a b, (seen = true \/ w <> "") /\ all_letters w /\ s = w ++ "(" ++ a ++ ")" ++ b.
Proof.
  induction s as [|c s IH]; intro seen; cbn [call_after].
  - split; [discriminate|]. intros (w & a & b & _ & _ & E). destruct w; discriminate.
  - destruct (is_letter c) eqn:L.
    + rewrite IH. split.
      * intros (w & a & b & _ & AL & E). exists (String c w), a, b. split; [right; discriminate|]. split; [constructor; [now apply letter_iff|exact AL]|]. cbn. now rewrite E.
      * intros (w & a & b & _ & AL & E). destruct w as [|d w]; [injection E as -> _; discriminate|]. inversion AL; subst. injection E as -> E. exists w, a, b. auto.
    + rewrite !Bool.andb_true_iff, Ascii.eqb_eq, occurs_iff. split.
      * intros ((S0 & ->) & a & b & E). exists "", a, b. split; [now left|]. split; [constructor|]. cbn. now rewrite E.
      * intros (w & a & b & S0 & AL & E). destruct w as [|d w]; [|inversion AL; subst; injection E as -> _; apply letter_iff in H1; congruence]. injection E as -> E. destruct S0 as [S0|S0]; [|congruence]. split; [auto|]. now exists a, b.
Qed.
Lemma carets_iff s : same_powers s (carets s).
Proof. induction s as [|c s IH]; cbn; [constructor|]. destruct (Ascii.eqb_spec c "^"%char) as [->|N]; [now constructor|now constructor]. Qed.
(** the strings evaluated contain none of the forbidden words, nor a call at the beginning *)
Lemma unit_string_lemma {A} (none : A) eval s u : make_unit none eval s = Ok u ->
  (s = "" /\ u = none) \/
  (exists t, same_powers s t /\ eval t = Ok u /\ (forall w, In w dangerous -> ~ has_inside w s) /\ ~ starts_with_call s).
Proof.
  unfold make_unit. destruct (String.eqb_spec s "") as [->|N]; [intros [= <-]; now left|]. destruct (existsb _ forbidden) eqn:E; [discriminate|]. cbn [guard]. destruct (begins_with_call s) eqn:B; [discriminate|]. cbn [guard]. intro H. right.
  exists (carets s). split; [apply carets_iff|]. split; [exact H|]. split.
  - intros w I X. apply occurs_iff in X. assert (existsb (fun w => occurs w s) forbidden = true); [|congruence]. apply existsb_exists. exists w. split; [|exact X]. unfold forbidden. apply in_or_app. cbn [In dangerous] in I. cbn [In module_names]. unfold newline, dquote. tauto.
  - intros (w & a & b & W & AL & X). assert (begins_with_call s = true); [|congruence]. apply call_iff. exists w, a, b. auto.
Qed.
(** nothing is evaluated otherwise: the call fails whatever the evaluation would do *)
Lemma unit_string_refused {A} (none : A) eval s : s <> "" -> ((exists w, In w dangerous /\ has_inside w s) \/ starts_with_call s) -> make_unit none eval s = Err GenericErr.
Proof.
  intros N H. unfold make_unit. destruct (String.eqb_spec s "") as [->|_]; [congruence|]. destruct (existsb _ forbidden) eqn:E; [reflexivity|]. cbn [guard]. destruct (begins_with_call s) eqn:B; [reflexivity|]. exfalso. destruct H as [(w & I & X)|(w & a & b & W & AL & X)].
  - apply occurs_iff in X. assert (existsb (fun w => occurs w s) forbidden = true); [|congruence]. apply existsb_exists. exists w. split; [|exact X]. unfold forbidden. apply in_or_app. cbn [In dangerous] in I. cbn [In module_names]. unfold newline, dquote. tauto.
  - assert (begins_with_call s = true); [|congruence]. apply call_iff. exists w, a, b. auto.
Qed.
(** names refused inside any unit, whatever it is *)
Lemma unit_string_names {A} (none : A) eval s : has_inside "re" s \/ has_inside "np" s \/ has_inside "units" s -> make_unit none eval s = Err GenericErr.
Proof.
  intro H. unfold make_unit. destruct (String.eqb_spec s "") as [->|_]; [exfalso; destruct H as [(a & b & E)|[(a & b & E)|(a & b & E)]]; destruct a; discriminate|].
  assert (existsb (fun w => occurs w s) forbidden = true) as ->; [|reflexivity]. apply existsb_exists. destruct H as [H|[H|H]]; apply occurs_iff in H; eexists; (split; [|exact H]); unfold forbidden; apply in_or_app; right; cbn [In module_names]; tauto.
Qed.
(** a call elsewhere than at the beginning is evaluated *)
Lemma unit_string_calls {A} (none : A) eval (r : res A) : eval "m*exit()" = r -> calls "m*exit()" /\ make_unit none eval "m*exit()" = r.
Proof.
  intro H. split; [|unfold make_unit; cbn; exact H]. exists "m*", "exit()". split; [reflexivity|]. exists "exit", "", "". split; [discriminate|]. split; [|reflexivity]. repeat constructor; unfold letter; cbn; lia.
Qed.
Lemma unit_string_ordinary {A} (none : A) eval (r : res A) : eval "m/s**2" = r -> make_unit none eval "m/s^2" = r /\ make_unit none eval "m/s**2" = r.
Proof. intro H. split; unfold make_unit; cbn; exact H. Qed.
(** in particular, nothing beginning with a call is evaluated *)
Lemma unit_string_first {A} (none : A) eval s u : make_unit none eval s = Ok u -> ~ starts_with_call s.
Proof.
  intro H. destruct (unit_string_lemma none eval s u H) as [[-> _]|(t & _ & _ & _ & N)]; [|exact N]. intros (w & a & b & W & _ & E). destruct w; [congruence|discriminate].
Qed.
