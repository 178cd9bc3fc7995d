(** * Series2Proofs6: the statements of C142 outside of the section, and weird frames on concrete series. *)
From Coq Require Import Lia ZArith.
From Verif Require Import Num Res ListLib SortLib Arr FieldModel ScalarFieldModel VectorFieldModel FieldSpec ProfileModel ProfileSpec Prof2Model Prof2Spec
  TemporalModel TemporalSpec Prof2Proofs3 Series2Model Series2Spec Series2Proofs Series2Proofs2 Series2Proofs4.

Lemma background_choice t noise : grid_ok2 (tfg t) -> (forall f, In f (tff t) -> sf_wf f /\ sg f = tfg t) -> tff t <> [] ->
  exists b, tsf_background t noise = Ok b /\ sg b = tfg t /\ uv b = one_unit /\ sf_wf b /\ sf_clean b /\
    forall i j l, i < length (ax (tfg t)) -> j < length (ay (tfg t)) -> pixel_values t i j l ->
      exists keep, convex keep /\ filter keep l <> [] /\
        ((at_ (msk b) i j = true /\ equidistant (filter keep l)) \/
         (at_ (msk b) i j = false /\ at_ (values b) i j = Some (average (filter keep l)) /\
          ((0 < noise)%num /\ (variance (filter keep l) < noise * noise)%num \/ 10 * length (filter keep l) <= length (tff t)))).
Proof. exact (background_lemma t noise). Qed.
Lemma background_usual t noise : grid_ok2 (tfg t) -> (forall f, In f (tff t) -> sf_wf f /\ sg f = tfg t) -> (0 < noise)%num ->
  exists b, tsf_background t noise = Ok b /\ sg b = tfg t /\
    forall i j l c, i < length (ax (tfg t)) -> j < length (ay (tfg t)) -> pixel_values t i j l -> length l < 2 * times_shown c l -> (exists v, In v l /\ v <> c) ->
      at_ (msk b) i j = false /\ exists v, at_ (values b) i j = Some v /\ (c - noise < v < c + noise)%num.
Proof. exact (background_majority t noise). Qed.
Lemma background_still t noise : grid_ok2 (tfg t) -> (forall f, In f (tff t) -> sf_wf f /\ sg f = tfg t) ->
  exists b, tsf_background t noise = Ok b /\
    forall i j l c, i < length (ax (tfg t)) -> j < length (ay (tfg t)) -> pixel_values t i j l -> (forall v, In v l -> v = c) ->
      at_ (msk b) i j = true /\ at_ (values b) i j = None.
Proof. exact (background_constant t noise). Qed.

(** ** weird frames by computation *)
Definition weirdb (root : num -> num) (coef : num) (t : tfield vfield) (k : nat) : bool :=
  match nth_error (norm_sums root t) k with Some v => marginalb coef (norm_sums root t) v | None => false end.
Lemma weirdb_iff root coef t k : weirdb root coef t k = true <-> weird root coef t k.
Proof.
  unfold weirdb, weird. rewrite marginal_iff. destruct (nth_error (norm_sums root t) k) as [v|]; split.
  - intro H. now exists v.
  - intros (w & [= <-] & H). exact H.
  - discriminate.
  - intros (w & [=] & _).
Qed.
Lemma weirdb_not root coef t k : weirdb root coef t k = false <-> ~ weird root coef t k.
Proof. rewrite <- weirdb_iff. destruct (weirdb root coef t k); split; congruence. Qed.
