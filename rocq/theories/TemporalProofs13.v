(** * TemporalProofs13: the cumulated mask. *)
From Coq Require Import Lia.
From Verif Require Import Num Res ListLib SeqSpec Arr FieldModel ScalarFieldModel VectorFieldModel FieldSpec
  TemporalModel TemporalSpec TemporalProofs TemporalProofs5 TemporalProofs6.

Lemma mask_cum_lemma {F} (ops : fops F) (t : tfield F) :
  has_shape (tf_mask_cum ops t) (length (ax (tfg t))) (length (ay (tfg t))) /\
  forall i j, at_ (tf_mask_cum ops t) i j = true <-> forall f, In f (tff t) -> at_ (o_mask ops f) i j = true.
Proof. split; [split; reflexivity|]. intros i j. cbn. apply forallb_forall. Qed.
Lemma mask_cum_mean_lemma t m : sf_series_ok t -> tff t <> [] -> tf_mean sf_ops t 0 = Ok m ->
  aeq (tf_mask_cum sf_ops t) (msk m).
Proof.
  intros OK NE E. destruct (tf_mean_sf t 0 OK NE) as (m' & E' & G & W & _ & _ & H); [lia|]. rewrite E in E'. injection E' as <-.
  destruct W as [_ [W0 W1]]. rewrite G in W0, W1. split; [symmetry; exact W0|]. split; [symmetry; exact W1|].
  intros i j Hi Hj. destruct (H i j Hi Hj) as [M _]. apply eq_true_iff_eq. rewrite M. rewrite (proj2 (mask_cum_lemma sf_ops t)).
  destruct OK as (_ & OG & FO & _).
  destruct (availables_count (tff t) (tfg t) i j) as [L _]; [|exact Hi|exact Hj|].
  { intros f I. split; [apply OG; exact I|apply (FO f I)]. }
  rewrite L. unfold count_valid. split.
  - intros K. assert (N : filter (fun f => negb (at_ (o_mask sf_ops f) i j)) (tff t) = []); [|rewrite N; cbn; lia].
    clear - K. induction (tff t) as [|f l IH]; [reflexivity|]. cbn [filter]. rewrite (K f) by now left. cbn [negb]. apply IH. intros h I. apply K. now right.
  - intros K f I. destruct (at_ (o_mask sf_ops f) i j) eqn:B; [reflexivity|].
    assert (In f (filter (fun f => negb (at_ (o_mask sf_ops f) i j)) (tff t))) as I2 by (apply filter_In; split; [exact I|rewrite B; reflexivity]).
    destruct (filter (fun f => negb (at_ (o_mask sf_ops f) i j)) (tff t)); [destruct I2|cbn in K; lia].
Qed.
