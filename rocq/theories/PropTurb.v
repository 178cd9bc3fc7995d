(** * PropTurb: turbulence statistics of temporal vector fields (C112, C113, C114, C115, C116).
    Statements, examples and counterexamples; the proofs are in TurbProofs*.v, the vocabulary in TurbSpec, FieldSpec and TemporalSpec. *)
From Coq Require Import Permutation Lia.
From Verif Require Import Num Res ListLib SortLib Arr FieldModel ScalarFieldModel VectorFieldModel ProfileModel FieldSpec SeqSpec
  ProfileSpec PointsModel PointsSpec TemporalModel TemporalSpec Concrete TemporalEx TurbModel TurbSpec TurbProofs TurbProofs2 TurbProofs3 TurbProofs4 TurbProofs5 TurbProofs6 TurbEx.

(** ** C112: Reynolds stresses *)
Theorem C112_partial asort t nmin u :
  is_argsort asort -> vf_series_ok t -> tf_ok t -> increasing (tft t) -> good_unit (tfu t) -> tff t <> [] -> (0 <= nmin)%Z -> one_unit_for t u ->
  exists m xx yy xy, tf_mean vf_ops t 1 = Ok m /\ reynolds asort t nmin = Ok (xx, yy, xy) /\
    uv xx = unit_mul u u /\ uv yy = unit_mul u u /\ uv xy = unit_mul u u /\
    shows_averages xx (tfg t) (dev_products cx cx m (tff t)) nmin /\ shows_averages yy (tfg t) (dev_products cy cy m (tff t)) nmin /\
    shows_averages xy (tfg t) (dev_products cx cy m (tff t)) nmin.
Proof. exact (reynolds_lemma asort t nmin u). Qed.
Print Assumptions C112_partial.

Example C112_example : is_argsort argsort /\ vf_series_ok ex_tv /\ tf_ok ex_tv /\ increasing (tft ex_tv) /\ good_unit (tfu ex_tv) /\ tff ex_tv <> [] /\ one_unit_for ex_tv metre /\
  exists xx yy xy, reynolds argsort ex_tv 1 = Ok (xx, yy, xy) /\ at_ (msk xx) 1 0 = false /\ at_ (values xx) 1 0 = Some 1%num /\ at_ (values xy) 0 0 = Some (qq 16 3).
Proof. pose proof ex_tv_ok. pose proof ex_tv_inc. pose proof ex_tv_series. pose proof ex_tv_unit. repeat (split; [first [assumption|exact argsort_is|reflexivity|discriminate]|]). exact ex_tv_stress. Qed.
(** frames in different units of the same dimension: the fluctuations are added without conversion *)
Theorem C112_units_refuted : exists t m xx yy xy, vf_series_ok t /\ tf_ok t /\ increasing (tft t) /\ tf_mean vf_ops t 1 = Ok m /\ reynolds argsort t 1 = Ok (xx, yy, xy) /\ at_ (msk xx) 0 0 = false /\
  dev_products cx cx m (tff t) 0 0 = [1%num; 1%num] /\ sc (uv xx) = 1%num /\ at_ (values xx) 0 0 = Some (qq 1000001 2) /\
  ~ average_of (dev_products cx cx m (tff t) 0 0) (uv xx) (at_ (values xx) 0 0).
Proof. destruct ex_mixed_stress as (m & xx & yy & xy & H). exists ex_mixed, m, xx, yy, xy. split; [exact ex_mixed_series|]. split; [apply ex_mixed_ok|]. split; [apply ex_mixed_ok|]. exact H. Qed.
Print Assumptions C112_units_refuted.

(** ** C113: the stresses form a non-negative tensor *)
Theorem C113_tensor asort t nmin :
  is_argsort asort -> vf_series_ok t -> tf_ok t -> increasing (tft t) -> good_unit (tfu t) -> tff t <> [] -> (0 <= nmin)%Z ->
  exists xx yy xy, reynolds asort t nmin = Ok (xx, yy, xy) /\ uv yy = uv xx /\ uv xy = uv xx /\
    forall i j, i < length (ax (tfg t)) -> j < length (ay (tfg t)) ->
      at_ (msk yy) i j = at_ (msk xx) i j /\ at_ (msk xy) i j = at_ (msk xx) i j /\
      (at_ (msk xx) i j = false -> exists a b c, at_ (values xx) i j = Some a /\ at_ (values yy) i j = Some b /\ at_ (values xy) i j = Some c /\
         (0 <= a)%num /\ (0 <= b)%num /\ (c * c <= a * b)%num).
Proof. exact (stress_tensor asort t nmin). Qed.
Print Assumptions C113_tensor.

Example C113_example : is_argsort argsort /\ vf_series_ok ex_tv /\ tf_ok ex_tv /\ increasing (tft ex_tv) /\ good_unit (tfu ex_tv) /\ tff ex_tv <> [].
Proof. pose proof ex_tv_ok. pose proof ex_tv_inc. pose proof ex_tv_series. repeat (split; [first [assumption|exact argsort_is|reflexivity|discriminate]|]). discriminate. Qed.

(** ** C114: turbulent kinetic energy *)
Theorem C114_frames asort t :
  is_argsort asort -> vf_series_ok t -> tf_ok t -> increasing (tft t) -> good_unit (tfu t) -> tff t <> [] ->
  exists m e, tf_mean vf_ops t 1 = Ok m /\ get_tke asort t = Ok e /\ tf_ok e /\ tft e = tft t /\ tfg e = tfg t /\ tfu e = tfu t /\
    frame_by_frame (fun f s => uv s = unit_mul (vuv f) (vuv f) /\ shows_energy (tfg t) (fun i j => both_energy (dev cx m f i j) (dev cy m f i j)) s) t e.
Proof. exact (tke_lemma asort t). Qed.
Print Assumptions C114_frames.

Theorem C114_mean asort t :
  is_argsort asort -> vf_series_ok t -> tf_ok t -> increasing (tft t) -> good_unit (tfu t) -> tff t <> [] ->
  exists m r, tf_mean vf_ops t 1 = Ok m /\ mean_tke asort t = Ok r /\ shows_averages r (tfg t) (dev_energies m (tff t)) 1 /\
    exists f0 l, tff t = f0 :: l /\ uv r = unit_mul (vuv f0) (vuv f0).
Proof. exact (mean_tke_lemma asort t). Qed.
Print Assumptions C114_mean.

Theorem C114_split asort t :
  is_argsort asort -> vf_series_ok t -> tf_ok t -> increasing (tft t) -> good_unit (tfu t) -> tff t <> [] ->
  exists k r, mean_kinetic_energy t = Ok k /\ mean_tke asort t = Ok r /\ sg k = tfg t /\ sg r = tfg t /\
    forall i j, i < length (ax (tfg t)) -> j < length (ay (tfg t)) ->
      (at_ (msk k) i j = true <-> length (energies (tff t) i j) <= 1) /\ at_ (msk r) i j = at_ (msk k) i j /\
      (at_ (msk k) i j = false -> exists a b, at_ (values k) i j = Some a /\ at_ (values r) i j = Some b /\
         ((a * sc (uv k) + b * sc (uv r)) * qn (length (energies (tff t) i j)) = total (energies (tff t) i j))%num).
Proof. exact (split_lemma asort t). Qed.
Print Assumptions C114_split.

Theorem C114_trace asort t u :
  is_argsort asort -> vf_series_ok t -> tf_ok t -> increasing (tft t) -> good_unit (tfu t) -> tff t <> [] -> one_unit_for t u ->
  exists r xx yy xy, mean_tke asort t = Ok r /\ reynolds asort t 1 = Ok (xx, yy, xy) /\ uv r = uv xx /\ uv r = uv yy /\
    forall i j, i < length (ax (tfg t)) -> j < length (ay (tfg t)) -> at_ (msk r) i j = at_ (msk xx) i j /\ at_ (msk r) i j = at_ (msk yy) i j /\
      (at_ (msk r) i j = false -> exists a b, at_ (values xx) i j = Some a /\ at_ (values yy) i j = Some b /\ at_ (values r) i j = Some ((a + b) / 2)%num).
Proof. exact (tke_trace asort t u). Qed.
Print Assumptions C114_trace.

Example C114_example : (vf_series_ok ex_tv /\ tf_ok ex_tv /\ increasing (tft ex_tv) /\ good_unit (tfu ex_tv) /\ tff ex_tv <> []) /\
  (vf_series_ok ex_mixed /\ tf_ok ex_mixed /\ increasing (tft ex_mixed) /\ good_unit (tfu ex_mixed) /\ tff ex_mixed <> []) /\
  exists r, mean_tke argsort ex_mixed = Ok r /\ at_ (values r) 0 0 = Some 1%num.
Proof.
  pose proof ex_tv_ok. pose proof ex_tv_inc. pose proof ex_tv_series. destruct ex_mixed_ok. pose proof ex_mixed_series.
  split; [repeat (split; [first [assumption|reflexivity]|]); discriminate|]. split; [repeat (split; [first [assumption|reflexivity]|]); discriminate|].
  destruct (ok_ex (mean_tke argsort ex_mixed) (fun r => omb (at_ (values r) 0 0) 1%num)) as (r & E & H'); [vmr|]. exists r. split; [exact E|]. now apply omb_eq.
Qed.

(** ** C115: auto-correlation in time *)
Theorem C115_partial t f0 r n0 :
  vf_series_ok t -> tf_ok t -> tff t = f0 :: r -> (forall f, In f (tff t) -> nothing_masked f) -> mean_product f0 f0 n0 -> n0 <> 0%num ->
  exists p, auto_correlation t = Ok p /\ pux p = tfu t /\ puy p = one_unit /\ px p = tft t /\
    Forall2 (fun f s => smask s = false /\ exists c v, sy s = Some c /\ mean_product f0 f v /\ (c * n0 = v)%num) (tff t) (samples p) /\
    (exists s l, samples p = s :: l /\ sy s = Some 1%num).
Proof. exact (acorr_lemma t f0 r n0). Qed.
Print Assumptions C115_partial.

Example C115_example : exists f0 r, vf_series_ok ex_plain /\ tf_ok ex_plain /\ tff ex_plain = f0 :: r /\ (forall f, In f (tff ex_plain) -> nothing_masked f) /\ mean_product f0 f0 (qz 8) /\ qz 8 <> 0%num /\
  exists p, auto_correlation ex_plain = Ok p /\ map sy (samples p) = [Some 1%num; Some (qq (-3) 2)].
Proof.
  eexists. eexists. split; [exact ex_plain_series|]. split; [apply ex_plain_ok|]. split; [reflexivity|]. split; [exact ex_plain_unmasked|]. split.
  - exists [qz 8; qz 8; qz 8; qz 8]. split; [reflexivity|]. split; [discriminate|]. split; [now apply Qc_is_canon|].
    repeat (constructor; [exists (qz 2), (qz 2), (qz 2), (qz 2); repeat (split; [reflexivity|]); now apply Qc_is_canon|]). constructor.
  - split; [discriminate|]. destruct (ok_ex (auto_correlation ex_plain) (fun p => match samples p with [a; b] => (omb (sy a) 1%num && omb (sy b) (qq (-3) 2))%bool | _ => false end)) as (p & E & H); [vmr|].
    exists p. split; [exact E|]. destruct (samples p) as [|a [|b [|c l]]]; try discriminate H. apply andb_true_iff in H. destruct H as (H1 & H2). apply omb_eq in H1, H2. cbn [map]. now rewrite H1, H2.
Qed.
(** one masked value in the first field and no correlation is known *)
Theorem C115_masked_refuted t f0 r :
  vf_series_ok t -> tf_ok t -> tff t = f0 :: r -> something_masked f0 ->
  exists p, auto_correlation t = Ok p /\ px p = tft t /\ forall s, In s (samples p) -> smask s = true.
Proof. exact (acorr_masked t f0 r). Qed.
Print Assumptions C115_masked_refuted.

Example C115_masked_example : exists f0 r, let t := mktf g22 (tl (tff ex_tv)) true (tl (tft ex_tv)) second in vf_series_ok t /\ tf_ok t /\ tff t = f0 :: r /\ something_masked f0.
Proof.
  eexists. eexists. cbv zeta. destruct ex_tv_series as (A & B & C & D). split; [split; [exact g22_ok|]; split; [|split]|].
  - intros f I. apply B. right. exact I.
  - intros f I. apply C. right. exact I.
  - intros f h I J. apply D; right; assumption.
  - split; [split; [reflexivity|]; apply increasing_nondecreasing; incr|]. split; [reflexivity|]. exists 1%nat, 0%nat. cbn. split; [lia|]. split; [lia|]. reflexivity.
Qed.

(** ** C116: turbulent intensity: no series with a time other than 0 has one *)
Theorem C116_refuted root uroot asort t x :
  is_argsort asort -> vf_series_ok t -> tf_ok t -> increasing (tft t) -> good_unit (tfu t) -> In x (tft t) -> x <> 0%num ->
  turb_intensity root uroot asort t = Err GenericErr.
Proof. exact (intensity_fails root uroot asort t x). Qed.
Print Assumptions C116_refuted.

Example C116_example : is_argsort argsort /\ vf_series_ok ex_tv /\ tf_ok ex_tv /\ increasing (tft ex_tv) /\ good_unit (tfu ex_tv) /\ In (qz 3) (tft ex_tv) /\ qz 3 <> 0%num.
Proof. pose proof ex_tv_ok. pose proof ex_tv_inc. pose proof ex_tv_series. split; [exact argsort_is|]. split; [assumption|]. split; [assumption|]. split; [assumption|]. split; [reflexivity|]. split; [right; right; left; reflexivity|discriminate]. Qed.
