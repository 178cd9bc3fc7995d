(** * PropNorm: the properties C168 and C175: norms of fields.
    Statements only; the proofs are in NormProofs.v.  The vocabulary is in NormSpec and VpropSpec. *)
From Coq Require Import Reals Lra Lia QArith Qcanon List ZArith.
From Verif Require Import Num Res ListLib Arr FieldModel ScalarFieldModel VectorFieldModel FieldSpec Concrete TemporalEx VpropSpec CriterionModel CriterionProofs2 NormModel NormSpec NormProofs.
#[local] Open Scope nat_scope.
#[local] Open Scope R_scope.

(** ** C168 *)
Theorem C168_value p f l :
  (1 <= p)%nat -> sf_wf f -> sf_clean f -> shown_values f l ->
  exists r, sf_norm p false f = Ok (Some r) /\ p_norm p l r /\ (l <> [] -> sf_norm p true f = Ok (Some (r / INR (length l)))).
Proof. exact (norm_value p f l). Qed.
Print Assumptions C168_value.

Theorem C168_vector p f l :
  (1 <= p)%nat -> vf_wf f -> vectors_whole f -> shown_vectors f l ->
  exists r, vf_norm p false f = Ok (Some r) /\ p_norm p (map fst l ++ map snd l) r /\ (l <> [] -> vf_norm p true f = Ok (Some (r / INR (length l)))).
Proof. exact (vf_norm_value p f l). Qed.
Print Assumptions C168_vector.

Theorem C168_bounds p f r :
  (1 <= p)%nat -> sf_wf f -> sf_clean f -> sf_norm p false f = Ok (Some r) -> 0 <= r /\ forall c v, shows_at f c v -> Rabs (toR v) <= r.
Proof. exact (norm_bounds p f r). Qed.
Print Assumptions C168_bounds.

Theorem C168_zero p f r :
  (1 <= p)%nat -> sf_wf f -> sf_clean f -> sf_norm p false f = Ok (Some r) -> (r = 0 <-> forall c v, shows_at f c v -> v = qz 0).
Proof. exact (norm_zero p f r). Qed.
Print Assumptions C168_zero.

Theorem C168_scaled p k f g r :
  (1 <= p)%nat -> sf_wf f -> sf_clean f -> sf_wf g -> sf_clean g -> scaled_by k f g -> sf_norm p false f = Ok (Some r) -> sf_norm p false g = Ok (Some (r * Rabs (toR k))).
Proof. exact (norm_scaled p k f g r). Qed.
Print Assumptions C168_scaled.

Theorem C168_triangle p f g h r s t :
  (1 <= p)%nat -> sf_wf f -> sf_clean f -> sf_wf g -> sf_clean g -> sf_wf h -> sf_clean h -> sum_of f g h ->
  sf_norm p false f = Ok (Some r) -> sf_norm p false g = Ok (Some s) -> sf_norm p false h = Ok (Some t) -> t <= r + s.
Proof. exact (norm_triangle p f g h r s t). Qed.
Print Assumptions C168_triangle.

Theorem C175_mean_partial f l :
  sf_wf f -> sf_clean f -> shown_values f l -> l <> [] -> sf_norm 1 true f = Ok (Some (rtotal (map (fun v => Rabs (toR v)) l) / INR (length l))).
Proof. exact (norm_mean f l). Qed.
Print Assumptions C175_mean_partial.

Theorem C175_uniform_partial p f l v :
  (1 <= p)%nat -> sf_wf f -> sf_clean f -> shown_values f l -> l <> [] -> (forall c w, shows_at f c w -> w = v) ->
  exists r, sf_norm p true f = Ok (Some r) /\ 0 <= r /\ (r * INR (length l)) ^ p = INR (length l) * Rabs (toR v) ^ p.
Proof. exact (norm_uniform p f l v). Qed.
Print Assumptions C175_uniform_partial.

#[local] Close Scope R_scope.
Definition ones22 : sfield := sf_of [0; 1]%Z [0; 1]%Z [[oz 1; oz 1]; [oz 1; oz 1]] [].
Definition ones11 : sfield := sf_of [0]%Z [0]%Z [[oz 1]] [].
Definition twos22 : sfield := sf_of [0; 1]%Z [0; 1]%Z [[oz 2; oz 2]; [oz 2; oz 2]] [].
Definition threes22 : sfield := sf_of [0; 1]%Z [0; 1]%Z [[oz 3; oz 3]; [oz 3; oz 3]] [].
Ltac pick_cell := let H1 := fresh in let H2 := fresh in intros (H1 & H2); cbn in H1, H2; repeat (destruct H1 as [|H1]; [|]); lia.
Lemma uniform22 f v : f = sf_of [0; 1]%Z [0; 1]%Z [[Some v; Some v]; [Some v; Some v]] [] -> forall c, (exists w, shows_at f c w) -> shows_at f c v.
Proof.
  intros -> [i j] (w & H1 & H2 & H3 & E). cbn [fst snd] in *. repeat split; auto. cbn in H1, H2.
  destruct i as [|[|i]]; [| |exfalso; lia]; (destruct j as [|[|j]]; [| |exfalso; lia]); reflexivity.
Qed.
Example C168_example : sf_wf ones22 /\ sf_clean ones22 /\ shown_values ones22 (zs [1; 1; 1; 1]%Z) /\ scaled_by (qz 2) ones22 twos22 /\ sum_of ones22 twos22 threes22.
Proof.
  split; [repeat split|]. split; [apply clean_b_ok; vmr|]. split.
  - exists [(0, 0); (0, 1); (1, 0); (1, 1)]. split; [repeat constructor; cbn; intuition congruence|]. split.
    + intros [i j]. split.
      * intro I. exists (qz 1). cbn in I. repeat (destruct I as [I|I]; [injection I as <- <-; repeat split; cbn; lia|]). contradiction.
      * intros (w & H1 & H2 & _). cbn in H1, H2. destruct i as [|[|i]]; [| |exfalso; lia]; (destruct j as [|[|j]]; [| |exfalso; lia]); cbn; auto.
    + repeat constructor.
  - assert (A : forall c, (exists w, shows_at ones22 c w) <-> (exists w, shows_at twos22 c w)).
    { intros [i j]. split; intros (w & H1 & H2 & H3 & E); cbn [fst snd] in *; [exists (qz 2)|exists (qz 1)]; (split; [exact H1|]; split; [exact H2|]; cbn in H1, H2; destruct i as [|[|i]]; [| |exfalso; lia]; (destruct j as [|[|j]]; [| |exfalso; lia]); split; reflexivity). }
    assert (B : forall c, (exists w, shows_at threes22 c w) <-> (exists w, shows_at ones22 c w)).
    { intros [i j]. split; intros (w & H1 & H2 & H3 & E); cbn [fst snd] in *; [exists (qz 1)|exists (qz 3)]; (split; [exact H1|]; split; [exact H2|]; cbn in H1, H2; destruct i as [|[|i]]; [| |exfalso; lia]; (destruct j as [|[|j]]; [| |exfalso; lia]); split; reflexivity). }
    split; [split|split; [|split]].
    + intros c v S0. assert (v = qz 1) as -> by (apply (shows_fun ones22 c v (qz 1) S0); apply (uniform22 ones22 (qz 1) eq_refl); eauto). replace (qz 1 * qz 2)%num with (qz 2) by qc. apply (uniform22 twos22 (qz 2) eq_refl). apply A. eauto.
    + intros c. apply A.
    + intros c v w S0 S1. assert (v = qz 1) as -> by (apply (shows_fun ones22 c v (qz 1) S0); apply (uniform22 ones22 (qz 1) eq_refl); eauto). assert (w = qz 2) as -> by (apply (shows_fun twos22 c w (qz 2) S1); apply (uniform22 twos22 (qz 2) eq_refl); eauto).
      replace (qz 1 + qz 2)%num with (qz 3) by qc. apply (uniform22 threes22 (qz 3) eq_refl). apply B. eauto.
    + exact B.
    + exact A.
Qed.
(** fields equal to 1 everywhere have different norms per point *)
Theorem C175_per_point_refuted : exists f g a b, sf_wf f /\ sf_clean f /\ sf_wf g /\ sf_clean g /\ (forall c v, shows_at f c v -> v = qz 1) /\ (forall c v, shows_at g c v -> v = qz 1) /\
  sf_norm 2 true f = Ok (Some a) /\ sf_norm 2 true g = Ok (Some b) /\ a <> b.
Proof.
  assert (W : sf_wf ones22 /\ sf_clean ones22) by (split; [repeat split|apply clean_b_ok; vmr]). assert (W' : sf_wf ones11 /\ sf_clean ones11) by (split; [repeat split|apply clean_b_ok; vmr]). destruct W as [W C], W' as [W' C'].
  assert (U : forall c v, shows_at ones22 c v -> v = qz 1) by (intros c v S0; apply (shows_fun ones22 c v (qz 1) S0); apply (uniform22 ones22 (qz 1) eq_refl); eauto).
  assert (U' : forall c v, shows_at ones11 c v -> v = qz 1) by (intros [i j] v (H1 & H2 & _ & E); cbn in H1, H2; destruct i as [|i]; [|exfalso; lia]; destruct j as [|j]; [|exfalso; lia]; cbn in E; injection E as <-; reflexivity).
  destruct (norm_uniform 2 ones22 (zs [1; 1; 1; 1]%Z) (qz 1) ltac:(lia) W C (proj1 (proj2 (proj2 C168_example))) ltac:(discriminate) U) as (a & Ea & A0 & A).
  assert (SV : shown_values ones11 (zs [1]%Z)).
  { exists [(0, 0)]. split; [repeat constructor; cbn; tauto|]. split; [|repeat constructor]. intros [i j]. split.
    - intro I. exists (qz 1). cbn in I. destruct I as [I|[]]. injection I as <- <-. repeat split; cbn; lia.
    - intros (w & H1 & H2 & _). cbn in H1, H2. left. f_equal; lia. }
  destruct (norm_uniform 2 ones11 (zs [1]%Z) (qz 1) ltac:(lia) W' C' SV ltac:(discriminate) U') as (b & Eb & B0 & B).
  exists ones22, ones11, a, b. do 8 (split; [assumption|]). rewrite toR_qz in A, B. rewrite Rabs_R1 in A, B. cbn [map length zs INR] in A, B. intros ->. cbn [pow] in A, B.
  assert (X : (b * b = 1)%R) by lra. assert (Y : (16 * (b * b) = 4)%R) by lra. lra.
Qed.
Print Assumptions C175_per_point_refuted.

