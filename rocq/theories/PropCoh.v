(** * PropCoh: the properties C321 and C322: the coherences of the modes of a decomposition. *)
From Coq Require Import Lia.
From Verif Require Import Num Res ListLib SortLib SeqSpec Arr FieldModel ScalarFieldModel VectorFieldModel FieldSpec Concrete ProfileModel ProfileSpec PointsModel PointsSpec
  TemporalModel TemporalSpec TemporalEx GradModel PodModel PodSpec PodEx PodEx2 CohModel CohSpec CohProofs.
#[local] Ltac vmr := vm_compute; reflexivity.

(** ** C321: asking for the coherences of the modes does not change the base. *)
(** the temporal one: true *)
Theorem C321_temporal_partial F (tspec : list num -> list profile -> list onum) (b b' : cbase F) v :
  temporal_coherence tspec b = (b', v) -> cb b' = cb b.
Proof. unfold temporal_coherence. destruct (cb_temp b); intros E; injection E as <- _; reflexivity. Qed.
Print Assumptions C321_temporal_partial.
(** the spatial one: the first call takes from the values of each mode their mean, NaN if one of them is, and leaves all the rest *)
Theorem C321_scalar_partial spec high low (b b' : cbase sfield) v : cb_spat b = None -> spatial_coherence sf_mops sf_put spec high low b = (b', v) ->
  but_modes (cb b) (cb b') /\ Forall2 (sf_mode_as lowered) (mf_modes (cb b)) (mf_modes (cb b')).
Proof.
  intros N. unfold spatial_coherence. rewrite N. intros E. injection E as <- _. split; [apply but_set|]. cbn. apply map_forall2. intros f _. do 3 (split; [reflexivity|]). exact (put_lowered f).
Qed.
Print Assumptions C321_scalar_partial.
Theorem C321_vector_partial spec high low (b b' : cbase vfield) v : cb_spat b = None -> spatial_coherence vf_mops vf_put spec high low b = (b', v) ->
  but_modes (cb b) (cb b') /\ Forall2 (vf_mode_as lowered) (mf_modes (cb b)) (mf_modes (cb b')).
Proof.
  intros N. unfold spatial_coherence. rewrite N. intros E. injection E as <- _. split; [apply but_set|]. cbn. apply map_forall2. intros f _. do 3 (split; [reflexivity|]). split; [exact (centred_ok (cx f))|exact (centred_ok (cy f))].
Qed.
Print Assumptions C321_vector_partial.
(** so that modes of null mean keep their values *)
Theorem C321_null_partial spec high low (b b' : cbase sfield) v : (forall f, In f (mf_modes (cb b)) -> array_mean (values f) (Some 0%num)) ->
  spatial_coherence sf_mops sf_put spec high low b = (b', v) -> but_modes (cb b) (cb b') /\ Forall2 (sf_mode_as same_cells) (mf_modes (cb b)) (mf_modes (cb b')).
Proof.
  intros Z. unfold spatial_coherence. destruct (cb_spat b); intros E; injection E as <- _.
  - split; [repeat split|]. rewrite <- (map_id (mf_modes (cb b))) at 2. apply map_forall2. intros f _. repeat split.
  - split; [apply but_set|]. cbn. apply map_forall2. intros f I. do 3 (split; [reflexivity|]). exact (put_same f (Z f I)).
Qed.
Print Assumptions C321_null_partial.
Theorem C321_vector_null_partial spec high low (b b' : cbase vfield) v :
  (forall f, In f (mf_modes (cb b)) -> array_mean (cx f) (Some 0%num) /\ array_mean (cy f) (Some 0%num)) ->
  spatial_coherence vf_mops vf_put spec high low b = (b', v) -> but_modes (cb b) (cb b') /\ Forall2 (vf_mode_as same_cells) (mf_modes (cb b)) (mf_modes (cb b')).
Proof.
  intros Z. unfold spatial_coherence. destruct (cb_spat b); intros E; injection E as <- _.
  - split; [repeat split|]. rewrite <- (map_id (mf_modes (cb b))) at 2. apply map_forall2. intros f _. repeat split.
  - split; [apply but_set|]. cbn. apply map_forall2. intros f I. destruct (Z f I) as [ZX ZY]. repeat split; intros i j; [exact (proj2 (proj2 (centred_same _ ZX)) i j)|exact (proj2 (proj2 (centred_same _ ZY)) i j)].
Qed.
Print Assumptions C321_vector_null_partial.
(** a second call changes nothing and gives the same values, whatever the random fields drawn *)
Theorem C321_again F (M : mops F) put spec high low low' (b b' : cbase F) v :
  spatial_coherence M put spec high low b = (b', v) -> spatial_coherence M put spec high low' b' = (b', v).
Proof.
  unfold spatial_coherence at 1. destruct (cb_spat b) eqn:S0; intros E; injection E as <- <-; unfold spatial_coherence; [now rewrite S0|reflexivity].
Qed.
Print Assumptions C321_again.
(** in general the base changes: the same reconstruction, before and after, gives other values *)
Theorem C321_spatial_refuted : base_core ex_base3v /\ vf_base_ok ex_base3v /\
  forall spec high low, let b' := fst (spatial_coherence vf_mops vf_put spec high low (cb_new ex_base3v)) in
  exists t t', reconstruct vf_mops argsort ex_base3v WAll None = Ok t /\ reconstruct vf_mops argsort (cb b') WAll None = Ok t' /\
    map (fun f => at_ (cx f) 0 0) (tff t) = [oz 2; oz 3; oz 4] /\ map (fun f => at_ (cx f) 0 0) (tff t') = [Some (qq 1 6); Some (qq (-10) 3); Some (qq (-3) 2)].
Proof.
  split; [exact ex_base3v_core|]. split; [exact ex_base3v_vf|]. intros spec high low b'.
  set (m' := set_modes ex_base3v (map (fun f => vf_put f (map centred (m_comps vf_mops f))) (mf_modes ex_base3v))).
  destruct (ok_ex (reconstruct vf_mops argsort ex_base3v WAll None) (fun t => oseqb (map (fun f => at_ (cx f) 0 0) (tff t)) [oz 2; oz 3; oz 4])) as (t & E & H); [vmr|].
  destruct (ok_ex (reconstruct vf_mops argsort m' WAll None) (fun t => oseqb (map (fun f => at_ (cx f) 0 0) (tff t)) [Some (qq 1 6); Some (qq (-10) 3); Some (qq (-3) 2)])) as (t' & E' & H'); [vmr|].
  exists t, t'. apply oseqb_eq in H, H'. split; [exact E|]. split; [exact E'|]. now split.
Qed.
Print Assumptions C321_spatial_refuted.
(** a mode of null mean, and one that is not *)
Definition null_base : mfield sfield := set_modes ex_base3 [fr3 (oz 1) (oz (-1)) (oz 2) (oz (-2)) (oz 0) (oz 0)].
Example C321_example : array_mean (values (fr3 (oz 1) (oz (-1)) (oz 2) (oz (-2)) (oz 0) (oz 0))) (Some 0%num) /\ (forall f, In f (mf_modes null_base) -> array_mean (values f) (Some 0%num)) /\
  ~ array_mean (values (fr3 (oz 0) (oz 1) (oz 1) (oz 0) (oz 7) (oz 7))) (Some 0%num).
Proof.
  assert (H : array_mean (values (fr3 (oz 1) (oz (-1)) (oz 2) (oz (-2)) (oz 0) (oz 0))) (Some 0%num)).
  { exists (zs [1; -1; 2; -2; 0; 0]%Z). split; [reflexivity|]. split; [discriminate|]. qc. }
  split; [exact H|]. split; [intros f [<-|[]]; exact H|]. intros K. apply mean_unique in K. vm_compute in K. congruence.
Qed.

(** ** C322: the coherences given are those of the base as it is when they are asked for. *)
(** the temporal one: after any calls of the two coherences, of crop and of crop_modal_base on a new base, it is that of the present evolutions *)
Theorem C322_temporal_partial F (M : mops F) put spec high tspec m cs b b' v :
  cb_calls M put spec high tspec (cb_new m) cs = Ok b -> temporal_coherence tspec b = (b', v) -> v = tspec (mf_times (cb b)) (mf_evo (cb b)).
Proof.
  intros E T. rewrite <- (fresh_temporal tspec b (calls_fresh M put spec high tspec cs (cb_new m) b I E)), T. reflexivity.
Qed.
Print Assumptions C322_temporal_partial.
Example C322_temporal_example : exists b, cb_calls sf_mops sf_put (fun a => at_ a 0 0) (fun _ _ => 1%num) (fun ts ps => [Some (qn (length ts))]) (cb_new ex_base3)
  [CTemp; CSpat 0%num; CCrop None None (Some (qq 1 2, qz 2)); CTemp; CCrop (Some (qz 0, qz 1)) None None] = Ok b /\ mf_times (cb b) = zs [1; 2]%Z /\ cb_temp b = Some [oz 2] /\ ax (mf_g (cb b)) = zs [0; 1]%Z.
Proof.
  destruct (ok_ex (cb_calls sf_mops sf_put (fun a => at_ a 0 0) (fun _ _ => 1%num) (fun ts ps => [Some (qn (length ts))]) (cb_new ex_base3)
    [CTemp; CSpat 0%num; CCrop None None (Some (qq 1 2, qz 2)); CTemp; CCrop (Some (qz 0, qz 1)) None None])
    (fun b => (oseqb (map Some (mf_times (cb b))) (map Some (zs [1; 2]%Z)) && (match cb_temp b with Some v => oseqb v [oz 2] | None => false end) && oseqb (map Some (ax (mf_g (cb b)))) (map Some (zs [0; 1]%Z)))%bool))
    as (b & E & H); [vmr|]. apply andb_true_iff in H. destruct H as (H & H3). apply andb_true_iff in H. destruct H as (H1 & H2). apply oseqb_eq in H1, H3.
  exists b. split; [exact E|]. split; [exact (map_Some_inj _ _ H1)|]. split; [|exact (map_Some_inj _ _ H3)]. destruct (cb_temp b); [|discriminate]. apply oseqb_eq in H2. now rewrite H2.
Qed.
(** the spatial one: after crop_modal_base, that of a new base equal to the present one ... *)
Theorem C322_base_partial F (M : mops F) put spec high low b keep remove b' b'' v :
  cb_crop_base b keep remove = Ok b' -> spatial_coherence M put spec high low b' = (b'', v) -> v = snd (spatial_coherence M put spec high low (cb_new (cb b'))).
Proof.
  unfold cb_crop_base. destruct (crop_base (cb b) keep remove); cbn [bind]; [|discriminate]. intros E. injection E as <-. cbn. intros E. injection E as _ <-. reflexivity.
Qed.
Print Assumptions C322_base_partial.
(** ... but once asked for, it stays the same after crop, whatever has been cropped *)
Theorem C322_stale F (M : mops F) put spec high low low' b b1 v ivx ivy ivt b2 :
  spatial_coherence M put spec high low b = (b1, v) -> cb_crop M b1 ivx ivy ivt = Ok b2 -> spatial_coherence M put spec high low' b2 = (b2, v).
Proof.
  intros E C. assert (S1 : cb_spat b1 = Some v).
  { unfold spatial_coherence in E. destruct (cb_spat b) eqn:S0; injection E as <- <-; [exact S0|reflexivity]. }
  unfold cb_crop in C. destruct (mf_crop M (cb b1) ivx ivy ivt); cbn [bind] in C; [|discriminate]. injection C as <-. unfold spatial_coherence. cbn. now rewrite S1.
Qed.
Print Assumptions C322_stale.
(** which is not that of the base that has been cropped *)
Theorem C322_crop_refuted : exists spec high low b1 b2 v w, base_core ex_base3 /\ sf_base_ok ex_base3 /\ spatial_coherence sf_mops sf_put spec high low (cb_new ex_base3) = (b1, v) /\
  cb_crop sf_mops b1 (Some (qz 0, qz 1)) None None = Ok b2 /\ snd (spatial_coherence sf_mops sf_put spec high low b2) = v /\
  snd (spatial_coherence sf_mops sf_put spec high low (cb_new (cb b2))) = w /\ v = [None; Some (qq (-8) 3)] /\ w = [None; Some (qq (-1) 2)].
Proof.
  set (sp := fun a : arr onum => at_ a 0 0). set (hi := fun _ _ : nat => 1%num). set (r := spatial_coherence sf_mops sf_put sp hi 0%num (cb_new ex_base3)).
  destruct (ok_ex (cb_crop sf_mops (fst r) (Some (qz 0, qz 1)) None None) (fun b2 => (oseqb (snd (spatial_coherence sf_mops sf_put sp hi 0%num b2)) [None; Some (qq (-8) 3)] &&
    oseqb (snd (spatial_coherence sf_mops sf_put sp hi 0%num (cb_new (cb b2)))) [None; Some (qq (-1) 2)])%bool)) as (b2 & E & H); [vmr|].
  apply andb_true_iff in H. destruct H as (H1 & H2). apply oseqb_eq in H1, H2.
  assert (R : r = (fst r, snd r)) by now destruct r.
  exists sp, hi, 0%num, (fst r), b2, (snd r), (snd (spatial_coherence sf_mops sf_put sp hi 0%num (cb_new (cb b2)))). split; [exact ex_base3_core|]. split; [exact ex_base3_sf|].
  split; [exact R|]. split; [exact E|]. pose proof (C322_stale _ sf_mops sf_put sp hi 0%num 0%num _ _ _ _ _ _ _ R E) as S1. rewrite S1 in *. split; [reflexivity|]. split; [reflexivity|]. now split.
Qed.
Print Assumptions C322_crop_refuted.
