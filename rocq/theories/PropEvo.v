(** * PropEvo: the properties C315 to C317: temporal fields of systems of vortices, conversions to VF objects, masks as fields. *)
From Coq Require Import Lia.
From Verif Require Import Num Res ListLib SortLib Arr FieldModel ScalarFieldModel VectorFieldModel ProfileModel FieldSpec SeqSpec Concrete
  TemporalModel TemporalSpec TemporalEx PodModel CloSpec EvoModel EvoSpec EvoProofs.

(** ** C315: the frame k of the temporal field of a system is the field of the system after k evolutions, at the time k dt. *)
Theorem C315_frames {S} (evolve : num -> S -> res S) field asort u dt s l f0 fs g :
  is_argsort asort -> (0 < sc u)%num -> (0 < dt)%num -> history (evolve dt) s l -> field s = Ok f0 -> Forall2 (fun a f => field a = Ok f) l fs ->
  (forall f, In f (f0 :: fs) -> vg f = g) ->
  exists t, temporal_field evolve field asort u dt s (length l) = Ok t /\ tff t = f0 :: fs /\ tfg t = g /\ tfu t = u /\
    length (tft t) = length l + 1 /\ forall k, k <= length l -> nth_error (tft t) k = Some (qz (Z.of_nat k) * dt)%num.
Proof.
  intros AS U D H E F G. eexists. split; [exact (evo_lemma evolve field asort u dt s l f0 fs g AS U D H E F G)|]. cbn [tff tft tfg tfu]. rewrite map_length, seq_length.
  repeat (split; [reflexivity|]). split; [lia|]. intros k K. rewrite nth_error_map, (nth_error_nth' _ 0) by (rewrite seq_length; lia). now rewrite seq_nth by lia.
Qed.
Print Assumptions C315_frames.
(** a system that is a number growing with time, seen as a uniform field *)
Definition ex_field (n : num) : res vfield := Ok (mkvf (vg ex_vf) (amap (fun _ => Some n) (cx ex_vf)) (cy ex_vf) (vmsk ex_vf) (vuv ex_vf)).
Definition ex_states : list num := [(0 + qq 1 2)%num; (0 + qq 1 2 + qq 1 2)%num].
Example C315_example : is_argsort argsort /\ (0 < sc second)%num /\ (0 < qq 1 2)%num /\ history (fun n => Ok (n + qq 1 2)%num) 0%num ex_states /\
  exists f0 fs, ex_field 0 = Ok f0 /\ Forall2 (fun a f => ex_field a = Ok f) ex_states fs /\ forall f, In f (f0 :: fs) -> vg f = vg ex_vf.
Proof.
  split; [exact argsort_is|]. split; [reflexivity|]. split; [reflexivity|]. split; [repeat split|]. do 2 eexists. split; [reflexivity|]. split; [constructor; [reflexivity|constructor; [reflexivity|constructor]]|].
  intros f I. cbn in I. repeat (destruct I as [<-|I]; [reflexivity|]). destruct I.
Qed.

(** ** C316: a vector field turned into a VF object and back is the same.  Refuted: the units are lost.  The axes, the mask and the components
    that are not masked come back. *)
Theorem C316_back_partial theta f time : grid_ok2 (vg f) -> vf_wf f -> all_shown f ->
  exists r, export_vf (to_vf theta f time) = Ok r /\ ax (vg r) = ax (vg f) /\ ay (vg r) = ay (vg f) /\ vf_wf r /\
    forall i j, i < length (ax (vg f)) -> j < length (ay (vg f)) ->
      at_ (vmsk r) i j = at_ (vmsk f) i j /\ at_ (cx r) i j = seen (at_ (vmsk f) i j) (at_ (cx f) i j) /\ at_ (cy r) i j = seen (at_ (vmsk f) i j) (at_ (cy f) i j).
Proof. exact (roundtrip theta f time). Qed.
Print Assumptions C316_back_partial.
Theorem C316_units_refuted : exists theta f time r, grid_ok2 (vg f) /\ vf_wf f /\ all_shown f /\ export_vf (to_vf theta f time) = Ok r /\ ux (vg r) <> ux (vg f) /\ vuv r <> vuv f.
Proof.
  exists cx, (mkvf (mkgrid (zs [0; 1]%Z) (zs [0; 1; 2]%Z) metre metre) (mkarr 2 3 (fun i j => oz (Z.of_nat (i + j)))) (mkarr 2 3 (fun _ _ => oz 1)) (mkarr 2 3 (fun _ _ => false)) metre), 0%num. eexists.
  split; [split; [split; cbn [vg ax ay]; incr|cbn; lia]|]. split; [repeat split|]. split; [intros i j _ _ _; split; discriminate|]. split; [vm_compute; reflexivity|]. split; intro E; apply (f_equal dim) in E; vm_compute in E; discriminate.
Qed.
Print Assumptions C316_units_refuted.
Example C316_example : exists f, grid_ok2 (vg f) /\ vf_wf f /\ all_shown f.
Proof. destruct C316_units_refuted as (_ & f & _ & _ & A & B & C & _). now exists f. Qed.

(** ** C317: the mask as a field: 1 where the field is masked and 0 elsewhere, on the same axes, without mask. *)
Theorem C317_scalar f : grid_ok2 (sg f) -> sf_wf f ->
  exists r, sf_mask_as_sf f = Ok r /\ sg r = sg f /\ uv r = uv f /\ sf_wf r /\
    forall x y v m, sf_shows f x y v m -> sf_shows r x y (Some (if m then 1%num else 0%num)) false.
Proof.
  intros ((IX & IY) & LX & LY) (_ & W). destruct (mask_field (ax (sg f)) (ay (sg f)) (msk f) (ux (sg f)) (uy (sg f)) (uv f) IX IY LX LY W) as (r & E & G & U & WR & C).
  exists r. split; [exact E|]. split; [rewrite G; now destruct (sg f)|]. split; [exact U|]. split; [exact WR|]. intros x y v m (i & j & HI & HJ & _ & M). exists i, j. rewrite G. cbn [ax ay]. destruct (C i j) as [C1 C2]. rewrite C1, C2, M. auto.
Qed.
Print Assumptions C317_scalar.
Theorem C317_vector f : grid_ok2 (vg f) -> vf_wf f ->
  exists r, vf_mask_as_sf f = Ok r /\ sg r = vg f /\ uv r = vuv f /\ sf_wf r /\
    forall x y vx vy m, vf_shows f x y vx vy m -> sf_shows r x y (Some (if m then 1%num else 0%num)) false.
Proof.
  intros ((IX & IY) & LX & LY) (_ & _ & W). destruct (mask_field (ax (vg f)) (ay (vg f)) (vmsk f) (ux (vg f)) (uy (vg f)) (vuv f) IX IY LX LY W) as (r & E & G & U & WR & C).
  exists r. split; [exact E|]. split; [rewrite G; now destruct (vg f)|]. split; [exact U|]. split; [exact WR|]. intros x y vx vy m (i & j & HI & HJ & _ & _ & M). exists i, j. rewrite G. cbn [ax ay]. destruct (C i j) as [C1 C2]. rewrite C1, C2, M. auto.
Qed.
Print Assumptions C317_vector.
Definition ex_mf : sfield := mksf (mkgrid (zs [0; 1]%Z) (zs [0; 1; 2]%Z) metre metre) (mkarr 2 3 (fun i j => oz (Z.of_nat (i + j)))) (mkarr 2 3 (fun i j => Nat.eqb i j)) metre.
Example C317_example : grid_ok2 (sg ex_mf) /\ sf_wf ex_mf /\ sf_shows ex_mf (qz 1) (qz 1) None true.
Proof. split; [split; [split; cbn [sg ax ay]; incr|cbn; lia]|]. split; [repeat split|]. exists 1, 1. repeat split. Qed.
