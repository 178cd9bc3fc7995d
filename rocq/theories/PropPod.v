(** * PropPod: modal decompositions (C61, C62, C108, C109, C110, C111).
    Statements, examples and counterexamples; the proofs are in PodProofs*.v, the vocabulary in PodSpec, FieldSpec,
    ProfileSpec and TemporalSpec. *)
From Coq Require Import Permutation Lia.
From Verif Require Import Num Res ListLib SortLib Arr FieldModel ScalarFieldModel VectorFieldModel ProfileModel FieldSpec SeqSpec
  ProfileSpec PointsModel PointsSpec TemporalModel TemporalSpec GradModel Concrete TemporalEx
  PodModel PodSpec PodProofs PodProofs2 PodProofs3 PodProofs4 PodProofs5 PodProofs6 PodProofs7 PodProofs8 PodProofs9 PodSpec2 PodProofs10 PodProofs11 PodProofs12 PodEx PodEx2.

(** ** C61: crop_modal_base *)
Theorem C61_keep_partial {F} (mf : mfield F) ev vects ks places rem :
  base_ok mf ev vects -> Forall2 (designates (length (mf_modes mf))) ks places ->
  exists mf' ev' xs ys, crop_base mf (Some (SelArr ks)) rem = Ok mf' /\
    mf_kind mf' = Pod /\ mf_mean mf' = mf_mean mf /\ mf_times mf' = mf_times mf /\ mf_g mf' = mf_g mf /\
    taken places (mf_modes mf) (mf_modes mf') /\ taken places (mf_nmb mf) (mf_nmb mf') /\ taken places (mf_evo mf) (mf_evo mf') /\
    mf_eigvals mf' = Some ev' /\ prof_ok ev' /\ taken places (px ev) xs /\ taken places (yv ev) ys /\
    Permutation (samples ev') (zip3 xs ys (map isnan ys)) /\ (going_up places -> px ev' = xs /\ yv ev' = ys).
Proof. exact (crop_base_lemma mf ev vects ks places rem). Qed.
Print Assumptions C61_keep_partial.

Theorem C61_first_partial {F} (mf : mfield F) ev vects n rem :
  base_ok mf ev vects -> n <= length (mf_modes mf) ->
  exists mf' ev', crop_base mf (Some (SelInt (Z.of_nat n))) rem = Ok mf' /\
    mf_modes mf' = firstn n (mf_modes mf) /\ mf_nmb mf' = firstn n (mf_nmb mf) /\ mf_evo mf' = firstn n (mf_evo mf) /\
    mf_eigvals mf' = Some ev' /\ px ev' = firstn n (px ev) /\ yv ev' = firstn n (yv ev).
Proof. exact (crop_base_first mf ev vects n rem). Qed.
Print Assumptions C61_first_partial.

Theorem C61_outside {F} (mf : mfield F) ev vects ks rem :
  base_ok mf ev vects -> (exists i, In i ks /\ ~ index_ok (length (mf_modes mf)) i) ->
  crop_base mf (Some (SelArr ks)) rem = Err IndexErr.
Proof. exact (crop_base_outside mf ev vects ks rem). Qed.
Print Assumptions C61_outside.

Example C61_example : exists ev vects, base_ok ex_base ev vects /\ Forall2 (designates (length (mf_modes ex_base))) [0; -1]%Z [0; 2] /\ going_up [0; 2].
Proof.
  destruct ex_base_ok as (ev & vects & B). exists ev, vects. split; [exact B|]. split; [|repeat constructor].
  constructor; [split; [cbn; lia|now left]|]. constructor; [split; [cbn; lia|right; split; reflexivity]|constructor].
Qed.
(** the modes are in the given order, their eigenvalues are not *)
Theorem C61_order_refuted : exists ev vects mf' ev', base_ok ex_base ev vects /\ crop_base ex_base (Some (SelArr [1; 0]%Z)) None = Ok mf' /\
  taken [1; 0] (mf_modes ex_base) (mf_modes mf') /\ mf_nmb mf' = [1; 0]%Z /\ mf_eigvals mf' = Some ev' /\ yv ev = map oz [9; 4; 1]%Z /\ yv ev' = map oz [9; 4]%Z.
Proof. exact ex_base_order. Qed.
Print Assumptions C61_order_refuted.
(** modes_to_remove cannot be used *)
Theorem C61_remove_refuted {F} (mf : mfield F) sel :
  exists e, crop_base mf None (Some sel) = Err e.
Proof. exact (crop_remove_fails mf sel). Qed.
Print Assumptions C61_remove_refuted.

(** nor can a dynamic mode decomposition, which has no eigenvalues, be cropped *)
Theorem C61_dmd_refuted {F} (mf : mfield F) keep rem :
  mf_kind mf = Dmd -> mf_eigvals mf = None -> exists e, crop_base mf keep rem = Err e.
Proof. exact (crop_dmd_fails mf keep rem). Qed.
Print Assumptions C61_dmd_refuted.

(** after a crop the matrix of the eigenvectors has lost rows: it does not have one per time anymore *)
Theorem C61_eigvects_refuted : exists ev vects mf' vects', base_ok ex_base ev vects /\ length vects = length (mf_times ex_base) /\
  crop_base ex_base (Some (SelInt 1)) None = Ok mf' /\ mf_eigvects mf' = Some vects' /\ mf_times mf' = mf_times ex_base /\ length vects' = 1 /\ length (mf_times ex_base) = 3.
Proof. exact ex_base_vects. Qed.
Print Assumptions C61_eigvects_refuted.

(** ** C62: reconstruct *)
Theorem C62_scalar asort (mf : mfield sfield) w places ts :
  is_argsort asort -> base_core mf -> sf_base_ok mf ->
  selects (length (mf_modes mf)) w places -> times_in mf ts ->
  exists m0 t' fs, nth_error (mf_modes mf) 0 = Some m0 /\ reconstruct sf_mops asort mf w (Some ts) = Ok t' /\ tfg t' = mf_g mf /\ tfu t' = mf_ut mf /\
    Forall2 (sf_frame mf m0 places) ts fs /\ holds ts fs t'.
Proof. exact (sf_reconstruct_lemma asort mf w places ts). Qed.
Print Assumptions C62_scalar.

Theorem C62_vector asort (mf : mfield vfield) w places ts :
  is_argsort asort -> base_core mf -> vf_base_ok mf ->
  selects (length (mf_modes mf)) w places -> times_in mf ts ->
  exists m0 t' fs, nth_error (mf_modes mf) 0 = Some m0 /\ reconstruct vf_mops asort mf w (Some ts) = Ok t' /\ tfg t' = mf_g mf /\ tfu t' = mf_ut mf /\
    Forall2 (vf_frame mf m0 places) ts fs /\ holds ts fs t'.
Proof. exact (vf_reconstruct_lemma asort mf w places ts). Qed.
Print Assumptions C62_vector.

Theorem C62_additive asort (mf : mfield sfield) wa wb w A B ts :
  is_argsort asort -> base_core mf -> sf_base_ok mf ->
  selects (length (mf_modes mf)) wa A -> selects (length (mf_modes mf)) wb B -> selects (length (mf_modes mf)) w (A ++ B) -> times_in mf ts -> increasing ts ->
  exists ta tb t, reconstruct sf_mops asort mf wa (Some ts) = Ok ta /\ reconstruct sf_mops asort mf wb (Some ts) = Ok tb /\ reconstruct sf_mops asort mf w (Some ts) = Ok t /\
    tft ta = ts /\ tft tb = ts /\ tft t = ts /\
    forall k fa fb f, nth_error (tff ta) k = Some fa -> nth_error (tff tb) k = Some fb -> nth_error (tff t) k = Some f ->
    forall i j, i < length (ax (mf_g mf)) -> j < length (ay (mf_g mf)) ->
      at_ (msk f) i j = (at_ (msk fa) i j || at_ (msk fb) i j)%bool /\
      adds_up (at_ (values fa) i j) (at_ (values fb) i j) (at_ (values (mf_mean mf)) i j) (at_ (values f) i j).
Proof. exact (sf_additive_lemma asort mf wa wb w A B ts). Qed.
Print Assumptions C62_additive.

Theorem C62_additive_vector asort (mf : mfield vfield) wa wb w A B ts :
  is_argsort asort -> base_core mf -> vf_base_ok mf ->
  selects (length (mf_modes mf)) wa A -> selects (length (mf_modes mf)) wb B -> selects (length (mf_modes mf)) w (A ++ B) -> times_in mf ts -> increasing ts ->
  exists ta tb t, reconstruct vf_mops asort mf wa (Some ts) = Ok ta /\ reconstruct vf_mops asort mf wb (Some ts) = Ok tb /\ reconstruct vf_mops asort mf w (Some ts) = Ok t /\
    tft ta = ts /\ tft tb = ts /\ tft t = ts /\
    forall k fa fb f, nth_error (tff ta) k = Some fa -> nth_error (tff tb) k = Some fb -> nth_error (tff t) k = Some f ->
    forall i j, i < length (ax (mf_g mf)) -> j < length (ay (mf_g mf)) ->
      at_ (vmsk f) i j = (at_ (vmsk fa) i j || at_ (vmsk fb) i j)%bool /\
      (at_ (vmsk f) i j = false ->
       adds_up (at_ (cx fa) i j) (at_ (cx fb) i j) (at_ (cx (mf_mean mf)) i j) (at_ (cx f) i j) /\
       adds_up (at_ (cy fa) i j) (at_ (cy fb) i j) (at_ (cy (mf_mean mf)) i j) (at_ (cy f) i j)).
Proof. exact (vf_additive_lemma asort mf wa wb w A B ts). Qed.
Print Assumptions C62_additive_vector.

Theorem C62_default {F} (M : mops F) asort mf w :
  reconstruct M asort mf w None = reconstruct M asort mf w (Some (mf_times mf)).
Proof. exact (reconstruct_default M asort mf w). Qed.
Print Assumptions C62_default.

Theorem C62_outside {F} (M : mops F) asort (mf : mfield F) w places ts :
  mf_kind mf <> Dmd -> increasing (mf_times mf) -> mf_times mf <> [] ->
  selects (length (mf_modes mf)) w places ->
  (exists t, In t ts /\ ((t < nths (mf_times mf) 0)%num \/ (last (mf_times mf) (qz 0) < t)%num)) -> reconstruct M asort mf w (Some ts) = Err ValueErr.
Proof. exact (reconstruct_outside M asort mf w places ts). Qed.
Print Assumptions C62_outside.

Theorem C62_bad_mode {F} (M : mops F) asort (mf : mfield F) l ts :
  (exists i, In i l /\ ~ index_ok (length (mf_modes mf)) i) ->
  exists e, reconstruct M asort mf (WArr l) ts = Err e.
Proof. exact (reconstruct_bad_mode M asort mf l ts). Qed.
Print Assumptions C62_bad_mode.

Example C62_example : is_argsort argsort /\ base_core ex_base /\ sf_base_ok ex_base /\ selects (length (mf_modes ex_base)) (WArr [0; -1]%Z) [0; 2] /\
  times_in ex_base [qq 1 2; qz 2] /\
  exists t', reconstruct sf_mops argsort ex_base (WArr [0; -1]%Z) (Some [qq 1 2; qz 2]) = Ok t' /\ map (fun f => at_ (values f) 0 0) (tff t') = [Some (qq 17 2); oz 8] /\
    map (fun f => at_ (values f) 0 1) (tff t') = [None; None].
Proof. exact ex_base_reconstruct. Qed.
Example C62_vector_example : exists mf ev vects, modal_pod vf_mops argsort none_interp none_interp none_interp ex_solve_v ex_root pod_tv WAll = Ok mf /\
  base_ok mf ev vects /\ vf_base_ok mf.
Proof.
  destruct (vf_decomposition argsort none_interp none_interp none_interp ex_solve_v ex_root pod_tv metre pod_vec argsort_is g22_ok pod_tv_ok pod_t_inc eq_refl eq_refl ltac:(cbn; lia) pod_tv_frames ex_hyp_v)
    as (mf & ev & vects & t1 & A & B & C & _). exists mf, ev, vects. auto.
Qed.

(** ** C108: energies *)
Theorem C108_scalar (mf : mfield sfield) :
  base_core mf -> sf_base_ok mf -> evo_full mf -> (forall f, In f (mf_modes mf) -> sf_full f) ->
  exists es cs, modes_energy sf_mops mf false = Ok (map Some es) /\ modes_energy sf_mops mf true = Ok (map Some cs) /\
    length es = length (mf_modes mf) /\ length cs = length (mf_modes mf) /\
    (forall n f p e, nth_error (mf_modes mf) n = Some f -> nth_error (mf_evo mf) n = Some p -> nth_error es n = Some e -> sf_energy f p e /\ (0 <= e)%num) /\
    (forall n, n < length (mf_modes mf) -> nth_error cs n = Some (total (firstn (S n) es))) /\ nondecreasing cs.
Proof. exact (sf_energies_lemma mf). Qed.
Print Assumptions C108_scalar.

Theorem C108_vector (mf : mfield vfield) :
  base_core mf -> vf_base_ok mf -> evo_full mf -> (forall f, In f (mf_modes mf) -> vf_full f) ->
  exists es cs, modes_energy vf_mops mf false = Ok (map Some es) /\ modes_energy vf_mops mf true = Ok (map Some cs) /\
    length es = length (mf_modes mf) /\ length cs = length (mf_modes mf) /\
    (forall n f p e, nth_error (mf_modes mf) n = Some f -> nth_error (mf_evo mf) n = Some p -> nth_error es n = Some e -> vf_energy f p e /\ (0 <= e)%num) /\
    (forall n, n < length (mf_modes mf) -> nth_error cs n = Some (total (firstn (S n) es))) /\ nondecreasing cs.
Proof. exact (vf_energies_lemma mf). Qed.
Print Assumptions C108_vector.

Theorem C108_shared asort nearest linear cubic solve root (t : tfield sfield) u v :
  is_argsort asort -> grid_ok2 (tfg t) -> tf_ok t -> increasing (tft t) ->
  good_unit (tfu t) -> good_unit u -> 2 <= length (tff t) -> sf_frames_are t u v ->
  (forall snaps, snapshots_are 1 (length (ax (tfg t))) (length (ay (tfg t))) (length (tff t)) snaps (fun k _ i j => deviation (length (tff t)) (fun l => v l i j) k) ->
     is_pod root 1 (length (ax (tfg t))) (length (ay (tfg t))) (length (tff t)) (fun k _ i j => deviation (length (tff t)) (fun l => v l i j) k) (solve snaps) /\ s_vals (solve snaps) <> []) ->
  exists mf ev es, modal_pod sf_mops asort nearest linear cubic solve root t WAll = Ok mf /\ modes_energy sf_mops mf false = Ok (map Some es) /\
    mf_eigvals mf = Some ev /\
    yv ev = map (fun e => Some (e * (2 * qn (length (ax (tfg t)) * length (ay (tfg t))) * qn (length (tff t)))))%num es /\
    (total es * (2 * qn (length (ax (tfg t)) * length (ay (tfg t))) * qn (length (tff t))) =
       sumn (length (tff t)) (fun k => sumn (length (ax (tfg t))) (fun i => sumn (length (ay (tfg t))) (fun j =>
         deviation (length (tff t)) (fun l => v l i j) k * deviation (length (tff t)) (fun l => v l i j) k))))%num.
Proof. exact (sf_energy_shared asort nearest linear cubic solve root t u v). Qed.
Print Assumptions C108_shared.

Theorem C108_shared_vector asort nearest linear cubic solve root (t : tfield vfield) u v :
  is_argsort asort -> grid_ok2 (tfg t) -> tf_ok t -> increasing (tft t) ->
  good_unit (tfu t) -> good_unit u -> 2 <= length (tff t) -> vf_frames_are t u v ->
  (forall snaps, snapshots_are 2 (length (ax (tfg t))) (length (ay (tfg t))) (length (tff t)) snaps (fun k c i j => deviation (length (tff t)) (fun l => v l c i j) k) ->
     is_pod root 2 (length (ax (tfg t))) (length (ay (tfg t))) (length (tff t)) (fun k c i j => deviation (length (tff t)) (fun l => v l c i j) k) (solve snaps) /\ s_vals (solve snaps) <> []) ->
  exists mf ev es, modal_pod vf_mops asort nearest linear cubic solve root t WAll = Ok mf /\ modes_energy vf_mops mf false = Ok (map Some es) /\
    mf_eigvals mf = Some ev /\
    yv ev = map (fun e => Some (e * (2 * qn (length (ax (tfg t)) * length (ay (tfg t))) * qn (length (tff t)))))%num es /\
    (total es * (2 * qn (length (ax (tfg t)) * length (ay (tfg t))) * qn (length (tff t))) =
       sumn (length (tff t)) (fun k => sumn 2 (fun c => sumn (length (ax (tfg t))) (fun i => sumn (length (ay (tfg t))) (fun j =>
         deviation (length (tff t)) (fun l => v l c i j) k * deviation (length (tff t)) (fun l => v l c i j) k)))))%num.
Proof. exact (vf_energy_shared asort nearest linear cubic solve root t u v). Qed.
Print Assumptions C108_shared_vector.

Example C108_example : exists mf, modal_pod sf_mops argsort none_interp none_interp none_interp ex_solve ex_root pod_t WAll = Ok mf /\
  modes_energy sf_mops mf false = Ok [oz 2; Some (qq 1 2)] /\ modes_energy sf_mops mf true = Ok [oz 2; Some (qq 5 2)].
Proof. exact ex_energy. Qed.
Example C108_hypotheses : is_argsort argsort /\ grid_ok2 (tfg pod_t) /\ tf_ok pod_t /\ increasing (tft pod_t) /\ sf_frames_are pod_t metre pod_v /\
  is_pod ex_root 1 2 2 4 (fun k _ i j => deviation 4 (fun l => pod_v l i j) k) (ex_solve []) /\
  is_pod ex_root 2 2 2 4 (fun k c i j => deviation 4 (fun l => pod_vec l c i j) k) (ex_solve_v []).
Proof.
  split; [exact argsort_is|]. split; [exact g22_ok|]. split; [exact pod_t_ok|]. split; [exact pod_t_inc|]. split; [exact pod_t_frames|]. split; [exact ex_pod|exact ex_pod_v].
Qed.

(** ** C109: decomposition then reconstruction *)
Theorem C109_scalar asort nearest linear cubic solve root (t : tfield sfield) u v :
  is_argsort asort -> grid_ok2 (tfg t) -> tf_ok t -> increasing (tft t) ->
  good_unit (tfu t) -> good_unit u -> 2 <= length (tff t) -> sf_frames_are t u v ->
  (forall snaps, snapshots_are 1 (length (ax (tfg t))) (length (ay (tfg t))) (length (tff t)) snaps (fun k _ i j => deviation (length (tff t)) (fun l => v l i j) k) ->
     is_pod root 1 (length (ax (tfg t))) (length (ay (tfg t))) (length (tff t)) (fun k _ i j => deviation (length (tff t)) (fun l => v l i j) k) (solve snaps) /\ s_vals (solve snaps) <> []) ->
  exists mf ev vects t', modal_pod sf_mops asort nearest linear cubic solve root t WAll = Ok mf /\ base_ok mf ev vects /\ sf_base_ok mf /\
    reconstruct sf_mops asort mf WAll None = Ok t' /\ tfg t' = tfg t /\ tfu t' = tfu t /\ tft t' = tft t /\ length (tff t') = length (tff t) /\ sf_frames_are t' u v /\
    exists snaps N lam V, snapshots_are 1 (length (ax (tfg t))) (length (ay (tfg t))) (length (tff t)) snaps (fun k _ i j => deviation (length (tff t)) (fun l => v l i j) k) /\
      N <= length (tff t) /\ s_vals (solve snaps) = map lam (seq 0 N) /\ yv ev = map Some (map lam (seq 0 N)) /\ pod_facts root 1 (length (ax (tfg t))) (length (ay (tfg t))) (length (tff t)) (fun k _ i j => deviation (length (tff t)) (fun l => v l i j) k) N lam V /\
      Forall2 (sf_mode_is root (tfg t) (length (tff t)) (fun k _ i j => deviation (length (tff t)) (fun l => v l i j) k) lam V) (seq 0 N) (mf_modes mf) /\
      Forall2 (evo_is root (tft t) (length (tff t)) lam V) (seq 0 N) (mf_evo mf).
Proof. exact (sf_decomposition asort nearest linear cubic solve root t u v). Qed.
Print Assumptions C109_scalar.

Theorem C109_vector asort nearest linear cubic solve root (t : tfield vfield) u v :
  is_argsort asort -> grid_ok2 (tfg t) -> tf_ok t -> increasing (tft t) ->
  good_unit (tfu t) -> good_unit u -> 2 <= length (tff t) -> vf_frames_are t u v ->
  (forall snaps, snapshots_are 2 (length (ax (tfg t))) (length (ay (tfg t))) (length (tff t)) snaps (fun k c i j => deviation (length (tff t)) (fun l => v l c i j) k) ->
     is_pod root 2 (length (ax (tfg t))) (length (ay (tfg t))) (length (tff t)) (fun k c i j => deviation (length (tff t)) (fun l => v l c i j) k) (solve snaps) /\ s_vals (solve snaps) <> []) ->
  exists mf ev vects t', modal_pod vf_mops asort nearest linear cubic solve root t WAll = Ok mf /\ base_ok mf ev vects /\ vf_base_ok mf /\
    reconstruct vf_mops asort mf WAll None = Ok t' /\ tfg t' = tfg t /\ tfu t' = tfu t /\ tft t' = tft t /\ length (tff t') = length (tff t) /\ vf_frames_are t' u v /\
    exists snaps N lam V, snapshots_are 2 (length (ax (tfg t))) (length (ay (tfg t))) (length (tff t)) snaps (fun k c i j => deviation (length (tff t)) (fun l => v l c i j) k) /\
      N <= length (tff t) /\ s_vals (solve snaps) = map lam (seq 0 N) /\ yv ev = map Some (map lam (seq 0 N)) /\ pod_facts root 2 (length (ax (tfg t))) (length (ay (tfg t))) (length (tff t)) (fun k c i j => deviation (length (tff t)) (fun l => v l c i j) k) N lam V /\
      Forall2 (vf_mode_is root (tfg t) (length (tff t)) (fun k c i j => deviation (length (tff t)) (fun l => v l c i j) k) lam V) (seq 0 N) (mf_modes mf) /\
      Forall2 (evo_is root (tft t) (length (tff t)) lam V) (seq 0 N) (mf_evo mf).
Proof. exact (vf_decomposition asort nearest linear cubic solve root t u v). Qed.
Print Assumptions C109_vector.

Example C109_example : exists mf t', modal_pod sf_mops argsort none_interp none_interp none_interp ex_solve ex_root pod_t WAll = Ok mf /\
  reconstruct sf_mops argsort mf WAll None = Ok t' /\ map (fun f => at_ (values f) 0 0) (tff t') = map oz [8; 6; 4; 2]%Z /\
  map (fun f => at_ (values f) 0 0) (mf_modes mf) = [Some (qq 1 2); Some (qq 1 2)] /\ map (fun f => at_ (values f) 0 1) (mf_modes mf) = [Some (qq 1 2); Some (- qq 1 2)%num].
Proof. exact ex_round_trip. Qed.
Example C109_vector_example : exists mf ev vects t', modal_pod vf_mops argsort none_interp none_interp none_interp ex_solve_v ex_root pod_tv WAll = Ok mf /\
  base_ok mf ev vects /\ reconstruct vf_mops argsort mf WAll None = Ok t' /\ vf_frames_are t' metre pod_vec.
Proof.
  destruct (vf_decomposition argsort none_interp none_interp none_interp ex_solve_v ex_root pod_tv metre pod_vec argsort_is g22_ok pod_tv_ok pod_t_inc eq_refl eq_refl ltac:(cbn; lia) pod_tv_frames ex_hyp_v)
    as (mf & ev & vects & t' & A & B & _ & C & _ & _ & _ & _ & D & _). exists mf, ev, vects, t'. auto.
Qed.
(** a series without fluctuation has no mode, and cannot be decomposed *)
Theorem C109_no_mode {F} (M : mops F) asort nearest linear cubic (solve : solver) root (t : tfield F) :
  (forall snaps, s_vals (solve snaps) = []) -> exists e, modal_pod M asort nearest linear cubic solve root t WAll = Err e.
Proof. exact (modal_nothing M asort nearest linear cubic solve root t). Qed.
Print Assumptions C109_no_mode.


(** ** C110: decomposition on some modes *)
Theorem C110_increasing_partial {F} (M : mops F) asort nearest linear cubic (solve : solver) root (t : tfield F) w places mf :
  (forall snaps, length (s_vals (solve snaps)) <= length (tff t) /\ forall r, In r (s_vects (solve snaps)) -> length r = length (s_vals (solve snaps))) ->
  modal_pod M asort nearest linear cubic solve root t WAll = Ok mf ->
  match w with WAll => places = seq 0 (length (tff t)) | WInt n => places = seq 0 (Z.to_nat n) | WArr l => l = map Z.of_nat places end ->
  going_up places -> (forall k, In k places -> k <= length (tff t)) -> (exists k, In k places /\ k < length (mf_modes mf)) ->
  exists mf' ev ev', modal_pod M asort nearest linear cubic solve root t w = Ok mf' /\
    mf_mean mf' = mf_mean mf /\ mf_times mf' = mf_times mf /\ mf_g mf' = mf_g mf /\
    (let kept := filter (fun k => Nat.ltb k (length (mf_modes mf))) places in
     taken kept (mf_modes mf) (mf_modes mf') /\ mf_nmb mf' = map Z.of_nat kept /\ taken kept (mf_evo mf) (mf_evo mf') /\
     mf_eigvals mf = Some ev /\ mf_eigvals mf' = Some ev' /\ taken kept (px ev) (px ev') /\ taken kept (yv ev) (yv ev')).
Proof. exact (modal_subset M asort nearest linear cubic solve root t w places mf). Qed.
Print Assumptions C110_increasing_partial.

Example C110_example : (forall snaps, length (s_vals (ex_solve snaps)) <= length (tff pod_t) /\ forall r, In r (s_vects (ex_solve snaps)) -> length r = length (s_vals (ex_solve snaps))) /\
  going_up [1; 3] /\ exists mf, modal_pod sf_mops argsort none_interp none_interp none_interp ex_solve ex_root pod_t WAll = Ok mf /\ 1 < length (mf_modes mf).
Proof. exact ex_subset. Qed.
(** in another order, the modes receive the eigenvalues of others: the only two modes of this series, taken in the order
    (1, 0), do not give it back *)
Theorem C110_order_refuted : exists mf ev t', modal_pod sf_mops argsort none_interp none_interp none_interp ex_solve ex_root pod_t (WArr [1; 0]%Z) = Ok mf /\
  mf_nmb mf = [1; 0]%Z /\ mf_eigvals mf = Some ev /\ px ev = zs [0; 1]%Z /\ yv ev = map oz [64; 16]%Z /\ reconstruct sf_mops argsort mf WAll None = Ok t' /\
  map (fun f => at_ (values f) 0 0) (tff pod_t) = map oz [8; 6; 4; 2]%Z /\ map (fun f => at_ (values f) 0 0) (tff t') <> map oz [8; 6; 4; 2]%Z.
Proof. exact ex_order. Qed.
Print Assumptions C110_order_refuted.

(** ** C111: crop and scale of a modal base *)
Theorem C111_time_partial {F} (M : mops F) (mf : mfield F) a b :
  base_core mf -> (exists x, In x (mf_times mf) /\ in_window (nths (mf_times mf) 0) a b x = true) ->
  ((nths (mf_times mf) 0 < b)%num \/ (last (mf_times mf) (qz 0) <= b)%num) ->
  exists mf', mf_crop M mf None None (Some (a, b)) = Ok mf' /\ base_core mf' /\
    mf_times mf' = filter (in_window (nths (mf_times mf) 0) a b) (mf_times mf) /\
    Forall2 (fun p p' => samples p' = filter (fun s => in_window (nths (mf_times mf) 0) a b (sx s)) (samples p)) (mf_evo mf) (mf_evo mf') /\
    mf_mean mf' = mf_mean mf /\ mf_modes mf' = mf_modes mf /\ mf_nmb mf' = mf_nmb mf /\ mf_eigvals mf' = mf_eigvals mf /\
    (forall asort w ts, times_in mf' ts -> reconstruct M asort mf' w (Some ts) = reconstruct M asort mf w (Some ts)).
Proof. exact (crop_time_lemma M mf a b). Qed.
Print Assumptions C111_time_partial.

Example C111_time_example : base_core ex_base3 /\ (exists x, In x (mf_times ex_base3) /\ in_window (nths (mf_times ex_base3) 0) (qq 1 2) (qz 2) x = true) /\
  ((nths (mf_times ex_base3) 0 < qz 2)%num \/ (last (mf_times ex_base3) (qz 0) <= qz 2)%num).
Proof. split; [exact ex_base3_core|exact ex_window]. Qed.
Theorem C111_space_scalar asort (mf : mfield sfield) ivx ivy :
  is_argsort asort -> base_core mf -> sf_base_ok mf ->
  ivx <> None \/ ivy <> None -> keeps_two (ax (mf_g mf)) ivx -> keeps_two (ay (mf_g mf)) ivy ->
  exists mf', mf_crop sf_mops mf ivx ivy None = Ok mf' /\ base_core mf' /\ sf_base_ok mf' /\ mf_times mf' = mf_times mf /\
    length (mf_modes mf') = length (mf_modes mf) /\
    forall w places ts, selects (length (mf_modes mf)) w places -> times_in mf ts -> increasing ts ->
      exists t t', reconstruct sf_mops asort mf w (Some ts) = Ok t /\ reconstruct sf_mops asort mf' w (Some ts) = Ok t' /\ tft t = ts /\ tft t' = ts /\
        Forall2 (fun f f' => exists fc, sf_crop f ivx ivy = Ok fc /\ sf_same fc f') (tff t) (tff t').
Proof. exact (sf_crop_space_lemma asort mf ivx ivy). Qed.
Print Assumptions C111_space_scalar.

Theorem C111_space_vector asort (mf : mfield vfield) ivx ivy :
  is_argsort asort -> base_core mf -> vf_base_ok mf ->
  ivx <> None \/ ivy <> None -> keeps_two (ax (mf_g mf)) ivx -> keeps_two (ay (mf_g mf)) ivy ->
  exists mf', mf_crop vf_mops mf ivx ivy None = Ok mf' /\ base_core mf' /\ vf_base_ok mf' /\ mf_times mf' = mf_times mf /\
    length (mf_modes mf') = length (mf_modes mf) /\
    forall w places ts, selects (length (mf_modes mf)) w places -> times_in mf ts -> increasing ts ->
      exists t t', reconstruct vf_mops asort mf w (Some ts) = Ok t /\ reconstruct vf_mops asort mf' w (Some ts) = Ok t' /\ tft t = ts /\ tft t' = ts /\
        Forall2 (fun f f' => exists fc, vf_crop f ivx ivy = Ok fc /\ vf_same fc f') (tff t) (tff t').
Proof. exact (vf_crop_space_lemma asort mf ivx ivy). Qed.
Print Assumptions C111_space_vector.

Example C111_space_example : base_core ex_base3 /\ sf_base_ok ex_base3 /\ base_core ex_base3v /\ vf_base_ok ex_base3v /\
  keeps_two (ax (mf_g ex_base3)) (Some (qq 1 2, qz 3)) /\ keeps_two (ay (mf_g ex_base3)) None.
Proof. exact (conj ex_base3_core (conj ex_base3_sf (conj ex_base3v_core (conj ex_base3v_vf ex_base3_two)))). Qed.
Example C111_crop_example : exists mf' t', mf_crop sf_mops ex_base3 (Some (qq 1 2, qz 3)) None (Some (qq 1 2, qz 2)) = Ok mf' /\ mf_times mf' = zs [1; 2]%Z /\ ax (mf_g mf') = zs [1; 3]%Z /\
  reconstruct sf_mops argsort mf' WAll None = Ok t' /\ map (fun f => at_ (values f) 0 1) (tff t') = map oz [8; 10]%Z.
Proof. exact ex_crop3. Qed.
Theorem C111_scale_scalar asort (mf : mfield sfield) kx ky kt kv :
  is_argsort asort -> base_core mf -> sf_base_ok mf -> (forall p, In p (mf_evo mf) -> pux p = mf_ut mf) ->
  (0 < sfact kx)%num -> (0 < sfact ky)%num -> (0 < sfact kt)%num -> good_factor kt ->
  exists mf', mf_scale sf_mops mf kx ky kt kv = Ok mf' /\ base_core mf' /\ sf_base_ok mf' /\ mf_times mf' = map (fun a => a * sfact kt)%num (mf_times mf) /\
    length (mf_modes mf') = length (mf_modes mf) /\
    forall w places ts, selects (length (mf_modes mf)) w places -> times_in mf ts -> increasing ts ->
      exists t t', reconstruct sf_mops asort mf w (Some ts) = Ok t /\ reconstruct sf_mops asort mf' w (Some (map (fun a => a * sfact kt)%num ts)) = Ok t' /\
        tft t = ts /\ tft t' = map (fun a => a * sfact kt)%num ts /\
        Forall2 (fun f f' => sf_same (sf_scale f kx ky kv) f') (tff t) (tff t').
Proof. exact (sf_scale_lemma_base asort mf kx ky kt kv). Qed.
Print Assumptions C111_scale_scalar.

Theorem C111_scale_vector asort (mf : mfield vfield) kx ky kt kv :
  is_argsort asort -> base_core mf -> vf_base_ok mf -> (forall p, In p (mf_evo mf) -> pux p = mf_ut mf) ->
  (0 < sfact kx)%num -> (0 < sfact ky)%num -> (0 < sfact kt)%num -> good_factor kt ->
  exists mf', mf_scale vf_mops mf kx ky kt kv = Ok mf' /\ base_core mf' /\ vf_base_ok mf' /\ mf_times mf' = map (fun a => a * sfact kt)%num (mf_times mf) /\
    length (mf_modes mf') = length (mf_modes mf) /\
    forall w places ts, selects (length (mf_modes mf)) w places -> times_in mf ts -> increasing ts ->
      exists t t', reconstruct vf_mops asort mf w (Some ts) = Ok t /\ reconstruct vf_mops asort mf' w (Some (map (fun a => a * sfact kt)%num ts)) = Ok t' /\
        tft t = ts /\ tft t' = map (fun a => a * sfact kt)%num ts /\
        Forall2 (fun f f' => vf_same (vf_scale f kx ky kv) f') (tff t) (tff t').
Proof. exact (vf_scale_lemma_base asort mf kx ky kt kv). Qed.
Print Assumptions C111_scale_vector.

Example C111_scale_example : (forall p, In p (mf_evo ex_base3) -> pux p = mf_ut ex_base3) /\
  exists mf' t', mf_scale sf_mops ex_base3 (SNum (qz 2)) (SUnum (qz 3) metre) (SNum (qq 1 2)) (SUnum (qz (-5)) second) = Ok mf' /\ mf_times mf' = [qz 0; qq 1 2; qz 1] /\
  reconstruct sf_mops argsort mf' WAll None = Ok t' /\ map (fun f => at_ (values f) 1 1) (tff t') = map oz [-30; -40; -50]%Z.
Proof. split; [exact ex_base3_ut|exact ex_scale3]. Qed.
(** a bound that falls on a time of the base: the time is lost, or the call raises although the interval holds a time *)
Theorem C111_bound_refuted : exists mf', mf_crop sf_mops ex_base3 None None (Some (qz 1, qz 2)) = Ok mf' /\ mf_times ex_base3 = zs [0; 1; 2]%Z /\ mf_times mf' = zs [2]%Z /\
  mf_crop sf_mops ex_base3 None None (Some (qz (-1), qz 0)) = Err ValueErr /\ mf_crop sf_mops ex_base3 None None (Some (qz 2, qz 3)) = Err ValueErr.
Proof. exact ex_bound_lost. Qed.
Print Assumptions C111_bound_refuted.
