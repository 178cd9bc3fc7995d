(** * TurbProofs2: kinetic energies of the mean field and of the fluctuations *)
From Coq Require Import Permutation Lia.
From Verif Require Import Num Res ListLib SortLib Arr FieldModel ScalarFieldModel VectorFieldModel FieldSpec FieldProofs FieldProofs2 SeqSpec PointsModel PointsSpec
  TemporalModel TemporalSpec TemporalSpec2 TemporalProofs2 TemporalProofs5 TemporalProofs6 TemporalProofs10 TemporalProofs14 GradProofs2 TurbModel TurbSpec TurbProofs.

Lemma vclean_vcells f : vf_clean f -> vcells f.
Proof.
  intros C i j Hi Hj. apply (C (nths (ax (vg f)) i) (nths (ay (vg f)) j)). exists i, j. split; [now apply nths_nth_error|]. split; [now apply nths_nth_error|]. auto.
Qed.
Definition is_comp (c : vfield -> arr onum) : Prop := c = cx \/ c = cy.
Lemma vcell c f i j : is_comp c -> vcells f -> i < length (ax (vg f)) -> j < length (ay (vg f)) -> (at_ (c f) i j = None <-> at_ (vmsk f) i j = true).
Proof. intros [-> | ->] V Hi Hj; now apply V. Qed.
Lemma phys_masked c f i j : is_comp c -> vcells f -> i < length (ax (vg f)) -> j < length (ay (vg f)) -> (phys c f i j = None <-> at_ (vmsk f) i j = true).
Proof.
  intros Hc V Hi Hj. pose proof (vcell c f i j Hc V Hi Hj) as H. unfold phys. destruct (at_ (vmsk f) i j); [tauto|]. destruct (at_ (c f) i j); cbn; [split; discriminate|]. intuition discriminate.
Qed.

(** a component seen as a scalar field *)
Lemma comp_as_sf_lemma c f : is_comp c -> grid_ok2 (vg f) -> vf_wf f -> vcells f ->
  exists s, comp_as_sf c f = Ok s /\ sg s = vg f /\ uv s = vuv f /\ sf_wf s /\ sf_clean s /\
    forall i j, i < length (ax (vg f)) -> j < length (ay (vg f)) -> at_ (msk s) i j = at_ (vmsk f) i j /\ at_ (values s) i j = (if at_ (vmsk f) i j then None else at_ (c f) i j).
Proof.
  intros Hc ((IX & IY) & LX & LY) W V. unfold comp_as_sf. assert (D : has_shape (c f) (length (ax (vg f))) (length (ay (vg f)))) by (destruct W as (W1 & W2 & _); destruct Hc as [-> | ->]; assumption).
  destruct D as (D0 & D1). rewrite sf_import_plain by assumption. eexists. split; [reflexivity|]. split; [cbn; destruct (vg f); reflexivity|]. split; [reflexivity|].
  assert (M : forall i j, i < length (ax (vg f)) -> j < length (ay (vg f)) -> (at_ (vmsk f) i j || isnan (at_ (c f) i j))%bool = at_ (vmsk f) i j).
  { intros i j Hi Hj. pose proof (vcell c f i j Hc V Hi Hj) as H. destruct (at_ (c f) i j); cbn [isnan]; [now rewrite orb_false_r|]. destruct H as (H & _). now rewrite (H eq_refl). }
  split; [destruct W as (_ & _ & W3 & W4); repeat split; cbn; assumption|]. split.
  - intros x y v m (i & j & Hx & Hy & Hv & Hm). cbn in Hx, Hy, Hv, Hm. assert (Hi : i < length (ax (vg f))) by (apply nth_error_Some; now rewrite Hx). assert (Hj : j < length (ay (vg f))) by (apply nth_error_Some; now rewrite Hy). pose proof (vcell c f i j Hc V Hi Hj) as H. rewrite (M i j Hi Hj) in *. subst m. rewrite <- Hv.
    destruct (at_ (vmsk f) i j); [tauto|exact H].
  - intros i j Hi Hj. cbn. rewrite (M i j Hi Hj). auto.
Qed.
(** half the sum of the squares *)
Lemma half_squares_lemma a b : sg b = sg a -> uv b = uv a -> good_unit (uv a) -> sf_wf a ->
  exists r, half_squares a b = Ok r /\ sg r = sg a /\ uv r = unit_mul (uv a) (uv a) /\ sf_wf r /\
    forall i j, at_ (msk r) i j = orb (at_ (msk a) i j) (at_ (msk b) i j) /\
      (at_ (msk r) i j = false -> forall x y, at_ (values a) i j = Some x -> at_ (values b) i j = Some y -> at_ (values r) i j = Some (energy x y)).
Proof.
  intros G U GU W. unfold half_squares. destruct (sf_add_cells (sf_pow2 a) (sf_pow2 b)) as (s & k & -> & Hk & Gs & Us & Ws & V).
  - cbn. exact G.
  - cbn. now rewrite U.
  - unfold good_unit in *. cbn. now apply qmul_pos.
  - exact W.
  - cbn [bind]. eexists. split; [reflexivity|]. split; [exact Gs|]. split; [exact Us|]. split; [exact Ws|].
    intros i j. destruct (V i j) as (V1 & V2). cbn [sf_mul_num msk]. split; [exact V2|]. intros M x y Hx Hy. unfold sf_mul_num, values at 1. cbn [at_ msk raw]. rewrite M. cbn [amap at_].
    unfold values at 1. cbn [at_]. rewrite M, V1. cbn [sf_pow2] in V2. rewrite V2 in M. apply orb_false_iff in M. destruct M as (M1 & M2). change (at_ (msk a) i j = false) in M1. change (at_ (msk b) i j = false) in M2.
    unfold values at 1 2. cbn [sf_pow2 at_ raw msk]. rewrite M1, M2, Hx, Hy. cbn. cbn in Hk. rewrite U in Hk.
    assert (k = 1%num) as -> by (apply (qmul_inj_r _ _ (sc (uv a) * sc (uv a))%num); [apply qgt_neq; now apply qmul_pos|]; rewrite Hk; qring).
    unfold oscale, option_map. f_equal. unfold energy, Qcdiv. replace (qq 1 2) with (Qcinv (qz 2)) by (apply Qc_is_canon; reflexivity). qring.
Qed.

(** the energy of a field against another one *)
Lemma dev_masked c m f i j : is_comp c -> vcells f -> vcells m -> vg m = vg f -> i < length (ax (vg f)) -> j < length (ay (vg f)) ->
  (dev c m f i j = None <-> (at_ (vmsk f) i j || at_ (vmsk m) i j)%bool = true).
Proof.
  intros Hc V Vm G Hi Hj. pose proof (phys_masked c f i j Hc V Hi Hj) as H1. rewrite <- G in Hi, Hj. pose proof (phys_masked c m i j Hc Vm Hi Hj) as H2. unfold dev. rewrite orb_true_iff, <- H1, <- H2.
  destruct (phys c f i j), (phys c m i j); intuition discriminate.
Qed.
Lemma energy_scaled x y s : (energy x y * (s * s) = energy (x * s) (y * s))%num.
Proof. unfold energy, Qcdiv. qring. Qed.
Lemma mean_energy_lemma m : grid_ok2 (vg m) -> vf_wf m -> vcells m -> good_unit (vuv m) ->
  exists k, (let* x := comp_as_sf cx m in let* y := comp_as_sf cy m in half_squares x y) = Ok k /\ uv k = unit_mul (vuv m) (vuv m) /\
    shows_energy (vg m) (fun i j => both_energy (phys cx m i j) (phys cy m i j)) k.
Proof.
  intros GO W V GU. destruct (comp_as_sf_lemma cx m (or_introl eq_refl) GO W V) as (sx & Ex & Gx & Ux & Wx & _ & Hx). destruct (comp_as_sf_lemma cy m (or_intror eq_refl) GO W V) as (sy & Ey & Gy & Uy & Wy & _ & Hy).
  rewrite Ex. cbn [bind]. rewrite Ey. cbn [bind]. destruct (half_squares_lemma sx sy) as (k & Ek & Gk & Uk & Wk & Hk); [congruence|congruence|now rewrite Ux|assumption|].
  exists k. split; [exact Ek|]. split; [now rewrite Uk, Ux|]. split; [congruence|]. split; [exact Wk|]. intros i j Hi Hj. destruct (Hx i j Hi Hj) as (Mx & Vx). destruct (Hy i j Hi Hj) as (My & Vy). destruct (Hk i j) as (Mk & Vk).
  pose proof (phys_masked cx m i j (or_introl eq_refl) V Hi Hj) as Px. pose proof (phys_masked cy m i j (or_intror eq_refl) V Hi Hj) as Py. rewrite Mk, Mx, My, orb_diag. split.
  - unfold both_energy. destruct (phys cx m i j), (phys cy m i j); intuition discriminate.
  - intros e He. rewrite Mk, Mx, My, orb_diag in Vk. revert Px Py He Vk Vx Vy. unfold both_energy, phys. destruct (at_ (vmsk m) i j); [discriminate|]. destruct (at_ (cx m) i j) as [x|]; [|discriminate]. destruct (at_ (cy m) i j) as [y|]; [|discriminate].
    cbn. intros _ _ He Vk Vx Vy. injection He as <-. exists (energy x y). split; [now apply Vk|]. rewrite Uk, Ux. cbn. apply energy_scaled.
Qed.
Lemma minus_phys c m f (sm s d : sfield) i j : is_comp c -> good_unit (vuv f) -> minus_mean s sm d -> sg s = vg f -> uv s = vuv f -> uv sm = vuv m ->
  at_ (values s) i j = (if at_ (vmsk f) i j then None else at_ (c f) i j) -> at_ (values sm) i j = (if at_ (vmsk m) i j then None else at_ (c m) i j) ->
  i < length (ax (vg f)) -> j < length (ay (vg f)) -> at_ (msk d) i j = false -> exists v, at_ (values d) i j = Some v /\ dev c m f i j = Some (v * sc (vuv f))%num.
Proof.
  intros Hc GU (_ & _ & _ & H) G U Um Vs Vm Hi Hj M. rewrite G in H. destruct (H i j Hi Hj) as (_ & H'). destruct (H' M) as (a & b & v & Ea & Eb & Ev & E). exists v. split; [exact Ev|].
  rewrite Vs in Ea. rewrite Vm in Eb. unfold dev, phys. destruct (at_ (vmsk f) i j); [discriminate|]. destruct (at_ (vmsk m) i j); [discriminate|]. rewrite Ea, Eb. cbn. f_equal. rewrite <- U, <- Um. now rewrite E.
Qed.
Lemma tke_frame_lemma m f mx my : grid_ok2 (vg f) -> vg m = vg f -> vf_wf m -> vcells m -> vf_wf f -> vcells f -> good_unit (vuv f) -> dim (vuv f) = dim (vuv m) ->
  comp_as_sf cx m = Ok mx -> comp_as_sf cy m = Ok my ->
  exists e, tke_frame mx my f = Ok e /\ uv e = unit_mul (vuv f) (vuv f) /\ shows_energy (vg f) (fun i j => both_energy (dev cx m f i j) (dev cy m f i j)) e.
Proof.
  intros GO G Wm Vm W V GU DM Emx Emy. unfold tke_frame.
  assert (GOm : grid_ok2 (vg m)) by (now rewrite G).
  destruct (comp_as_sf_lemma cx m (or_introl eq_refl) GOm Wm Vm) as (mx' & Ex & Gmx & Umx & Wmx & Cmx & Hmx). rewrite Emx in Ex. injection Ex as <-.
  destruct (comp_as_sf_lemma cy m (or_intror eq_refl) GOm Wm Vm) as (my' & Ey & Gmy & Umy & Wmy & Cmy & Hmy). rewrite Emy in Ey. injection Ey as <-.
  destruct (comp_as_sf_lemma cx f (or_introl eq_refl) GO W V) as (sx & -> & Gx & Ux & Wx & Cx & Hx). destruct (comp_as_sf_lemma cy f (or_intror eq_refl) GO W V) as (sy & Esy & Gy & Uy & Wy & Cy & Hy).
  cbn [bind]. unfold sf_sub. destruct (sf_minus sx mx) as (dx & -> & Dx); [congruence|congruence|now rewrite Ux|assumption..|]. cbn [bind]. rewrite Esy. cbn [bind].
  destruct (sf_minus sy my) as (dy & -> & Dy); [congruence|congruence|now rewrite Uy|assumption..|]. cbn [bind].
  pose proof Dx as (GDx & UDx & WDx & HDx). pose proof Dy as (GDy & UDy & WDy & HDy).
  destruct (half_squares_lemma dx dy) as (e & Ee & Ge & Ue & We & He); [congruence|congruence|now rewrite UDx, Ux|assumption|].
  exists e. split; [exact Ee|]. split; [now rewrite Ue, UDx, Ux|]. split; [congruence|]. split; [exact We|]. intros i j Hi Hj. destruct (He i j) as (Me & Ve).
  rewrite Gx in HDx. rewrite Gy in HDy. destruct (HDx i j Hi Hj) as (Mdx & _). destruct (HDy i j Hi Hj) as (Mdy & _). destruct (Hx i j Hi Hj) as (Mx & Vx). destruct (Hy i j Hi Hj) as (My & Vy).
  assert (Hi' := Hi). assert (Hj' := Hj). rewrite <- G in Hi', Hj'. destruct (Hmx i j Hi' Hj') as (Mmx & Vmx). destruct (Hmy i j Hi' Hj') as (Mmy & Vmy).
  rewrite Mx, Mmx in Mdx. rewrite My, Mmy in Mdy. assert (ME : at_ (msk e) i j = (at_ (vmsk f) i j || at_ (vmsk m) i j)%bool) by (rewrite Me, Mdx, Mdy; apply orb_diag).
  pose proof (dev_masked cx m f i j (or_introl eq_refl) V Vm G Hi Hj) as Kx. pose proof (dev_masked cy m f i j (or_intror eq_refl) V Vm G Hi Hj) as Ky. rewrite <- ME in Kx, Ky. split.
  - unfold both_energy. destruct (dev cx m f i j), (dev cy m f i j); intuition discriminate.
  - intros v Hv. destruct (at_ (msk e) i j) eqn:EM; [destruct Kx as (_ & Kx); rewrite (Kx eq_refl) in Hv; discriminate|].
    rewrite <- ME in Mdx, Mdy.
    destruct (minus_phys cx m f mx sx dx i j) as (vx & Wvx & Dvx); auto; [now left|]. destruct (minus_phys cy m f my sy dy i j) as (vy & Wvy & Dvy); auto; [now right|].
    rewrite Dvx, Dvy in Hv. cbn in Hv. injection Hv as <-. exists (energy vx vy). split; [now apply Ve|]. rewrite Ue, UDx, Ux. cbn. apply energy_scaled.
Qed.
