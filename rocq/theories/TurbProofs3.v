(** * TurbProofs3: turbulent kinetic energy of a series, splitting of the energy, Cauchy-Schwarz *)
From Coq Require Import Permutation Lia.
From Verif Require Import Num Res ListLib SortLib Arr FieldModel ScalarFieldModel VectorFieldModel FieldSpec FieldProofs FieldProofs2 SeqSpec PointsModel PointsSpec
  TemporalModel TemporalSpec TemporalSpec2 TemporalProofs2 TemporalProofs5 TemporalProofs6 TemporalProofs10 TemporalProofs14 GradProofs2 TurbModel TurbSpec TurbProofs TurbProofs2.

Lemma mean_vcells t nmb : vf_series_ok t -> tff t <> [] -> (0 <= nmb)%Z -> forall m, tf_mean vf_ops t nmb = Ok m -> vcells m /\ vg m = tfg t /\ vf_wf m /\ good_unit (vuv m) /\
  (forall f, In f (tff t) -> dim (vuv f) = dim (vuv m)) /\
  forall i j, i < length (ax (tfg t)) -> j < length (ay (tfg t)) ->
    (at_ (vmsk m) i j = true <-> (Z.of_nat (length (vavailables cx (tff t) i j)) <= nmb)%Z) /\
    (at_ (vmsk m) i j = false -> average_of (vavailables cx (tff t) i j) (vuv m) (at_ (cx m) i j) /\ average_of (vavailables cy (tff t) i j) (vuv m) (at_ (cy m) i j)).
Proof.
  intros SO NE NM m Em. destruct (tf_mean_vf t nmb SO NE NM) as (m2 & Em2 & Gm & Wm & (f0 & r & E0 & Um) & Hm). rewrite Em in Em2. injection Em2 as <-. destruct SO as (GO & OG & FO & DM). split.
  - intros i j Hi Hj. rewrite Gm in Hi, Hj. destruct (Hm i j Hi Hj) as (_ & H1 & H2). destruct (at_ (vmsk m) i j).
    + destruct (H1 eq_refl) as [-> ->]. split; split; auto.
    + destruct (H2 eq_refl) as ((x & -> & _) & (y & -> & _)). split; split; discriminate.
  - split; [exact Gm|]. split; [exact Wm|]. assert (I0 : In f0 (tff t)) by (rewrite E0; now left). split; [rewrite Um; now apply FO|]. split; [intros f If; rewrite Um; now apply DM|].
    intros i j Hi Hj. destruct (Hm i j Hi Hj) as (A & _ & B). auto.
Qed.
Lemma mapM_exists {A B} (f : A -> res B) (R : A -> B -> Prop) l : (forall a, In a l -> exists b, f a = Ok b /\ R a b) -> exists l', mapM f l = Ok l' /\ Forall2 R l l'.
Proof.
  intro H. assert (exists l', Forall2 (fun a b => f a = Ok b /\ R a b) l l') as (l' & F).
  { induction l as [|a l IH]; [exists []; constructor|]. destruct IH as (l' & F); [intros; apply H; now right|]. destruct (H a (or_introl eq_refl)) as (b & Hb). exists (b :: l'). now constructor. }
  exists l'. split; [apply mapM_forall2; eapply Forall2_impl'; [|exact F]; cbn; tauto|]. eapply Forall2_impl'; [|exact F]; cbn; tauto.
Qed.

Lemma tke_lemma asort t : is_argsort asort -> vf_series_ok t -> tf_ok t -> increasing (tft t) -> good_unit (tfu t) -> tff t <> [] ->
  exists m e, tf_mean vf_ops t 1 = Ok m /\ get_tke asort t = Ok e /\ tf_ok e /\ tft e = tft t /\ tfg e = tfg t /\ tfu e = tfu t /\
    frame_by_frame (fun f s => uv s = unit_mul (vuv f) (vuv f) /\ shows_energy (tfg t) (fun i j => both_energy (dev cx m f i j) (dev cy m f i j)) s) t e.
Proof.
  intros AS SO O I GU NE. destruct (tf_mean_vf t 1 SO NE) as (m & Em & _); [lia|]. destruct (mean_vcells t 1 SO NE ltac:(lia) m Em) as (Vm & Gm & Wm & Um & Dm & _). destruct SO as (GO & OG & FO & DM).
  unfold get_tke. rewrite Em. cbn [bind]. assert (GOm : grid_ok2 (vg m)) by (now rewrite Gm).
  destruct (comp_as_sf_lemma cx m (or_introl eq_refl) GOm Wm Vm) as (mx & Ex & _). destruct (comp_as_sf_lemma cy m (or_intror eq_refl) GOm Wm Vm) as (my & Ey & _). rewrite Ex. cbn [bind]. rewrite Ey. cbn [bind].
  set (R := fun f s => uv s = unit_mul (vuv f) (vuv f) /\ shows_energy (tfg t) (fun i j => both_energy (dev cx m f i j) (dev cy m f i j)) s).
  destruct (mapM_exists (tke_frame mx my) R (tff t)) as (es & Mes & FF).
  { intros f If. destruct (FO f If) as (Wf & Cf & Uf). pose proof (OG f If) as Gf. cbn in Gf.
    destruct (tke_frame_lemma m f mx my) as (e & Ee & Ue & He); auto; [now rewrite Gf|congruence|now apply vclean_vcells|]. exists e. split; [exact Ee|]. split; [exact Ue|]. now rewrite <- Gf. }
  pose proof O as [L S0]. pose proof (Forall2_len _ _ _ FF) as Les.
  assert (MM : mapM (fun p => let* e := tke_frame mx my (snd p) in Ok (e, fst p, tfu t)) (tf_iter t) = Ok (map (fun p => (fst p, snd p, tfu t)) (combine es (tft t)))).
  { apply mapM_forall2. unfold tf_iter. assert (FE : Forall2 (fun f e => tke_frame mx my f = Ok e) (tff t) es) by (now apply mapM_forall2). clear -FE L. revert L. generalize (tft t).
    induction FE as [|f d l l' R FF IH]; intros ts L; destruct ts as [|x ts]; try discriminate L; cbn [combine map]; constructor; [cbn [fst snd]; rewrite R; reflexivity|apply IH; now injection L]. }
  rewrite MM. cbn [bind].
  assert (M1 : map fst (combine es (tft t)) = es) by (rewrite map_fst_combine'; [reflexivity|lia]).
  assert (M2 : map snd (combine es (tft t)) = tft t) by (rewrite map_snd_combine'; [reflexivity|lia]).
  exists m. eexists. split; [reflexivity|]. split.
  { rewrite (add_all_lemma sf_ops asort (tfu t) (tfg t) (combine es (tft t)) AS GU); cbn [tft tff tf_new app out_res]; [reflexivity| | | |now left|].
    - intros [d x] H. apply in_combine_l in H. destruct (Forall2_in_r _ _ _ _ FF H) as (f & If & _ & Gd & _). exact Gd.
    - split; [reflexivity|]. intros a b _ Hb. cbn in Hb. lia.
    - now rewrite M2.
    - intro Hn. rewrite Hn in M1. cbn in M1. rewrite <- M1 in Les. destruct (tff t); [congruence|discriminate Les]. }
  cbn [tf_new tff tft app tfg tfu]. rewrite M1, M2. split; [split; cbn; [lia|exact S0]|]. split; [reflexivity|]. split; [reflexivity|]. split; [reflexivity|].
  unfold frame_by_frame, frames. cbn [tft tff]. revert L. generalize (tft t). clear -FF. induction FF as [|f d l l' R0 FF IH]; intros ts L; destruct ts as [|x ts]; try discriminate L; cbn [combine]; constructor; [now split|apply IH; now injection L].
Qed.

(** the mean of the turbulent kinetic energy *)
Lemma shows_energy_clean g v e : shows_energy g v e -> sf_clean e.
Proof.
  intros (G & W & H) x y w b (i & j & Hx & Hy & <- & <-). rewrite G in Hx, Hy. assert (Hi : i < length (ax g)) by (apply nth_error_Some; now rewrite Hx). assert (Hj : j < length (ay g)) by (apply nth_error_Some; now rewrite Hy).
  destruct (H i j Hi Hj) as (M & V). destruct (at_ (msk e) i j) eqn:EM; [split; [reflexivity|]; intros _; unfold values; cbn [at_]; now rewrite EM|].
  destruct (v i j) as [z|]; [|destruct M as (_ & M); discriminate (M eq_refl)]. destruct (V z eq_refl) as (u & -> & _). split; discriminate.
Qed.
Lemma avail_energy g v e i j : shows_energy g v e -> i < length (ax g) -> j < length (ay g) -> avail e i j = match v i j with Some x => [x] | None => [] end.
Proof.
  intros (G & W & H) Hi Hj. destruct (H i j Hi Hj) as (M & V). unfold avail. destruct (v i j) as [z|].
  - destruct (at_ (msk e) i j); [destruct M as (M & _); discriminate (M eq_refl)|]. destruct (V z eq_refl) as (u & -> & <-). reflexivity.
  - destruct M as (_ & M). now rewrite (M eq_refl).
Qed.
Lemma mean_tke_lemma asort t : is_argsort asort -> vf_series_ok t -> tf_ok t -> increasing (tft t) -> good_unit (tfu t) -> tff t <> [] ->
  exists m r, tf_mean vf_ops t 1 = Ok m /\ mean_tke asort t = Ok r /\ shows_averages r (tfg t) (dev_energies m (tff t)) 1 /\
    exists f0 l, tff t = f0 :: l /\ uv r = unit_mul (vuv f0) (vuv f0).
Proof.
  intros AS SO O I GU NE. destruct (tke_lemma asort t AS SO O I GU NE) as (m & e & Em & Ee & (Oe & Se) & Te & Ge & Ue & FE). unfold mean_tke. rewrite Ee. cbn [bind]. destruct SO as (GO & OG & FO & DM).
  assert (FF : Forall2 (fun f s => uv s = unit_mul (vuv f) (vuv f) /\ shows_energy (tfg t) (fun i j => both_energy (dev cx m f i j) (dev cy m f i j)) s) (tff t) (tff e)).
  { eapply forall2_frames; [| |exact FE]; [symmetry; apply O|symmetry; exact Oe]. }
  assert (SE : sf_series_ok e).
  { split; [now rewrite Ge|]. split; [|split].
    - intros s Is. destruct (Forall2_in_r _ _ _ _ FF Is) as (f & If & _ & Gd & _). cbn. now rewrite Gd.
    - intros s Is. destruct (Forall2_in_r _ _ _ _ FF Is) as (f & If & Us & Hs). split; [apply Hs|]. split; [now apply shows_energy_clean in Hs|]. rewrite Us. unfold good_unit. cbn. apply qmul_pos; now apply FO.
    - intros s s' Is Is'. destruct (Forall2_in_r _ _ _ _ FF Is) as (f & If & Us & _). destruct (Forall2_in_r _ _ _ _ FF Is') as (f' & If' & Us' & _). rewrite Us, Us'. cbn. now rewrite (DM f f' If If'). }
  assert (NEe : tff e <> []) by (intro K; rewrite K in FF; inversion FF; congruence).
  destruct (tf_mean_sf e 1 SE NEe) as (r & Er & Gr & Wr & _ & (s0 & l & E0 & Ur) & Hr); [lia|]. exists m, r. split; [exact Em|]. split; [exact Er|].
  assert (AV : forall i j, i < length (ax (tfg t)) -> j < length (ay (tfg t)) -> availables (tff e) i j = dev_energies m (tff t) i j).
  { intros i j Hi Hj. unfold availables, dev_energies, known2. clear -FF Hi Hj. induction FF as [|f s l l' (_ & H) FF IH]; [reflexivity|]. cbn [flat_map]. rewrite IH. f_equal. rewrite (avail_energy _ _ _ i j H Hi Hj).
    unfold both_energy. destruct (dev cx m f i j); [|reflexivity]. destruct (dev cy m f i j); reflexivity. }
  rewrite Ge in *. split.
  - split; [exact Gr|]. split; [exact Wr|]. intros i j Hi Hj. rewrite <- AV by assumption. now apply Hr.
  - rewrite E0 in FF. inversion FF as [|f s l0 l' (H & _) _ E1]; subst. exists f, l0. split; [now symmetry|]. now rewrite Ur.
Qed.
