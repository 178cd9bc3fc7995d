(** * TurbProofs5: auto-correlation and turbulent intensity *)
From Coq Require Import Permutation Lia.
From Verif Require Import Num Res ListLib SortLib Arr FieldModel ScalarFieldModel VectorFieldModel FieldSpec FieldProofs FieldProofs2 SeqSpec PointsModel PointsSpec
  TemporalModel TemporalSpec TemporalSpec2 TemporalProofs2 TemporalProofs5 TemporalProofs6 TemporalProofs10 TemporalProofs12 TemporalProofs14 GradProofs2 GradProofs5 TurbModel TurbSpec TurbProofs TurbProofs2 TurbProofs3
  TurbProofs4 ProfileModel ProfileSpec ProfileProofs ScalarProofs.

Lemma aidx_prod n m : aidx n m = list_prod (seq 0 n) (seq 0 m).
Proof. unfold aidx. induction (seq 0 n) as [|a l IH]; [reflexivity|]. cbn. now rewrite IH. Qed.
Lemma oadd_some a b : oadd (Some a) (Some b) = Some (a + b)%num. Proof. reflexivity. Qed.
Lemma osum_total (l : list num) : osum (map Some l) = Some (total l).
Proof. unfold osum, total. induction l as [|a l IH]; [reflexivity|]. cbn [map fold_right]. rewrite IH. reflexivity. Qed.
Lemma omean_total (l : list num) : l <> [] -> exists v, omean (map Some l) = Some v /\ (v * qn (length l) = total l)%num.
Proof.
  intro NE. exists (total l / qn (length l))%num. unfold omean. rewrite osum_total, map_length. destruct l as [|a l]; [congruence|]. split; [reflexivity|]. apply qdiv_mul. apply qgt_neq. apply qn_pos. cbn. lia.
Qed.
Lemma omean_nan (l : list onum) : In None l -> omean l = None.
Proof.
  intro H. unfold omean. destruct l as [|a l]; [reflexivity|]. assert (E : osum (a :: l) = None).
  { clear -H. unfold osum. induction (a :: l) as [|b r IH]; [contradiction|]. destruct H as [->|H]; [reflexivity|]. cbn [fold_right]. rewrite (IH H). destruct b; reflexivity. }
  now rewrite E.
Qed.
Section Product.
  Context (f h : vfield).
  Lemma product_known : vcells f -> vcells h -> vf_wf f -> vg h = vg f -> nothing_masked f -> nothing_masked h -> length (ax (vg f)) * length (ay (vg f)) <> 0 ->
    exists v, scalar_product f h = Some v /\ mean_product f h v.
  Proof.
    intros Vf Vh (W & _) G Nf Nh NZ. destruct W as (W0 & W1).
    assert (E : exists l, Forall2 (fun p x => exists a b c d, at_ (cx f) (fst p) (snd p) = Some a /\ at_ (cx h) (fst p) (snd p) = Some b /\
                          at_ (cy f) (fst p) (snd p) = Some c /\ at_ (cy h) (fst p) (snd p) = Some d /\ x = (a * b + c * d)%num) (aidx (d0 (cx f)) (d1 (cx f))) l).
    { assert (H : forall p, In p (aidx (d0 (cx f)) (d1 (cx f))) -> exists a b c d, at_ (cx f) (fst p) (snd p) = Some a /\ at_ (cx h) (fst p) (snd p) = Some b /\ at_ (cy f) (fst p) (snd p) = Some c /\ at_ (cy h) (fst p) (snd p) = Some d).
      { intros [i j] H. apply in_aidx in H. destruct H as (Hi & Hj). rewrite W0 in Hi. rewrite W1 in Hj. cbn [fst snd]. destruct (Vf i j Hi Hj) as (F1 & F2). rewrite (Nf i j Hi Hj) in F1, F2.
        rewrite <- G in Hi, Hj. destruct (Vh i j Hi Hj) as (H1 & H2). rewrite (Nh i j Hi Hj) in H1, H2.
        destruct (at_ (cx f) i j) as [a|]; [|destruct F1 as (F1 & _); discriminate (F1 eq_refl)]. destruct (at_ (cy f) i j) as [c|]; [|destruct F2 as (F2 & _); discriminate (F2 eq_refl)].
        destruct (at_ (cx h) i j) as [b|]; [|destruct H1 as (H1 & _); discriminate (H1 eq_refl)]. destruct (at_ (cy h) i j) as [d|]; [|destruct H2 as (H2 & _); discriminate (H2 eq_refl)]. eauto 10. }
      induction (aidx (d0 (cx f)) (d1 (cx f))) as [|p l IH]; [exists []; constructor|]. destruct IH as (l' & IH); [intros; apply H; now right|]. destruct (H p (or_introl eq_refl)) as (a & b & c & d & X).
      exists ((a * b + c * d)%num :: l'). constructor; [exists a, b, c, d; tauto|exact IH]. }
    destruct E as (l & F). assert (LL : length l = d0 (cx f) * d1 (cx f)) by (rewrite <- (Forall2_len _ _ _ F); apply aidx_length).
    assert (NE : l <> []) by (intro K; rewrite K, W0, W1 in LL; cbn in LL; lia).
    destruct (omean_total l NE) as (v & Ev & Tv). exists v. split.
    - unfold scalar_product, flatten. cbn [d0 d1 at_]. rewrite <- Ev. f_equal. clear -F. induction F as [|p x ps xs (a & b & c & d & E1 & E2 & E3 & E4 & ->) F IH]; [reflexivity|]. cbn [map]. rewrite IH, E1, E2, E3, E4. reflexivity.
    - exists l. split; [exact LL|]. split; [exact NE|]. split; [exact Tv|]. now rewrite <- aidx_prod.
  Qed.
  Lemma product_nan i j : d0 (cx f) = length (ax (vg f)) -> d1 (cx f) = length (ay (vg f)) -> i < length (ax (vg f)) -> j < length (ay (vg f)) ->
    at_ (cx f) i j = None \/ at_ (cx h) i j = None -> scalar_product f h = None.
  Proof.
    intros W0 W1 Hi Hj H. unfold scalar_product. apply omean_nan. unfold flatten. apply in_map_iff. exists (i, j). cbn [fst snd at_ d0 d1]. rewrite W0, W1. split; [|now apply in_aidx].
    destruct H as [-> | ->]; [reflexivity|]. destruct (at_ (cx f) i j); reflexivity.
  Qed.
End Product.
Lemma mean_product_fun f h v w : mean_product f h v -> mean_product f h w -> v = w.
Proof.
  intros (l & L & NE & T & F) (l' & L' & _ & T' & F'). assert (l = l') as <-.
  { clear -F F'. revert l' F'. induction F as [|p x ps xs (a & b & c & d & A & B & C & D & ->) F IH]; intros l' F'; inversion F'; subst; [reflexivity|]. destruct H1 as (a' & b' & c' & d' & A' & B' & C' & D' & ->).
    rewrite A in A'. rewrite B in B'. rewrite C in C'. rewrite D in D'. injection A' as <-. injection B' as <-. injection C' as <-. injection D' as <-. f_equal. now apply IH. }
  assert (P : (0 < qn (length l))%num) by (apply qn_pos; destruct l; [congruence|cbn; lia]). apply (qmul_inj_r _ _ (qn (length l))); [now apply qgt_neq|congruence].
Qed.
Lemma zip_plain (ts : list num) (ys : list onum) : length ts = length ys ->
  map (fun t => (sx t, (if smask t then None else sy t), (smask t || isnan (sy t))%bool)) (zip3 ts ys (repeat false (length ts))) = map (fun p => (fst p, snd p, isnan (snd p))) (combine ts ys).
Proof. revert ys. induction ts as [|t ts IH]; intros [|y ys] L; try discriminate L; [reflexivity|]. unfold zip3 in *. cbn [length repeat combine map]. rewrite IH by (now injection L). reflexivity. Qed.

Lemma acorr_lemma t f0 r n0 : vf_series_ok t -> tf_ok t -> tff t = f0 :: r -> (forall f, In f (tff t) -> nothing_masked f) -> mean_product f0 f0 n0 -> n0 <> 0%num ->
  exists p, auto_correlation t = Ok p /\ pux p = tfu t /\ puy p = one_unit /\ px p = tft t /\
    Forall2 (fun f s => smask s = false /\ exists c v, sy s = Some c /\ mean_product f0 f v /\ (c * n0 = v)%num) (tff t) (samples p) /\
    (exists s l, samples p = s :: l /\ sy s = Some 1%num).
Proof.
  intros SO (L & S0) E0 NM P0 N0. pose proof SO as (GO & OG & FO & DM). unfold auto_correlation. rewrite E0. rewrite <- E0.
  assert (I0 : In f0 (tff t)) by (rewrite E0; now left). pose proof (OG f0 I0) as G0. cbn in G0. destruct (FO f0 I0) as (W0 & C0 & _).
  assert (K : forall f, In f (tff t) -> exists v, scalar_product f0 f = Some v /\ mean_product f0 f v).
  { intros f If. pose proof (OG f If) as Gf. cbn in Gf. apply product_known; try (apply vclean_vcells; now apply FO); auto; [congruence|]. rewrite G0. destruct GO as (_ & LX & LY). lia. }
  destruct (K f0 I0) as (v0 & E00 & P00). assert (v0 = n0) by (eapply mean_product_fun; eauto). subst v0. rewrite E00.
  destruct (new_lemma (tft t) (map (fun f => odiv (scalar_product f0 f) (Some n0)) (tff t)) None (tfu t) one_unit) as (p & Ep & _ & Ux & Uy & _ & S1); [now rewrite map_length|exact I|].
  destruct (S1 S0) as (PX & SP). rewrite zip_plain in SP by (now rewrite map_length). exists p. split; [exact Ep|]. split; [exact Ux|]. split; [exact Uy|]. split; [exact PX|]. rewrite SP. split.
  - clear - K L N0. revert L K. generalize (tft t). induction (tff t) as [|f l IH]; intros ts L K; destruct ts as [|x ts]; try discriminate L; cbn [map combine]; constructor; [|apply IH; [now injection L|intros; apply K; now right]].
    destruct (K f (or_introl eq_refl)) as (v & -> & Pv). unfold sy, smask. cbn [fst snd odiv].
    assert (Z : qeqb n0 0%num = false) by (destruct (qeqb_spec n0 0%num); congruence). rewrite Z. cbn [isnan]. split; [reflexivity|]. exists (v / n0)%num, v. split; [reflexivity|]. split; [exact Pv|]. now apply qdiv_mul.
  - rewrite E0. destruct (tft t) as [|x ts]; [rewrite E0 in L; discriminate|]. cbn [map combine]. eexists. eexists. split; [reflexivity|]. unfold sy. cbn [fst snd]. rewrite E00. cbn [odiv].
    assert (Z : qeqb n0 0%num = false) by (destruct (qeqb_spec n0 0%num); congruence). rewrite Z. f_equal. apply (qmul_inj_r _ _ n0 N0). rewrite qdiv_mul by exact N0. qring.
Qed.
(** a masked value of the first field spoils the whole result *)
Lemma acorr_masked t f0 r : vf_series_ok t -> tf_ok t -> tff t = f0 :: r -> something_masked f0 ->
  exists p, auto_correlation t = Ok p /\ px p = tft t /\ forall s, In s (samples p) -> smask s = true.
Proof.
  intros SO (L & S0) E0 (i & j & Hi & Hj & M). pose proof SO as (GO & OG & FO & DM). unfold auto_correlation. rewrite E0. rewrite <- E0.
  assert (I0 : In f0 (tff t)) by (rewrite E0; now left). destruct (FO f0 I0) as (W0 & C0 & _). destruct W0 as ((D0 & D1) & _).
  assert (N : at_ (cx f0) i j = None) by (apply (vclean_vcells f0 C0 i j Hi Hj); exact M).
  assert (K : forall f, scalar_product f0 f = None) by (intro f; apply (product_nan f0 f i j); auto).
  destruct (new_lemma (tft t) (map (fun f => odiv (scalar_product f0 f) (scalar_product f0 f0)) (tff t)) None (tfu t) one_unit) as (p & Ep & _ & Ux & Uy & _ & S1); [now rewrite map_length|exact I|].
  destruct (S1 S0) as (PX & SP). rewrite zip_plain in SP by (now rewrite map_length). exists p. split; [exact Ep|]. split; [exact PX|]. rewrite SP. intros s Hs. apply in_map_iff in Hs. destruct Hs as ([x y] & <- & Hxy). cbn.
  apply in_combine_r in Hxy. apply in_map_iff in Hxy. destruct Hxy as (f & <- & _). rewrite K. reflexivity.
Qed.

(** ** turbulent intensity *)
Lemma zero_times (fs : list sfield) asort g : is_argsort asort -> fs <> [] -> (forall f, In f fs -> sg f = g) ->
  exists t', out_res (add_all sf_ops asort tf_new (map (fun f => (f, 0%num, one_unit)) fs)) = Ok t' /\ tf_ok t' /\ Permutation (frames t') (map (fun f => (0%num, f)) fs) /\ tfg t' = g.
Proof.
  intros AS NE HG. destruct (add_all_perm sf_ops asort one_unit g (map (fun f => (f, 0%num)) fs) AS eq_refl) with (t := @tf_new sfield) as (t' & E & O & U & G & P).
  - intros p H. apply in_map_iff in H. destruct H as (f & <- & If). cbn. now apply HG.
  - split; [reflexivity|]. intros a b _ Hb. cbn in Hb. lia.
  - now left.
  - destruct fs; [congruence|discriminate].
  - rewrite map_map in E. cbn [fst snd] in E. exists t'. rewrite E. split; [reflexivity|]. split; [exact O|]. rewrite map_map in P. cbn [fst snd] in P. unfold frames in P at 2. cbn in P. rewrite app_nil_r in P. auto.
Qed.
Lemma frames_times {F} (t : tfield F) : tf_ok t -> map fst (frames t) = tft t.
Proof. intros (L & _). unfold frames. apply map_fst_combine'. lia. Qed.
Lemma frames_fields {F} (t : tfield F) : tf_ok t -> map snd (frames t) = tff t.
Proof. intros (L & _). unfold frames. apply map_snd_combine'. lia. Qed.
Lemma intensity_fails root uroot asort t x : is_argsort asort -> vf_series_ok t -> tf_ok t -> increasing (tft t) -> good_unit (tfu t) -> In x (tft t) -> x <> 0%num ->
  turb_intensity root uroot asort t = Err GenericErr.
Proof.
  intros AS SO O I GU Ix Nx. assert (NE : tff t <> []) by (destruct O as (L & _); destruct (tff t); [destruct (tft t); [contradiction|discriminate L]|discriminate]).
  destruct (tke_lemma asort t AS SO O I GU NE) as (m & e & _ & Ee & Oe & Te & Ge & _ & FE). unfold turb_intensity. rewrite Ee. cbn [bind].
  assert (FF : Forall2 (fun f s => uv s = unit_mul (vuv f) (vuv f) /\ shows_energy (tfg t) (fun i j => both_energy (dev cx m f i j) (dev cy m f i j)) s) (tff t) (tff e)).
  { eapply forall2_frames; [| |exact FE]; [symmetry; apply O|symmetry; apply Oe]. }
  pose proof (Forall2_len _ _ _ FF) as LE.
  assert (GE : forall s, In s (tff e) -> sg s = tfg t) by (intros s Is; destruct (Forall2_in_r _ _ _ _ FF Is) as (f & _ & _ & Gs & _); exact Gs).
  unfold tf_mul_num. cbn [o_muln sf_ops]. rewrite <- (map_map (fun f => sf_mul_num f (qq 2 3)) (fun f => (f, 0%num, one_unit))).
  destruct (zero_times (map (fun f => sf_mul_num f (qq 2 3)) (tff e)) asort (tfg t) AS) as (e2 & E2 & O2 & P2 & G2).
  { destruct (tff e); [|discriminate]. destruct (tff t); [congruence|discriminate LE]. }
  { intros s Hs. apply in_map_iff in Hs. destruct Hs as (f & <- & If). cbn. now apply GE. }
  fold sf_ops. rewrite E2. cbn [bind].
  assert (L2 : length (tff e2) = length (tff t)) by (rewrite <- (frames_fields e2 O2), map_length, (Permutation_length P2), !map_length; lia).
  unfold tf_root. rewrite <- (map_map (sf_root root uroot) (fun f => (f, 0%num, one_unit))).
  destruct (zero_times (map (sf_root root uroot) (tff e2)) asort (tfg t) AS) as (e3 & E3 & O3 & P3 & G3).
  { destruct (tff e2); [|discriminate]. destruct (tff t); [congruence|discriminate L2]. }
  { intros s Hs. apply in_map_iff in Hs. destruct Hs as (f & <- & If). cbn. rewrite <- (frames_fields e2 O2) in If. apply in_map_iff in If. destruct If as ((z & f') & <- & If). apply (Permutation_in _ P2) in If.
    apply in_map_iff in If. destruct If as (h & Eh & If). apply in_map_iff in If. destruct If as (h' & <- & If). injection Eh as _ <-. cbn. now apply GE. }
  rewrite E3. cbn [bind].
  assert (T3 : forall z, In z (tft e3) -> z = 0%num).
  { intros z Hz. rewrite <- (frames_times e3 O3) in Hz. apply in_map_iff in Hz. destruct Hz as ((y & f) & <- & If). apply (Permutation_in _ P3) in If. apply in_map_iff in If. destruct If as (h & Eh & _). now injection Eh. }
  destruct SO as (GO & OG & FO & DM). pose proof O as (L & S0).
  assert (MG : exists v, tf_magnitude root asort t = Ok v /\ tft v = tft t).
  { unfold tf_magnitude. destruct (mapM_exists (magnitude_sf root) (fun f s => sg s = tfg t) (tff t)) as (vs & Mv & FV).
    { intros f If. pose proof (OG f If) as Gf. cbn in Gf. destruct (FO f If) as (((D0 & D1) & _) & _). unfold magnitude_sf. rewrite sf_import_plain; [|rewrite Gf; try apply GO..|exact D0|exact D1]. eexists. split; [reflexivity|]. cbn. rewrite Gf. destruct (tfg t); reflexivity. }
    pose proof (Forall2_len _ _ _ FV) as LV.
    assert (MM : mapM (fun p => let* e0 := magnitude_sf root (snd p) in Ok (e0, fst p, tfu t)) (tf_iter t) = Ok (map (fun p => (fst p, snd p, tfu t)) (combine vs (tft t)))).
    { apply mapM_forall2. unfold tf_iter. assert (FM : Forall2 (fun f e => magnitude_sf root f = Ok e) (tff t) vs) by (now apply mapM_forall2). clear -FM L. revert L. generalize (tft t).
      induction FM as [|f d l l' R FM IH]; intros ts L; destruct ts as [|y ts]; try discriminate L; cbn [combine map]; constructor; [cbn [fst snd]; rewrite R; reflexivity|apply IH; now injection L]. }
    rewrite MM. cbn [bind].
    assert (M1 : map fst (combine vs (tft t)) = vs) by (rewrite map_fst_combine'; [reflexivity|lia]).
    assert (M2 : map snd (combine vs (tft t)) = tft t) by (rewrite map_snd_combine'; [reflexivity|lia]).
    rewrite (add_all_lemma sf_ops asort (tfu t) (tfg t) (combine vs (tft t)) AS GU); cbn [tft tff tf_new app out_res]; [eexists; split; [reflexivity|exact M2]| | | |now left|].
    - intros [d y] H. apply in_combine_l in H. destruct (Forall2_in_r _ _ _ _ FV H) as (f & If & Gd). exact Gd.
    - split; [reflexivity|]. intros a b _ Hb. cbn in Hb. lia.
    - now rewrite M2.
    - intro Hn. rewrite Hn in M1. cbn in M1. rewrite <- M1 in LV. destruct (tff t); [congruence|discriminate LV]. }
  destruct MG as (v & Ev & Tv). rewrite Ev. cbn [bind]. unfold tf_div, series_guard.
  assert (Q : list_eqb (tft e3) (tft v) = false).
  { destruct (list_eqb (tft e3) (tft v)) eqn:Q; [|reflexivity]. apply list_eqb_eq in Q. rewrite Tv in Q. rewrite <- Q in Ix. apply T3 in Ix. congruence. }
  rewrite Q. cbn [negb]. rewrite orb_true_r. reflexivity.
Qed.
