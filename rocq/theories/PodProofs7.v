(** * PodProofs7: round trip of a series of vector fields *)
From Coq Require Import Sorted Permutation Lia.
From Verif Require Import Num Res ListLib SortLib Arr FieldModel ScalarFieldModel VectorFieldModel ProfileModel FieldSpec SeqSpec
  ProfileSpec ProfileProofs ProfileProofs2 PointsModel PointsSpec FieldProofs2 TemporalModel TemporalSpec TemporalSpec2 TemporalProofs2 TemporalProofs5 TemporalProofs6 TemporalProofs10 TemporalProofs14
  GradModel GradProofs2 PodModel PodSpec PodProofs PodProofs2 PodProofs3 PodProofs4 PodProofs5 PodProofs6.

Lemma fill_comp_full nearest linear cubic g (c : arr onum) (m : arr bool) u : grid_ok2 g -> has_shape c (length (ax g)) (length (ay g)) -> has_shape m (length (ax g)) (length (ay g)) ->
  (forall i j, i < length (ax g) -> j < length (ay g) -> at_ m i j = false /\ exists x, at_ c i j = Some x) ->
  exists s s', sf_import (ax g) (ay g) c (Some m) (ux g) (uy g) u = Ok s /\ sf_fill nearest linear cubic s FLinear 0%num = Ok s' /\
    has_shape (values s') (length (ax g)) (length (ay g)) /\ forall i j, i < length (ax g) -> j < length (ay g) -> at_ (values s') i j = at_ c i j.
Proof.
  intros ((Ix & Iy) & X2 & Y2) (C0 & C1) (M0 & M1) H. rewrite (sf_import_plain (ax g) (ay g) c m (ux g) (uy g) u Ix Iy X2 Y2 C0 C1).
  eexists; eexists. split; [reflexivity|]. unfold sf_fill. cbn zeta.
  match goal with |- context [any_masked ?s] => assert (any_masked s = false) as -> end.
  { apply any_masked_false. cbn [msk amap2 d0 d1]. rewrite M0, M1. intros i j Hi Hj. destruct (H i j Hi Hj) as (A & x & B). cbn. rewrite A, B. reflexivity. }
  cbn [negb bind]. cbn [sg ax ay ux uy uv]. rewrite sf_import_none; [|assumption|assumption|assumption|assumption|exact C0|exact C1]. split; [reflexivity|].
  split; [split; [exact C0|exact C1]|]. intros i j Hi Hj. destruct (H i j Hi Hj) as (A & x & B). cbn. rewrite A, B. reflexivity.
Qed.
Lemma vf_fill_full nearest linear cubic f : grid_ok2 (vg f) -> vf_wf f -> (forall i j, i < length (ax (vg f)) -> j < length (ay (vg f)) -> at_ (vmsk f) i j = false /\ exists x y, at_ (cx f) i j = Some x /\ at_ (cy f) i j = Some y) ->
  exists f', vf_fill_in nearest linear cubic f = Ok f' /\ vg f' = vg f /\ vuv f' = vuv f /\ vf_wf f' /\
    forall i j, i < length (ax (vg f)) -> j < length (ay (vg f)) -> at_ (vmsk f') i j = false /\ at_ (cx f') i j = at_ (cx f) i j /\ at_ (cy f') i j = at_ (cy f) i j.
Proof.
  intros GO (WX & WY & WM) H. unfold vf_fill_in, comp_x_sf, comp_y_sf.
  destruct (fill_comp_full nearest linear cubic (vg f) (cx f) (vmsk f) (vuv f) GO WX WM) as (s1 & s2 & -> & E2 & S2 & V2).
  { intros i j Hi Hj. destruct (H i j Hi Hj) as (A & x & y & B & C). eauto. }
  destruct (fill_comp_full nearest linear cubic (vg f) (cy f) (vmsk f) (vuv f) GO WY WM) as (s3 & s4 & -> & E4 & S4 & V4).
  { intros i j Hi Hj. destruct (H i j Hi Hj) as (A & x & y & B & C). eauto. }
  cbn [bind]. rewrite E2, E4. cbn [bind]. unfold vf_set_comp_x, vf_set_comp_y, shape_is. destruct S2 as (A0 & A1), S4 as (B0 & B1). rewrite A0, A1, !Nat.eqb_refl. cbn [andb bind vg]. rewrite B0, B1, !Nat.eqb_refl. cbn [andb bind vg cx cy vuv].
  eexists. split; [reflexivity|]. split; [reflexivity|]. split; [reflexivity|]. split; [split; [split; assumption|split; [split; assumption|split; reflexivity]]|]. intros i j Hi Hj. cbn [vmsk cx cy afull at_]. auto.
Qed.
Lemma vavailables_are comp l u v i j a : (forall k f, nth_error l k = Some f -> vuv f = u /\ at_ (vmsk f) i j = false /\ at_ (comp f) i j = Some (v (a + k))) ->
  vavailables comp l i j = map (fun k => (v k * sc u)%num) (seq a (length l)).
Proof.
  revert a. induction l as [|f l IH]; intros a H; [reflexivity|]. unfold vavailables in *. cbn [flat_map length seq map].
  destruct (H 0 f eq_refl) as (U & M & R). rewrite Nat.add_0_r in R. unfold vavail at 1. rewrite M, R, U. cbn [app]. f_equal. apply IH.
  intros k h Hk. destruct (H (S k) h Hk) as (A & B & C). rewrite <- plus_n_Sm in C. auto.
Qed.
Lemma pairs_in (v : nat -> num) T x c m f d (i j : nat) u comp : (0 < sc u)%num -> vuv f = u -> vuv m = u -> x = (sumn T v / qn T)%num ->
  at_ (comp m) i j = Some x -> at_ (comp f) i j = Some (v c) -> comp_minus comp f m d i j -> at_ (comp d) i j = Some (deviation T v c).
Proof.
  intros G Uf Um Ex Em Ef (a & b & r & Ea & Eb & Ec & E). rewrite Ec. f_equal. rewrite Ef in Ea. injection Ea as <-. rewrite Em in Eb. injection Eb as <-. rewrite Uf, Um in E. subst x. unfold deviation. eapply cancel_minus; eauto.
Qed.
Lemma vf_decomposition asort nearest linear cubic solve root (t : tfield vfield) u v : is_argsort asort -> grid_ok2 (tfg t) -> tf_ok t -> increasing (tft t) ->
  good_unit (tfu t) -> good_unit u -> 2 <= length (tff t) -> vf_frames_are t u v ->
  (forall snaps, snapshots_are 2 (length (ax (tfg t))) (length (ay (tfg t))) (length (tff t)) snaps (fun k c i j => deviation (length (tff t)) (fun l => v l c i j) k) ->
     is_pod root 2 (length (ax (tfg t))) (length (ay (tfg t))) (length (tff t)) (fun k c i j => deviation (length (tff t)) (fun l => v l c i j) k) (solve snaps) /\ s_vals (solve snaps) <> []) ->
  exists mf ev vects t', modal_pod vf_mops asort nearest linear cubic solve root t WAll = Ok mf /\ base_ok mf ev vects /\ vf_base_ok mf /\
    reconstruct vf_mops asort mf WAll None = Ok t' /\ tfg t' = tfg t /\ tfu t' = tfu t /\ tft t' = tft t /\ length (tff t') = length (tff t) /\ vf_frames_are t' u v /\
    exists snaps N lam V, snapshots_are 2 (length (ax (tfg t))) (length (ay (tfg t))) (length (tff t)) snaps (fun k c i j => deviation (length (tff t)) (fun l => v l c i j) k) /\
      N <= length (tff t) /\ s_vals (solve snaps) = map lam (seq 0 N) /\ yv ev = map Some (map lam (seq 0 N)) /\ pod_facts root 2 (length (ax (tfg t))) (length (ay (tfg t))) (length (tff t)) (fun k c i j => deviation (length (tff t)) (fun l => v l c i j) k) N lam V /\
      Forall2 (vf_mode_is root (tfg t) (length (tff t)) (fun k c i j => deviation (length (tff t)) (fun l => v l c i j) k) lam V) (seq 0 N) (mf_modes mf) /\
      Forall2 (evo_is root (tft t) (length (tff t)) lam V) (seq 0 N) (mf_evo mf).

Proof.
  intros AS GO OK I GU Gu T2 FA SOL. set (T := length (tff t)) in *. set (nx := length (ax (tfg t))) in *. set (ny := length (ay (tfg t))) in *.
  assert (NE : tff t <> []) by (intro Hn; unfold T in T2; rewrite Hn in T2; cbn in T2; lia).
  assert (FI : forall f, In f (tff t) -> exists k, nth_error (tff t) k = Some f) by (intros; now apply In_nth_error).
  assert (MK : forall f, In f (tff t) -> forall i j, i < nx -> j < ny -> at_ (vmsk f) i j = false).
  { intros f If i j Hi Hj. destruct (FI f If) as (k & Hk). destruct (FA k f Hk) as (_ & _ & _ & C). now destruct (C i j Hi Hj). }
  pose proof (no_border vf_ops t NE MK) as E1.
  assert (FL : exists l2, mapM (m_fill vf_mops nearest linear cubic) (tff t) = Ok l2 /\ Forall2 (fun f f' => vg f' = vg f /\ vuv f' = vuv f /\ vf_wf f' /\
      forall i j, i < length (ax (vg f)) -> j < length (ay (vg f)) -> at_ (vmsk f') i j = false /\ at_ (cx f') i j = at_ (cx f) i j /\ at_ (cy f') i j = at_ (cy f) i j) (tff t) l2).
  { apply mapM_forall2_ex. intros f If. destruct (FI f If) as (k & Hk). destruct (FA k f Hk) as (W & G & _ & C). cbn [m_fill vf_mops]. apply vf_fill_full; [now rewrite G|exact W|].
    rewrite G. intros i j Hi Hj. destruct (C i j Hi Hj) as (A & B & D). eauto. }
  destruct FL as (l2 & EL & FL). set (t2 := mktf (tfg t) l2 (tfa t) (tft t) (tfu t)).
  assert (E2 : tf_fill_in vf_mops nearest linear cubic t = Ok t2) by (unfold tf_fill_in; rewrite EL; reflexivity).
  assert (FA2 : vf_frames_are t2 u v).
  { intros k f Hk. unfold t2 in Hk; cbn [tff] in Hk. destruct (forall2_nth _ _ _ FL k f Hk) as (h & Hh & Gf & Uf & Wf & Cf). destruct (FA k h Hh) as (_ & G & U & C). rewrite G in Cf. unfold t2; cbn [tfg].
    split; [exact Wf|]. split; [congruence|]. split; [congruence|]. intros i j Hi Hj. destruct (Cf i j Hi Hj) as (A & -> & ->). destruct (C i j Hi Hj) as (_ & B & D). auto. }
  assert (L2 : length (tff t2) = T) by (unfold t2; cbn [tff]; now rewrite <- (Forall2_len _ _ _ FL)).
  assert (NE2 : tff t2 <> []) by (intro Hn; rewrite Hn in L2; cbn in L2; lia).
  assert (FI2 : forall f, In f (tff t2) -> exists k, nth_error (tff t2) k = Some f) by (intros; now apply In_nth_error).
  assert (SO : vf_series_ok t2).
  { split; [exact GO|]. split; [|split].
    - intros f If. destruct (FI2 f If) as (k & Hk). now destruct (FA2 k f Hk) as (_ & G & _).
    - intros f If. destruct (FI2 f If) as (k & Hk). destruct (FA2 k f Hk) as (W & G & U & C). split; [exact W|]. split; [|now rewrite U].
      intros x y w w' m (i & j & Ai & Aj & Ew & Ew' & Em). pose proof (nth_error_Some_lt _ _ _ Ai) as Hi. pose proof (nth_error_Some_lt _ _ _ Aj) as Hj. rewrite G in Hi, Hj.
      destruct (C i j Hi Hj) as (Mm & R & R'). rewrite <- Ew, <- Ew', <- Em, Mm, R, R'. split; split; discriminate.
    - intros f h If Ih. destruct (FI2 f If) as (k & Hk). destruct (FI2 h Ih) as (k' & Hk'). destruct (FA2 k f Hk) as (_ & _ & U & _). destruct (FA2 k' h Hk') as (_ & _ & U' & _). congruence. }
  assert (OK2 : tf_ok t2) by (destruct OK as (A & B); split; [unfold t2 at 1; cbn [tft]; rewrite L2; exact A|exact B]).
  destruct (tf_mean_vf t2 1 SO NE2 ltac:(lia)) as (m & Em & Gm & Wm & (f0 & r & E0 & Um) & Hm).
  destruct (tf_fluct_vf asort t2 1 AS SO OK2 I GU NE2 ltac:(lia)) as (m' & fl & Em' & Efl & OKfl & Gfl & Ufl & EF & _).
  rewrite Em in Em'. injection Em' as <-. destruct (each_frame_times _ _ _ OK2 OKfl EF) as (Tfl & FF). clear EF.
  assert (Uu : vuv m = u). { destruct (FA2 0 f0) as (_ & _ & U & _); [rewrite E0; reflexivity|congruence]. }
  assert (MV : forall i j, i < nx -> j < ny -> at_ (vmsk m) i j = false /\ at_ (cx m) i j = Some (sumn T (fun l => v l 0%nat i j) / qn T)%num /\ at_ (cy m) i j = Some (sumn T (fun l => v l 1%nat i j) / qn T)%num).
  { intros i j Hi Hj. assert (AV : vavailables cx (tff t2) i j = map (fun k => (v k 0%nat i j * sc u)%num) (seq 0 T) /\ vavailables cy (tff t2) i j = map (fun k => (v k 1%nat i j * sc u)%num) (seq 0 T)).
    { split; [rewrite (vavailables_are cx (tff t2) u (fun k => v k 0 i j) i j 0), L2|rewrite (vavailables_are cy (tff t2) u (fun k => v k 1 i j) i j 0), L2]; try reflexivity; intros k f Hk; destruct (FA2 k f Hk) as (_ & _ & U & C); destruct (C i j Hi Hj) as (? & ? & ?); auto. }
    destruct AV as (AX & AY). destruct (Hm i j Hi Hj) as (H1 & _ & H2). rewrite AX in H1, H2. rewrite AY in H2. rewrite map_length, seq_length in H1.
    assert (Mf : at_ (vmsk m) i j = false) by (destruct (at_ (vmsk m) i j); [destruct H1 as (H1 & _); specialize (H1 eq_refl); lia|reflexivity]).
    split; [exact Mf|]. destruct (H2 Mf) as ((x & Ex & Hx) & (y & Ey & Hy)). rewrite Ex, Ey. rewrite map_length, seq_length, Uu in Hx, Hy. split; f_equal; eapply average_value; try eassumption; lia. }
  set (s := fun (k c i j : nat) => deviation T (fun l => v l c i j) k).
  assert (Lfl : length (tff fl) = T) by (rewrite <- (Forall2_len _ _ _ FF); exact L2).
  assert (DV : forall k d, nth_error (tff fl) k = Some d -> vg d = tfg t /\ vuv d = u /\ vf_wf d /\ forall i j, i < nx -> j < ny -> at_ (vmsk d) i j = false /\ at_ (cx d) i j = Some (s k 0 i j) /\ at_ (cy d) i j = Some (s k 1 i j)).
  { intros k d Hd. destruct (forall2_nth _ _ _ FF k d Hd) as (f & Hf & (Gd & Ud & Wd & Vd)). destruct (FA2 k f Hf) as (_ & G & U & C). rewrite G in Gd, Vd. split; [exact Gd|]. split; [congruence|]. split; [exact Wd|].
    intros i j Hi Hj. destruct (Vd i j Hi Hj) as (Md & Cd). destruct (C i j Hi Hj) as (Mf & Rf & Rf'). destruct (MV i j Hi Hj) as (Mm & Vm & Vm'). rewrite Mf, Mm in Md. cbn in Md. split; [exact Md|].
    destruct (Cd Md) as (Cx & Cy). split; [exact (pairs_in (fun l => v l 0 i j) T _ k m f d i j u cx Gu U Uu eq_refl Vm Rf Cx)|exact (pairs_in (fun l => v l 1 i j) T _ k m f d i j u cy Gu U Uu eq_refl Vm' Rf' Cy)]. }
  assert (SN : snapshots_are 2 nx ny T (map (m_comps vf_mops) (tff fl)) s).
  { split; [now rewrite map_length|]. intros k Hk. destruct (nth_error_ex (tff fl) k ltac:(lia)) as (d & Hd). exists [cx d; cy d]. rewrite nth_error_map, Hd. split; [reflexivity|]. split; [reflexivity|].
    destruct (DV k d Hd) as (Gd & _ & (WX & WY & _) & C). rewrite Gd in WX, WY. intros c Hc. destruct c as [|[|c]]; [exists (cx d)|exists (cy d)|lia]; (split; [reflexivity|]); (split; [assumption|]); intros i j Hi Hj; now apply C. }
  destruct (SOL _ SN) as ((N & lam & V & LN & SV & SW & ORT & COL & EIG & RT & NUL & MO) & NV). set (sol := solve (map (m_comps vf_mops) (tff fl))) in *.
  assert (HN : 1 <= N) by (destruct N; [rewrite SV in NV; now destruct NV|lia]).
  destruct (tff fl) as [|d dr] eqn:Efl'; [cbn in Lfl; lia|].
  assert (FIfl : forall f, In f (tff fl) -> exists k, nth_error (tff fl) k = Some f) by (intros; now apply In_nth_error).
  assert (CUM : forall i j, i < nx -> j < ny -> at_ (tf_mask_cum vf_ops fl) i j = false).
  { intros i j Hi Hj. apply nothing_cum; [rewrite Efl'; discriminate| |rewrite Gfl; exact Hi|rewrite Gfl; exact Hj]. intros f If i' j' Hi' Hj'. destruct (FIfl f If) as (k & Hk). rewrite Efl' in Hk. rewrite Gfl in Hi', Hj'.
    destruct (DV k f Hk) as (_ & _ & _ & C). now destruct (C i' j' Hi' Hj'). }
  assert (Ud : vuv d = u) by (destruct (DV 0 d eq_refl) as (_ & U & _); exact U).
  pose proof GO as ((Ix & Iy) & X2 & Y2).
  set (P := fun (n : nat) (f : vfield) => vg f = tfg t /\ vf_wf f /\ forall i j, i < nx -> j < ny -> at_ (vmsk f) i j = false /\
     at_ (cx f) i j = Some (sumn T (fun k => s k 0%nat i j * V k n) / root (lam n))%num /\ at_ (cy f) i j = Some (sumn T (fun k => s k 1%nat i j * V k n) / root (lam n))%num).
  assert (IMP : forall n, n < N -> exists f, m_import vf_mops (tfg fl) (s_mode sol n) (tf_mask_cum (m_ops vf_mops) fl) (m_unit vf_mops d) = Ok f /\ P n f).
  { intros n Hn. destruct (MO n Hn) as (L1 & Ma). destruct (Ma 0 ltac:(lia)) as (a & Ea & Sa & Ca). destruct (Ma 1 ltac:(lia)) as (b & Eb & Sb & Cb).
    destruct (s_mode sol n) as [|a' [|b' [|? ?]]]; try discriminate L1. cbn in Ea, Eb. injection Ea as ->. injection Eb as ->.
    cbn [m_import vf_mops m_ops m_unit]. rewrite Gfl. unfold t2; cbn [tfg].
    destruct (vf_import_plain (ax (tfg t)) (ay (tfg t)) a b (tf_mask_cum vf_ops fl) (ux (tfg t)) (uy (tfg t)) (vuv d) Ix Iy X2 Y2 Sa Sb) as (f & Ef & (Gf & _ & Wf) & Cf).
    { split; cbn [tf_mask_cum d0 d1]; rewrite Gfl; reflexivity. }
    exists f. split; [exact Ef|]. split; [rewrite Gf; apply grid_eta|]. split; [exact Wf|]. intros i j Hi Hj. destruct (Cf i j) as (A & B & D). rewrite (CUM i j Hi Hj), (Ca i j Hi Hj), (Cb i j Hi Hj) in A, B, D. cbn in A, B, D. auto. }
  destruct (modal_run vf_mops asort nearest linear cubic solve root t t t2 fl m d dr lam V N P E1 E2 Em Efl Efl') as (fmodes & evo & ev & EM & FP & FE & Oev & Xev & Yev); auto.
  { rewrite Tfl. destruct OK as (A & _). exact A. }
  { apply OKfl. }
  { unfold sol in SV. rewrite Efl'. exact SV. }
  { unfold sol in SW. rewrite Efl'. exact SW. }
  { rewrite Efl'. exact IMP. }
  rewrite Efl' in EM. fold sol in EM.
  match type of EM with _ = Ok ?x => set (mf := x) in * end.
  assert (Lm := Forall2_len _ _ _ FP). rewrite seq_length in Lm. assert (Le := Forall2_len _ _ _ FE). rewrite seq_length in Le.
  assert (TT : mf_times mf = tft t) by (cbn; exact Tfl).
  assert (BO : base_ok mf ev (s_vects sol)).
  { unfold base_ok. cbn zeta. cbn [mf mf_kind mf_modes mf_nmb mf_evo mf_times mf_eigvals mf_eigvects]. rewrite <- Lm.
    split; [reflexivity|]. split; [destruct fmodes; [cbn in Lm; lia|discriminate]|]. split; [unfold arange0; now rewrite map_length, seq_length, Nat2Z.id|]. split; [congruence|].
    split; [rewrite Tfl; exact I|]. split; [rewrite Tfl; destruct OK as (A & _); intro Hn; cbn [t2 tft] in Hn; rewrite Hn in A; cbn in A; fold T in A; lia|].
    split. { intros p Ip. apply In_nth_error in Ip. destruct Ip as (k & Hk). destruct (forall2_nth _ _ _ FE k p Hk) as (n & _ & Op & Xp & _). auto. }
    split; [reflexivity|]. split; [exact Oev|]. split; [rewrite Xev; apply incr_qz|]. split; [rewrite Xev; unfold arange0; now rewrite !map_length, seq_length, Nat2Z.id|].
    split; [reflexivity|]. split; [rewrite SW, map_length, seq_length, Tfl; destruct OK as (A & _); symmetry; exact A|].
    split. { intros rw Ir. rewrite SW in Ir. apply in_map_iff in Ir. destruct Ir as (k & <- & _). now rewrite map_length, seq_length. }
    rewrite Tfl. destruct OK as (A & _). cbn [t2 tft]. rewrite A. exact LN. }
  assert (SB : vf_base_ok mf).
  { split; [cbn [mf mf_g m_ops vf_mops o_grid vf_ops]; rewrite Gm; exact GO|]. split; [reflexivity|]. split; [reflexivity|]. split; [exact Wm|]. split.
    - intros f If. cbn [mf mf_modes] in If. apply In_nth_error in If. destruct If as (k & Hk). destruct (forall2_nth _ _ _ FP k f Hk) as (n & _ & Gf & Wf & _). split; [|exact Wf]. cbn. rewrite Gf, Gm. reflexivity.
    - cbn. rewrite Ufl. exact GU. }
  destruct (vf_reconstruct_lemma asort mf WAll (seq 0 N) (mf_times mf) AS (base_ok_core _ _ _ BO) SB) as (m0 & t' & fs & E0' & ER & G' & U' & FR & HO).
  { cbn [selects]. cbn [mf mf_modes]. now rewrite Lm. }
  { unfold times_in. rewrite TT. destruct OK as (A & _). assert (NT : tft t <> []) by (intro Hn; rewrite Hn in A; cbn in A; fold T in A; lia). split; [exact NT|]. intros x Hx. apply In_nth with (d := qz 0) in Hx. destruct Hx as (k & Hk & <-).
    rewrite (last_nths _ NT). split; [destruct k; [apply Qcle_refl|apply Qclt_le_weak; apply I; lia]|]. destruct (Nat.eq_dec k (length (tft t) - 1)) as [-> |]; [apply Qcle_refl|apply Qclt_le_weak; apply I; lia]. }
  destruct HO as (OK' & Lfs & _ & HO). destruct HO as (Tt' & Ft'); [rewrite TT; exact I|].
  exists mf, ev, (s_vects sol), t'. split; [exact EM|]. split; [exact BO|]. split; [exact SB|]. split; [exact ER|].
  assert (Gt' : tfg t' = tfg t) by (rewrite G'; cbn; rewrite Gm; reflexivity).
  split; [exact Gt'|]. split; [rewrite U'; cbn; rewrite Ufl; reflexivity|]. split; [congruence|]. split; [rewrite Ft', Lfs, TT; destruct OK as (A & _); exact A|].
  split.
  2:{ exists (map (m_comps vf_mops) (d :: dr)), N, lam, V. split; [exact SN|]. split; [exact LN|]. split; [exact SV|]. split; [exact Yev|]. split; [unfold pod_facts; auto 10|]. split; [exact FP|].
      change (mf_evo mf) with evo. clear -FE Tfl. induction FE as [|n p l evo (A & B & _ & C) F IH]; constructor; [|exact IH]. split; [exact A|]. split; [rewrite B; exact Tfl|exact C]. }
  intros k f Hf. rewrite Ft' in Hf. destruct (forall2_nth _ _ _ FR k f Hf) as (x & Hx & (Gf & Uf & Wf & modes & evos & cs & T1 & T2' & FC & CL)).
  rewrite Gt'. split; [exact Wf|]. split; [rewrite Gf; cbn; rewrite Gm; reflexivity|]. split; [rewrite Uf; exact Uu|]. intros i j Hi Hj.
  assert (Gmf : mf_g mf = tfg t) by (cbn; rewrite Gm; reflexivity). rewrite Gmf in CL. destruct (CL i j Hi Hj) as (CM & CX & CY). clear CL.
  assert (modes = fmodes) as ->. { apply taken_seq_firstn in T1. rewrite T1. cbn [mf mf_modes]. rewrite Lm. apply firstn_all. }
  assert (evos = evo) as ->. { apply taken_seq_firstn in T2'. rewrite T2'. cbn [mf mf_evo]. rewrite Le. apply firstn_all. }
  assert (HkT : k < T). { apply nth_error_Some_lt in Hx. rewrite TT in Hx. destruct OK as (A & _). unfold T. lia. }
  assert (EC : cs = map (fun n => Some (V k n * root (lam n))%num) (seq 0 N)).
  { apply (coeffs_are evo cs x k N T (tft fl) (fun k n => V k n * root (lam n))%num); [rewrite Tfl; exact I|exact Hx|exact HkT| |exact FC].
    clear -FE. induction FE as [|n p l evo (A & B & _ & C) F IH]; constructor; auto. }
  assert (EMx : map (fun mo => at_ (cx mo) i j) fmodes = map (fun n => Some (sumn T (fun k => s k 0%nat i j * V k n) / root (lam n))%num) (seq 0 N)).
  { clear -FP Hi Hj. induction FP as [|n f l fm (_ & _ & C) F IH]; [reflexivity|]. cbn [map]. rewrite IH. f_equal. now destruct (C i j Hi Hj) as (_ & ? & _). }
  assert (EMy : map (fun mo => at_ (cy mo) i j) fmodes = map (fun n => Some (sumn T (fun k => s k 1%nat i j * V k n) / root (lam n))%num) (seq 0 N)).
  { clear -FP Hi Hj. induction FP as [|n f l fm (_ & _ & C) F IH]; [reflexivity|]. cbn [map]. rewrite IH. f_equal. now destruct (C i j Hi Hj) as (_ & _ & ?). }
  destruct (MV i j Hi Hj) as (Mm & Vx & Vy). change (mf_mean mf) with m in CM, CX, CY. rewrite Vx in CM, CX. rewrite Vy in CM, CY.
  rewrite (recon_cell N _ _ _ _ _ EMx EC) in CM, CX. rewrite (recon_cell N _ _ _ _ _ EMy EC) in CM, CY.
  rewrite (pod_algebra 2 nx ny T N s lam V root LN ORT EIG RT NUL k 0 i j HkT ltac:(lia) Hi Hj) in CX.
  rewrite (pod_algebra 2 nx ny T N s lam V root LN ORT EIG RT NUL k 1 i j HkT ltac:(lia) Hi Hj) in CY.
  assert (M00 : at_ (vmsk m0) i j = false).
  { cbn [mf mf_modes] in E0'. destruct (forall2_nth _ _ _ FP 0 m0 E0') as (n & _ & _ & _ & C). now destruct (C i j Hi Hj). }
  rewrite M00 in CM. cbn [orb isnan] in CM. rewrite CM in CX, CY. split; [exact CM|]. rewrite CX, CY. split; f_equal; unfold s, deviation; qring.
Qed.
