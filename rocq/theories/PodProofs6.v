(** * PodProofs6: round trip of a series of scalar fields *)
From Coq Require Import Sorted Permutation Lia.
From Verif Require Import Num Res ListLib SortLib Arr FieldModel ScalarFieldModel VectorFieldModel ProfileModel FieldSpec SeqSpec
  ProfileSpec ProfileProofs ProfileProofs2 PointsModel PointsSpec FieldProofs2 TemporalModel TemporalSpec TemporalProofs2 TemporalProofs5 TemporalProofs10 GradModel GradProofs2 PodModel PodSpec PodProofs PodProofs2 PodProofs3 PodProofs4 PodProofs5.

Lemma nothing_cum {F} (ops : fops F) (t : tfield F) : tff t <> [] ->
  (forall f, In f (tff t) -> forall i j, i < length (ax (tfg t)) -> j < length (ay (tfg t)) -> at_ (o_mask ops f) i j = false) ->
  forall i j, i < length (ax (tfg t)) -> j < length (ay (tfg t)) -> at_ (tf_mask_cum ops t) i j = false.
Proof. intros NE H i j Hi Hj. cbn. destruct (tff t) as [|f l]; [congruence|]. cbn [forallb]. rewrite (H f (or_introl eq_refl) i j Hi Hj). reflexivity. Qed.
Lemma no_border {F} (ops : fops F) (t : tfield F) : tff t <> [] ->
  (forall f, In f (tff t) -> forall i j, i < length (ax (tfg t)) -> j < length (ay (tfg t)) -> at_ (o_mask ops f) i j = false) -> tf_crop_border ops t = Ok t.
Proof.
  intros NE H. unfold tf_crop_border. assert (existsb (fun b => b) (flatten (tf_mask_cum ops t)) = false) as ->; [|reflexivity].
  destruct (existsb (fun b => b) (flatten (tf_mask_cum ops t))) eqn:E; [|reflexivity]. apply existsb_exists in E. destruct E as (b & Ib & Eb).
  unfold flatten in Ib. apply in_map_iff in Ib. destruct Ib as ([i j] & <- & Ii). apply in_aidx in Ii. cbn [fst snd] in Eb. rewrite (nothing_cum ops t NE H) in Eb; [discriminate|apply Ii|apply Ii].
Qed.
Lemma sf_fill_full nearest linear cubic f : sf_wf f -> (forall i j, i < length (ax (sg f)) -> j < length (ay (sg f)) -> at_ (msk f) i j = false) ->
  sf_fill_in nearest linear cubic f = Ok (mksf (sg f) (values f) (afull (length (ax (sg f))) (length (ay (sg f))) false) (uv f)).
Proof.
  intros ((W0 & W1) & (M0 & M1)) H. unfold sf_fill_in. assert (any_masked f = false) as ->.
  { rewrite any_masked_false, M0, M1. exact H. }
  cbn [negb]. unfold set_values, set_mask_bool, set_mask, shape_is. cbn [values d0 d1]. rewrite W0, W1, !Nat.eqb_refl. cbn [andb bind sg afull d0 d1 raw uv]. rewrite !Nat.eqb_refl. reflexivity.
Qed.
Lemma forall2_nth {A B} (R : A -> B -> Prop) l m : Forall2 R l m -> forall k b, nth_error m k = Some b -> exists a, nth_error l k = Some a /\ R a b.
Proof. intros H k b E. eapply forall2_at; eauto. Qed.
Lemma forall2_nth_l {A B} (R : A -> B -> Prop) l m : Forall2 R l m -> forall k a, nth_error l k = Some a -> exists b, nth_error m k = Some b /\ R a b.
Proof. induction 1 as [|x y l m H F IH]; intros [|k] a E; try discriminate E; cbn in *; [injection E as <-; eauto|now apply IH]. Qed.
Lemma mapM_seq_lists {A B} (f : A -> res B) (g : A -> B) l : (forall a, In a l -> f a = Ok (g a)) -> mapM f l = Ok (map g l).
Proof. intro H. rewrite <- mapM_ok. now apply mapM_ext_in. Qed.
Lemma availables_are l u v i j a : (forall k f, nth_error l k = Some f -> uv f = u /\ at_ (msk f) i j = false /\ at_ (raw f) i j = Some (v (a + k))) ->
  availables l i j = map (fun k => (v k * sc u)%num) (seq a (length l)).
Proof.
  revert a. induction l as [|f l IH]; intros a H; [reflexivity|]. unfold availables in *. cbn [flat_map length seq map].
  destruct (H 0 f eq_refl) as (U & M & R). rewrite Nat.add_0_r in R. unfold avail at 1. rewrite M. cbn [values at_]. rewrite M, R, U. cbn [app]. f_equal. apply IH.
  intros k h Hk. destruct (H (S k) h Hk) as (A & B & C). rewrite <- plus_n_Sm in C. auto.
Qed.
Lemma average_value (v : nat -> num) u T x : (0 < sc u)%num -> 0 < T -> (x * sc u * qn T = total (map (fun k => v k * sc u) (seq 0 T)))%num -> x = (sumn T v / qn T)%num.
Proof.
  intros S HT E. rewrite total_sumn, sumn_mul_r in E. pose proof (qn_pos T HT) as P. assert (N1 : sc u <> 0%num) by now apply qgt_neq. assert (N2 : qn T <> 0%num) by now apply qgt_neq.
  assert (E2 : (x * qn T = sumn T v)%num).
  { rewrite <- (qmul_div (x * qn T)%num (sc u) N1), <- (qmul_div (sumn T v) (sc u) N1). f_equal. rewrite <- E. qring. }
  rewrite <- E2. now rewrite qmul_div.
Qed.
Lemma cancel_minus (a b c k : num) : (0 < k)%num -> (c * k = a * k - b * k)%num -> c = (a - b)%num.
Proof.
  intros K E. assert (N : k <> 0%num) by now apply qgt_neq. rewrite <- (qmul_div c k N), E, <- (qmul_div (a - b)%num k N). f_equal. qring.
Qed.
Lemma recon_cell N m mo co cells cs : cells = map (fun n => Some (mo n)) (seq 0 N) -> cs = map (fun n => Some (co n)) (seq 0 N) ->
  combination (Some m) (combine cells cs) = Some (m + sumn N (fun n => mo n * co n))%num.
Proof.
  intros -> ->. unfold combination. assert (G : forall l, numbers (combine (map (fun n => Some (mo n)) l) (map (fun n => Some (co n)) l)) = Some (map (fun n => (mo n, co n)) l)).
  { induction l as [|a l IH]; [reflexivity|]. cbn [map combine numbers]. rewrite IH. reflexivity. }
  rewrite G, map_map. cbn [fst snd]. now rewrite total_sumn.
Qed.
Lemma coeffs_are evo cs t k N T (ts : list num) (co : nat -> nat -> num) : increasing ts -> nth_error ts k = Some t -> k < T ->
  Forall2 (fun n p => prof_ok p /\ px p = ts /\ yv p = map Some (map (fun k => co k n) (seq 0 T))) (seq 0 N) evo ->
  Forall2 (fun p c => evo_at p t c) evo cs -> cs = map (fun n => Some (co k n)) (seq 0 N).
Proof.
  intros I Et Hk F. revert cs. induction F as [|n p l evo (_ & X & Y) F IH]; intros cs H; inversion H; subst; [reflexivity|]. cbn [map]. f_equal; [|now apply IH].
  eapply evo_at_fun; [|eassumption|]; [exact I|]. left. exists k. split; [exact Et|]. rewrite Y, map_map, nth_error_map, (nth_error_nth' _ 0), seq_nth by (rewrite ?seq_length; lia). reflexivity.
Qed.
Lemma each_frame_times {F} (R : F -> F -> Prop) (t t' : tfield F) : tf_ok t -> tf_ok t' -> each_frame R t t' -> tft t' = tft t /\ Forall2 R (tff t) (tff t').
Proof.
  intros (L & _) (L' & _) H. unfold each_frame, frames in H. revert L L' H. generalize (tft t), (tft t'), (tff t), (tff t'). intros a b f g.
  revert b f g. induction a as [|x a IH]; intros b f g L L' H.
  - destruct f; [|discriminate L]. cbn in H. destruct b as [|y b]; [destruct g; [auto|discriminate L']|]. destruct g; [discriminate L'|inversion H].
  - destruct f as [|f0 f]; [discriminate L|]. cbn in H. destruct b as [|y b]; [inversion H|]. destruct g as [|g0 g]; [inversion H|]. cbn in H. inversion H as [|? ? ? ? (E & R1) H2]; subst. cbn in E, R1.
    destruct (IH b f g) as (E2 & F2); [now injection L|now injection L'|exact H2|]. split; [congruence|now constructor].
Qed.
Lemma sf_decomposition asort nearest linear cubic solve root (t : tfield sfield) u v : is_argsort asort -> grid_ok2 (tfg t) -> tf_ok t -> increasing (tft t) ->
  good_unit (tfu t) -> good_unit u -> 2 <= length (tff t) -> sf_frames_are t u v ->
  (forall snaps, snapshots_are 1 (length (ax (tfg t))) (length (ay (tfg t))) (length (tff t)) snaps (fun k _ i j => deviation (length (tff t)) (fun l => v l i j) k) ->
     is_pod root 1 (length (ax (tfg t))) (length (ay (tfg t))) (length (tff t)) (fun k _ i j => deviation (length (tff t)) (fun l => v l i j) k) (solve snaps) /\ s_vals (solve snaps) <> []) ->
  exists mf ev vects t', modal_pod sf_mops asort nearest linear cubic solve root t WAll = Ok mf /\ base_ok mf ev vects /\ sf_base_ok mf /\
    reconstruct sf_mops asort mf WAll None = Ok t' /\ tfg t' = tfg t /\ tfu t' = tfu t /\ tft t' = tft t /\ length (tff t') = length (tff t) /\ sf_frames_are t' u v /\
    exists snaps N lam V, snapshots_are 1 (length (ax (tfg t))) (length (ay (tfg t))) (length (tff t)) snaps (fun k _ i j => deviation (length (tff t)) (fun l => v l i j) k) /\
      N <= length (tff t) /\ s_vals (solve snaps) = map lam (seq 0 N) /\ yv ev = map Some (map lam (seq 0 N)) /\ pod_facts root 1 (length (ax (tfg t))) (length (ay (tfg t))) (length (tff t)) (fun k _ i j => deviation (length (tff t)) (fun l => v l i j) k) N lam V /\
      Forall2 (sf_mode_is root (tfg t) (length (tff t)) (fun k _ i j => deviation (length (tff t)) (fun l => v l i j) k) lam V) (seq 0 N) (mf_modes mf) /\
      Forall2 (evo_is root (tft t) (length (tff t)) lam V) (seq 0 N) (mf_evo mf).

Proof.
  intros AS GO OK I GU Gu T2 FA SOL. set (T := length (tff t)) in *. set (nx := length (ax (tfg t))) in *. set (ny := length (ay (tfg t))) in *.
  assert (NE : tff t <> []) by (intro Hn; unfold T in T2; rewrite Hn in T2; cbn in T2; lia).
  assert (FI : forall f, In f (tff t) -> exists k, nth_error (tff t) k = Some f) by (intros; now apply In_nth_error).
  assert (MK : forall f, In f (tff t) -> forall i j, i < nx -> j < ny -> at_ (msk f) i j = false).
  { intros f If i j Hi Hj. destruct (FI f If) as (k & Hk). destruct (FA k f Hk) as (_ & _ & _ & C). now destruct (C i j Hi Hj). }
  pose proof (no_border sf_ops t NE MK) as E1.
  set (fi := fun f => mksf (sg f) (values f) (afull (length (ax (sg f))) (length (ay (sg f))) false) (uv f)).
  set (t2 := mktf (tfg t) (map fi (tff t)) (tfa t) (tft t) (tfu t)).
  assert (E2 : tf_fill_in sf_mops nearest linear cubic t = Ok t2).
  { unfold tf_fill_in. rewrite (mapM_seq_lists _ fi); [reflexivity|]. intros f If. destruct (FI f If) as (k & Hk). destruct (FA k f Hk) as (W & G & _). cbn [m_fill sf_mops].
    apply sf_fill_full; [exact W|]. rewrite G. now apply MK. }
  assert (FA2 : sf_frames_are t2 u v).
  { intros k f Hk. cbn [t2 tff] in Hk. rewrite nth_error_map in Hk. destruct (nth_error (tff t) k) as [h|] eqn:Eh; [|discriminate]. cbn in Hk. injection Hk as <-.
    destruct (FA k h Eh) as (((W0 & W1) & _) & G & U & C). cbn [fi sg uv t2 tfg]. split; [split; split; cbn; congruence|]. split; [exact G|]. split; [exact U|]. intros i j Hi Hj.
    destruct (C i j Hi Hj) as (Mm & R). cbn. rewrite Mm. auto. }
  assert (NE2 : tff t2 <> []) by (cbn; destruct (tff t); [congruence|discriminate]).
  assert (L2 : length (tff t2) = T) by (cbn; now rewrite map_length).
  assert (SO : sf_series_ok t2).
  { assert (FI2 : forall f, In f (tff t2) -> exists k, nth_error (tff t2) k = Some f) by (intros; now apply In_nth_error).
    split; [exact GO|]. split; [|split].
    - intros f If. destruct (FI2 f If) as (k & Hk). now destruct (FA2 k f Hk) as (_ & G & _).
    - intros f If. destruct (FI2 f If) as (k & Hk). destruct (FA2 k f Hk) as (W & G & U & C). split; [exact W|]. split; [|now rewrite U].
      intros x y w m (i & j & Ai & Aj & Ew & Em). pose proof (nth_error_Some_lt _ _ _ Ai) as Hi. pose proof (nth_error_Some_lt _ _ _ Aj) as Hj. rewrite G in Hi, Hj.
      destruct (C i j Hi Hj) as (Mm & R). rewrite <- Ew, <- Em. cbn. rewrite Mm, R. split; discriminate.
    - intros f h If Ih. destruct (FI2 f If) as (k & Hk). destruct (FI2 h Ih) as (k' & Hk'). destruct (FA2 k f Hk) as (_ & _ & U & _). destruct (FA2 k' h Hk') as (_ & _ & U' & _). congruence. }
  assert (OK2 : tf_ok t2) by (destruct OK as (A & B); split; cbn; [now rewrite map_length|exact B]).
  destruct (tf_mean_sf t2 1 SO NE2 ltac:(lia)) as (m & Em & Gm & Wm & Cm & (f0 & r & E0 & Um) & Hm).
  destruct (tf_fluct_sf asort t2 1 AS SO OK2 I GU NE2 ltac:(lia)) as (m' & fl & Em' & Efl & OKfl & Gfl & Ufl & EF & _).
  rewrite Em in Em'. injection Em' as <-. destruct (each_frame_times _ _ _ OK2 OKfl EF) as (Tfl & FF). clear EF.
  assert (Uu : uv m = u). { destruct (FA2 0 f0) as (_ & _ & U & _); [rewrite E0; reflexivity|congruence]. }
  assert (MV : forall i j, i < nx -> j < ny -> at_ (msk m) i j = false /\ at_ (values m) i j = Some (sumn T (fun l => v l i j) / qn T)%num).
  { intros i j Hi Hj. assert (AV : availables (tff t2) i j = map (fun k => (v k i j * sc u)%num) (seq 0 T)).
    { rewrite (availables_are (tff t2) u (fun k => v k i j) i j 0), L2; [reflexivity|]. intros k f Hk. destruct (FA2 k f Hk) as (_ & _ & U & C). destruct (C i j Hi Hj). auto. }
    destruct (Hm i j Hi Hj) as (H1 & H2). rewrite AV in H1, H2. rewrite map_length, seq_length in H1.
    assert (Mf : at_ (msk m) i j = false) by (destruct (at_ (msk m) i j); [destruct H1 as (H1 & _); specialize (H1 eq_refl); lia|reflexivity]).
    split; [exact Mf|]. destruct (H2 Mf) as (x & Ex & Hx). rewrite Ex. f_equal. rewrite map_length, seq_length, Uu in Hx. eapply average_value; [exact Gu|lia|exact Hx]. }
  set (s := fun (k c i j : nat) => deviation T (fun l => v l i j) k).
  assert (Lfl : length (tff fl) = T) by (rewrite <- (Forall2_len _ _ _ FF); exact L2).
  assert (DV : forall k d, nth_error (tff fl) k = Some d -> sg d = tfg t /\ uv d = u /\ sf_wf d /\ forall i j, i < nx -> j < ny -> at_ (msk d) i j = false /\ at_ (values d) i j = Some (s k 0 i j)).
  { intros k d Hd. destruct (forall2_nth _ _ _ FF k d Hd) as (f & Hf & (Gd & Ud & Wd & Vd)). destruct (FA2 k f Hf) as (_ & G & U & C). rewrite G in Gd, Vd. split; [exact Gd|]. split; [congruence|]. split; [exact Wd|].
    intros i j Hi Hj. destruct (Vd i j Hi Hj) as (Md & Cd). destruct (C i j Hi Hj) as (Mf & Rf). destruct (MV i j Hi Hj) as (Mm & Vm). rewrite Mf, Mm in Md. cbn in Md. split; [exact Md|].
    destruct (Cd Md) as (a & b & c & Ea & Eb & Ec & E). rewrite Ec. f_equal. rewrite Vm in Eb. injection Eb as <-. cbn [values at_] in Ea. rewrite Mf, Rf in Ea. injection Ea as <-. rewrite U, Uu in E.
    unfold s, deviation. eapply cancel_minus; [exact Gu|exact E]. }
  assert (SN : snapshots_are 1 nx ny T (map (m_comps sf_mops) (tff fl)) s).
  { split; [now rewrite map_length|]. intros k Hk. destruct (nth_error_ex (tff fl) k ltac:(lia)) as (d & Hd). exists [values d]. rewrite nth_error_map, Hd. split; [reflexivity|]. split; [reflexivity|].
    intros c Hc. replace c with 0 by lia. exists (values d). split; [reflexivity|]. destruct (DV k d Hd) as (Gd & _ & ((W0 & W1) & _) & C). rewrite Gd in W0, W1. split; [split; [exact W0|exact W1]|]. intros i j Hi Hj. now apply C. }
  destruct (SOL _ SN) as ((N & lam & V & LN & SV & SW & ORT & COL & EIG & RT & NUL & MO) & NV). set (sol := solve (map (m_comps sf_mops) (tff fl))) in *.
  assert (HN : 1 <= N) by (destruct N; [rewrite SV in NV; now destruct NV|lia]).
  destruct (tff fl) as [|d dr] eqn:Efl'; [cbn in Lfl; lia|].
  assert (FIfl : forall f, In f (tff fl) -> exists k, nth_error (tff fl) k = Some f) by (intros; now apply In_nth_error).
  assert (CUM : forall i j, i < nx -> j < ny -> at_ (tf_mask_cum sf_ops fl) i j = false).
  { intros i j Hi Hj. apply nothing_cum; [rewrite Efl'; discriminate| |rewrite Gfl; exact Hi|rewrite Gfl; exact Hj]. intros f If i' j' Hi' Hj'. destruct (FIfl f If) as (k & Hk). rewrite Efl' in Hk. rewrite Gfl in Hi', Hj'.
    destruct (DV k f Hk) as (_ & _ & _ & C). now destruct (C i' j' Hi' Hj'). }
  assert (Ud : uv d = u) by (destruct (DV 0 d eq_refl) as (_ & U & _); exact U).
  pose proof GO as ((Ix & Iy) & X2 & Y2).
  set (P := fun (n : nat) (f : sfield) => sg f = tfg t /\ sf_wf f /\ forall i j, i < nx -> j < ny -> at_ (msk f) i j = false /\ at_ (values f) i j = Some (sumn T (fun k => s k 0%nat i j * V k n) / root (lam n))%num).
  assert (IMP : forall n, n < N -> exists f, m_import sf_mops (tfg fl) (s_mode sol n) (tf_mask_cum (m_ops sf_mops) fl) (m_unit sf_mops d) = Ok f /\ P n f).
  { intros n Hn. destruct (MO n Hn) as (L1 & Ma). destruct (Ma 0 ltac:(lia)) as (a & Ea & (A0 & A1) & Ca). destruct (s_mode sol n) as [|a' [|? ?]]; try discriminate L1. cbn in Ea. injection Ea as ->.
    cbn [m_import sf_mops m_ops m_unit]. rewrite Gfl. unfold t2; cbn [tfg]. rewrite (sf_import_plain (ax (tfg t)) (ay (tfg t)) a (tf_mask_cum sf_ops fl) (ux (tfg t)) (uy (tfg t)) (uv d) Ix Iy X2 Y2 A0 A1).
    eexists. split; [reflexivity|]. rewrite grid_eta. split; [reflexivity|]. split.
    - split; split; cbn [raw msk amap2 d0 d1 tf_mask_cum sg]; try assumption; rewrite Gfl; reflexivity.
    - intros i j Hi Hj. cbn [msk values at_ raw amap2 amap]. rewrite (CUM i j Hi Hj), (Ca i j Hi Hj). cbn. auto. }
  destruct (modal_run sf_mops asort nearest linear cubic solve root t t t2 fl m d dr lam V N P E1 E2 Em Efl Efl') as (fmodes & evo & ev & EM & FP & FE & Oev & Xev & Yev); auto.
  { rewrite Tfl. destruct OK as (A & _). exact A. }
  { apply OKfl. }
  { unfold sol in SV. rewrite Efl'. exact SV. }
  { unfold sol in SW. rewrite Efl'. exact SW. }
  { rewrite Efl'. exact IMP. }
  rewrite Efl' in EM. fold sol in EM.
  match type of EM with _ = Ok ?x => set (mf := x) in * end.
  assert (Lm := Forall2_len _ _ _ FP). rewrite seq_length in Lm. assert (Le := Forall2_len _ _ _ FE). rewrite seq_length in Le.
  assert (TT : mf_times mf = tft t) by (cbn; exact Tfl).
  assert (BO : base_ok mf ev (s_vects sol)).
  { unfold base_ok. cbn zeta. cbn [mf mf_kind mf_modes mf_nmb mf_evo mf_times mf_eigvals mf_eigvects]. rewrite <- Lm.
    split; [reflexivity|]. split; [destruct fmodes; [cbn in Lm; lia|discriminate]|]. split; [unfold arange0; now rewrite map_length, seq_length, Nat2Z.id|]. split; [congruence|].
    split; [rewrite Tfl; exact I|]. split; [rewrite Tfl; destruct OK as (A & _); intro Hn; cbn [t2 tft] in Hn; rewrite Hn in A; cbn in A; fold T in A; lia|].
    split. { intros p Ip. apply In_nth_error in Ip. destruct Ip as (k & Hk). destruct (forall2_nth _ _ _ FE k p Hk) as (n & _ & Op & Xp & _). auto. }
    split; [reflexivity|]. split; [exact Oev|]. split; [rewrite Xev; apply incr_qz|]. split; [rewrite Xev; unfold arange0; now rewrite !map_length, seq_length, Nat2Z.id|].
    split; [reflexivity|]. split; [rewrite SW, map_length, seq_length, Tfl; destruct OK as (A & _); symmetry; exact A|].
    split. { intros rw Ir. rewrite SW in Ir. apply in_map_iff in Ir. destruct Ir as (k & <- & _). now rewrite map_length, seq_length. }
    rewrite Tfl. destruct OK as (A & _). cbn [t2 tft]. rewrite A. exact LN. }
  assert (SB : sf_base_ok mf).
  { split; [cbn [mf mf_g m_ops sf_mops o_grid sf_ops]; rewrite Gm; exact GO|]. split; [reflexivity|]. split; [reflexivity|]. split; [exact Wm|]. split.
    - intros f If. cbn [mf mf_modes] in If. apply In_nth_error in If. destruct If as (k & Hk). destruct (forall2_nth _ _ _ FP k f Hk) as (n & _ & Gf & Wf & _). split; [|exact Wf]. cbn. rewrite Gf, Gm. reflexivity.
    - cbn. rewrite Ufl. exact GU. }
  destruct (sf_reconstruct_lemma asort mf WAll (seq 0 N) (mf_times mf) AS (base_ok_core _ _ _ BO) SB) as (m0 & t' & fs & E0' & ER & G' & U' & FR & HO).
  { cbn [selects]. cbn [mf mf_modes]. now rewrite Lm. }
  { unfold times_in. rewrite TT. destruct OK as (A & _). assert (NT : tft t <> []) by (intro Hn; rewrite Hn in A; cbn in A; fold T in A; lia). split; [exact NT|]. intros x Hx. apply In_nth with (d := qz 0) in Hx. destruct Hx as (k & Hk & <-).
    rewrite (last_nths _ NT). split; [destruct k; [apply Qcle_refl|apply Qclt_le_weak; apply I; lia]|]. destruct (Nat.eq_dec k (length (tft t) - 1)) as [-> |]; [apply Qcle_refl|apply Qclt_le_weak; apply I; lia]. }
  destruct HO as (OK' & Lfs & _ & HO). destruct HO as (Tt' & Ft'); [rewrite TT; exact I|].
  exists mf, ev, (s_vects sol), t'. split; [exact EM|]. split; [exact BO|]. split; [exact SB|]. split; [exact ER|].
  assert (Gt' : tfg t' = tfg t) by (rewrite G'; cbn; rewrite Gm; reflexivity).
  split; [exact Gt'|]. split; [rewrite U'; cbn; rewrite Ufl; reflexivity|]. split; [congruence|]. split; [rewrite Ft', Lfs, TT; destruct OK as (A & _); exact A|].
  split.
  2:{ exists (map (m_comps sf_mops) (d :: dr)), N, lam, V. split; [exact SN|]. split; [exact LN|]. split; [exact SV|]. split; [exact Yev|]. split; [unfold pod_facts; auto 10|]. split; [exact FP|].
      change (mf_evo mf) with evo. clear -FE Tfl. induction FE as [|n p l evo (A & B & _ & C) F IH]; constructor; [|exact IH]. split; [exact A|]. split; [rewrite B; exact Tfl|exact C]. }
  intros k f Hf. rewrite Ft' in Hf. destruct (forall2_nth _ _ _ FR k f Hf) as (x & Hx & (Gf & Uf & Wf & modes & evos & cs & T1 & T2' & FC & CL)).
  rewrite Gt'. split; [exact Wf|]. split; [rewrite Gf; cbn; rewrite Gm; reflexivity|]. split; [rewrite Uf; exact Uu|]. intros i j Hi Hj.
  assert (Gmf : mf_g mf = tfg t) by (cbn; rewrite Gm; reflexivity). rewrite Gmf in CL. destruct (CL i j Hi Hj) as (CM & CV). clear CL.
  assert (modes = fmodes) as ->. { apply taken_seq_firstn in T1. rewrite T1. cbn [mf mf_modes]. rewrite Lm. apply firstn_all. }
  assert (evos = evo) as ->. { apply taken_seq_firstn in T2'. rewrite T2'. cbn [mf mf_evo]. rewrite Le. apply firstn_all. }
  assert (HkT : k < T). { apply nth_error_Some_lt in Hx. rewrite TT in Hx. destruct OK as (A & _). unfold T. lia. }
  assert (EC : cs = map (fun n => Some (V k n * root (lam n))%num) (seq 0 N)).
  { apply (coeffs_are evo cs x k N T (tft fl) (fun k n => V k n * root (lam n))%num); [rewrite Tfl; exact I|exact Hx|exact HkT| |exact FC].
    clear -FE. induction FE as [|n p l evo (A & B & _ & C) F IH]; constructor; auto. }
  assert (EMm : map (fun mo => at_ (values mo) i j) fmodes = map (fun n => Some (sumn T (fun k => s k 0%nat i j * V k n) / root (lam n))%num) (seq 0 N)).
  { clear -FP Hi Hj. induction FP as [|n f l fm (_ & _ & C) F IH]; [reflexivity|]. cbn [map]. rewrite IH. f_equal. now destruct (C i j Hi Hj). }
  destruct (MV i j Hi Hj) as (Mm & Vm). change (mf_mean mf) with m in CM, CV. rewrite Vm in CM, CV.
  rewrite (recon_cell N _ _ _ _ _ EMm EC) in CM, CV.
  rewrite (pod_algebra 1 nx ny T N s lam V root LN ORT EIG RT NUL k 0 i j HkT ltac:(lia) Hi Hj) in CV.
  assert (M00 : at_ (msk m0) i j = false).
  { cbn [mf mf_modes] in E0'. destruct (forall2_nth _ _ _ FP 0 m0 E0') as (n & _ & _ & _ & C). now destruct (C i j Hi Hj). }
  rewrite M00 in CM, CV. cbn [orb isnan] in CM. split; [exact CM|]. cbn [values at_] in CV. rewrite CM in CV. rewrite CV. f_equal. unfold s, deviation. qring.
Qed.
