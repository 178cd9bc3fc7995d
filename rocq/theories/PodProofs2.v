(** * PodProofs2: reconstruction from a modal base *)
From Coq Require Import Sorted Permutation Lia.
From Verif Require Import Num Res ListLib SortLib Arr FieldModel ScalarFieldModel VectorFieldModel ProfileModel FieldSpec SeqSpec
  ProfileSpec ProfileProofs ProfileProofs2 PointsModel PointsSpec FieldProofs2 TemporalProofs12 TemporalModel TemporalSpec TemporalProofs2 TemporalProofs10 GradModel GradSpec GradProofs2 PodModel PodSpec PodProofs.

(** ** coefficients *)
Lemma coef_at_ok p t : prof_ok p -> increasing (px p) -> px p <> [] -> (nths (px p) 0 <= t <= last (px p) (qz 0))%num ->
  exists c, coef_at p t = Ok c /\ evo_at p t c.
Proof.
  intros OK I NE (T0 & T1). pose proof (ok_lengths p OK) as (L1 & L2 & LY). unfold coef_at.
  rewrite (aligned_ok p OK). cbn [negb guard].
  pose proof (searchsorted_spec (px p) t) as SS. set (k := searchsorted (px p) t) in *.
  assert (NY : forall i, i < length (px p) -> exists c, nth_error (yv p) i = Some c /\ nth i (yv p) None = c).
  { intros i Hi. destruct (nth_error (yv p) i) as [c|] eqn:E; [|apply nth_error_None in E; lia]. exists c. split; [reflexivity|]. now apply nth_error_nth. }
  assert (exists i, i < length (px p) /\ (nths (px p) i = t \/ (S i < length (px p) /\ (nths (px p) i < t < nths (px p) (S i))%num))) as (i & Hi & C).
  { clear -T0 T1 I NE. remember (px p) as l eqn:El. clear El p. revert T0 T1 I NE. induction l as [|a l IH]; [congruence|]. intros T0 T1 I _.
    destruct (qeqb_spec a t) as [E|E]; [exists 0; split; [cbn; lia|left; exact E]|].
    destruct l as [|b l].
    { cbn in T0, T1. exfalso. apply E. qlra. }
    cbn in T0. destruct (qltb_spec t b) as [Q|Q].
    - exists 0. split; [cbn; lia|]. right. split; [cbn; lia|]. cbn. split; [|exact Q]. apply Qcle_lt_or_eq in T0. destruct T0; [assumption|congruence].
    - destruct IH as (i & Hi & C); [cbn; qlra|exact T1|now apply increasing_cons in I|discriminate|].
      exists (S i). split; [cbn in *; lia|]. destruct C as [C|(C1 & C2)]; [left; exact C|right]. split; [cbn in *; lia|exact C2]. }
  destruct C as [<- | (Hs & C)].
  - rewrite (interp_node p i OK I Hi). destruct (NY i Hi) as (c & E & ->). exists c. split; [reflexivity|]. left. exists i. split; [now apply nths_nth_error|exact E].
  - rewrite (interp_between p i t OK I Hs C). destruct (NY i Hi) as (a & Ea & ->). destruct (NY (S i) Hs) as (b & Eb & ->).
    eexists. split; [reflexivity|]. right. exists i, (nths (px p) i), (nths (px p) (S i)), a, b.
    split; [now apply nths_nth_error|]. split; [now apply nths_nth_error|]. split; [exact C|]. split; [exact Ea|]. split; [exact Eb|].
    destruct a as [a|]; [|reflexivity]. destruct b as [b|]; [|reflexivity]. eexists. split; [reflexivity|].
    now destruct (interp_bound (nths (px p) i) (nths (px p) (S i)) a b t C) as (H & _).
Qed.
Lemma mapM_forall2_ex {A B} (f : A -> res B) (R : A -> B -> Prop) l : (forall a, In a l -> exists b, f a = Ok b /\ R a b) -> exists l', mapM f l = Ok l' /\ Forall2 R l l'.
Proof.
  induction l as [|a l IH]; intro H; [exists []; split; [reflexivity|constructor]|].
  destruct (H a (or_introl eq_refl)) as (b & E & Rb). destruct IH as (l' & E' & F); [intros; apply H; now right|].
  exists (b :: l'). cbn [mapM]. rewrite E. cbn [bind]. rewrite E'. split; [reflexivity|now constructor].
Qed.

(** ** the sums *)
Lemma combination_fold m l : fold_left (fun a p => oadd a (omul (fst p) (snd p))) l m = combination m l.
Proof.
  revert m. induction l as [|[v c] l IH]; intro m; cbn [fold_left].
  - unfold combination. cbn. destruct m; [|reflexivity]. f_equal. qring.
  - rewrite IH. unfold combination. cbn [numbers fst snd]. destruct m as [m|]; [|destruct v, c; reflexivity].
    destruct v as [v|]; [|reflexivity]. destruct c as [c|]; [|reflexivity]. cbn [omul oadd].
    destruct (numbers l) as [ns|]; cbn [option_map]; [|reflexivity]. cbn [map total fold_right fst snd oadd omul lift2]. unfold oadd, omul. cbn [lift2]. unfold total. f_equal. generalize (fold_right Qcplus 0%num (map (fun p : num * num => (fst p * snd p)%num) ns)). intro z. qring.
Qed.
Definition ck (k : nat) (cs : list onum) : onum := nth k cs None.
Lemma fold_single k (terms : list (list (arr onum) * list onum)) (vs : list (arr onum)) : Forall2 (fun tm v => fst tm = [v]) terms vs -> forall a,
  exists b, fold_left (fun acc tm => add_mode acc (fst tm) (nth k (snd tm) None)) terms [a] = [b] /\ d0 b = d0 a /\ d1 b = d1 a /\
    forall i j, at_ b i j = fold_left (fun x p => oadd x (omul (fst p) (snd p))) (combine (map (fun v => at_ v i j) vs) (map (fun tm => ck k (snd tm)) terms)) (at_ a i j).
Proof.
  induction 1 as [|[f cs] v terms vs E F IH]; intro a; [exists a; cbn; auto|]. cbn [fst] in E. subst f. cbn [fold_left fst snd].
  destruct (IH (amap2 (fun x w => oadd x (omul w (nth k cs None))) a v)) as (b & Eb & D0 & D1 & C).
  exists b. split; [exact Eb|]. split; [now rewrite D0|]. split; [now rewrite D1|]. intros i j. rewrite C. reflexivity.
Qed.
Lemma fold_pair k (terms : list (list (arr onum) * list onum)) (vs : list (arr onum * arr onum)) : Forall2 (fun tm v => fst tm = [fst v; snd v]) terms vs -> forall a a',
  exists b b', fold_left (fun acc tm => add_mode acc (fst tm) (nth k (snd tm) None)) terms [a; a'] = [b; b'] /\ d0 b = d0 a /\ d1 b = d1 a /\ d0 b' = d0 a' /\ d1 b' = d1 a' /\
    (forall i j, at_ b i j = fold_left (fun x p => oadd x (omul (fst p) (snd p))) (combine (map (fun v => at_ (fst v) i j) vs) (map (fun tm => ck k (snd tm)) terms)) (at_ a i j)) /\
    (forall i j, at_ b' i j = fold_left (fun x p => oadd x (omul (fst p) (snd p))) (combine (map (fun v => at_ (snd v) i j) vs) (map (fun tm => ck k (snd tm)) terms)) (at_ a' i j)).
Proof.
  induction 1 as [|[f cs] v terms vs E F IH]; intros a a'; [exists a, a'; cbn; auto 10|]. cbn [fst] in E. subst f. cbn [fold_left fst snd].
  destruct (IH (amap2 (fun x w => oadd x (omul w (nth k cs None))) a (fst v)) (amap2 (fun x w => oadd x (omul w (nth k cs None))) a' (snd v))) as (b & b' & Eb & D0 & D1 & D0' & D1' & C & C').
  exists b, b'. split; [exact Eb|]. rewrite D0, D1, D0', D1'. repeat (split; [reflexivity|]). split; intros i j; [rewrite C|rewrite C']; reflexivity.
Qed.

(** ** the terms of the modes *)
Lemma zmax_le l n : l <> [] -> (forall i, In i l -> (i <= n)%Z) -> (zmax l <= n)%Z.
Proof.
  intros NE H. unfold zmax. assert (G : forall a, (a <= n)%Z -> forall l', (forall i, In i l' -> (i <= n)%Z) -> (fold_right Z.max a l' <= n)%Z).
  { intros a Ha. induction l' as [|b l' IH]; intro H'; [exact Ha|]. cbn. apply Z.max_lub; [apply H'; now left|apply IH; intros; apply H'; now right]. }
  apply G; [|exact H]. destruct l; [congruence|]. apply H. now left.
Qed.
Lemma wanted_ok {F} (mf : mfield F) w places : selects (length (mf_modes mf)) w places ->
  exists ws, wanted mf w = Ok ws /\ Forall2 (designates (length (mf_modes mf))) ws places.
Proof.
  destruct w as [|k|l]; cbn [selects wanted].
  - intros ->. eexists. split; [reflexivity|]. now apply designates_first.
  - intros (-> & H). eexists. split; [reflexivity|].
    replace (arange0 k) with (arange0 (Z.of_nat (Z.to_nat k))) by (unfold arange0; now rewrite Nat2Z.id). now apply designates_first.
  - intros (NE & D). exists l. split; [|exact D]. destruct l as [|a l]; [congruence|].
    assert (H : (zmax (a :: l) <= Z.of_nat (length (mf_modes mf)))%Z).
    { apply zmax_le; [discriminate|]. intros i Hi. clear -D Hi. remember (a :: l) as l'. clear Heql'. induction D as [|x y ? ? H _ IH]; [destruct Hi|].
      destruct Hi as [<- | Hi]; [|now apply IH]. destruct H. lia. }
    assert ((Z.of_nat (length (mf_modes mf)) <? zmax (a :: l))%Z = false) as -> by (apply Z.ltb_ge; exact H). reflexivity.
Qed.
Lemma terms_lemma {F} (M : mops F) (mf : mfield F) ts ws places :
  length (mf_evo mf) = length (mf_modes mf) -> increasing (mf_times mf) -> mf_times mf <> [] ->
  (forall p, In p (mf_evo mf) -> prof_ok p /\ px p = mf_times mf) ->
  (forall f, In f (mf_modes mf) -> forallb (fun p => same_dims (fst p) (snd p)) (combine (m_comps M (mf_mean mf)) (m_comps M f)) = true) ->
  (forall t, In t ts -> (nths (mf_times mf) 0 <= t <= last (mf_times mf) (qz 0))%num) ->
  Forall2 (designates (length (mf_modes mf))) ws places ->
  exists terms modes evos, mapM (mode_term M mf ts) ws = Ok terms /\ taken places (mf_modes mf) modes /\ taken places (mf_evo mf) evos /\
    Forall2 (fun tm m => fst tm = m_comps M m) terms modes /\ Forall2 (fun p tm => Forall2 (evo_at p) ts (snd tm)) evos terms.
Proof.
  intros LE I NE PO SH TI D. induction D as [|w k ws places Dk D IH].
  - exists [], [], []. repeat split; constructor.
  - destruct IH as (terms & modes & evos & E & T1 & T2 & F1 & F2).
    destruct (py_get_ok (mf_modes mf) w k Dk) as (m & Em & Gm). destruct (py_get_ok (mf_evo mf) w k) as (p & Ep & Gp); [now rewrite LE|].
    destruct (PO p (nth_error_In _ _ Ep)) as (OKp & Xp).
    destruct (mapM_forall2_ex (coef_at p) (evo_at p) ts) as (cs & Ec & Fc).
    { intros t It. apply coef_at_ok; [exact OKp|now rewrite Xp|now rewrite Xp|rewrite Xp; now apply TI]. }
    exists ((m_comps M m, cs) :: terms), (m :: modes), (p :: evos). cbn [mapM]. unfold mode_term at 1. rewrite Gm. cbn [bind]. rewrite Gp. cbn [bind]. rewrite Ec. cbn [bind].
    rewrite (SH m (nth_error_In _ _ Em)). cbn [negb guard bind]. rewrite E. split; [reflexivity|].
    repeat split; constructor; auto.
Qed.
Lemma evo_column (evos : list profile) (terms : list (list (arr onum) * list onum)) ts k t : nth_error ts k = Some t ->
  Forall2 (fun p tm => Forall2 (evo_at p) ts (snd tm)) evos terms -> Forall2 (fun p c => evo_at p t c) evos (map (fun tm => ck k (snd tm)) terms).
Proof.
  intros Et. induction 1 as [|p tm evos terms H F IH]; [constructor|]. cbn [map]. constructor; [|exact IH].
  clear -Et H. revert k Et. unfold ck. induction H as [|a b ts cs H F IH]; intros [|k] Et; try discriminate Et; cbn in *; [now injection Et as <-|now apply IH].
Qed.
Lemma lmin_in ts : ts <> [] -> In (lmin ts) ts.
Proof.
  intro H. unfold lmin. assert (G : forall d l, In d ts -> (forall x, In x l -> In x ts) -> In (fold_right qmin d l) ts).
  { intros d l Hd. induction l as [|a l IH]; intro Hl; [exact Hd|]. cbn. destruct (qmin_spec a (fold_right qmin d l)) as [[_ ->]|[_ ->]]; [apply Hl; now left|apply IH; intros; apply Hl; now right]. }
  apply G; [|auto]. apply nths_in. destruct ts; [congruence|cbn; lia].
Qed.
Lemma lmax_in ts : ts <> [] -> In (lmax ts) ts.
Proof.
  intro H. unfold lmax. assert (G : forall d l, In d ts -> (forall x, In x l -> In x ts) -> In (fold_right qmax d l) ts).
  { intros d l Hd. induction l as [|a l IH]; intro Hl; [exact Hd|]. cbn. destruct (qmax_spec a (fold_right qmax d l)) as [[_ ->]|[_ ->]]; [apply IH; intros; apply Hl; now right|apply Hl; now left] || (destruct (qmax_spec a (fold_right qmax d l)) as [[_ ->]|[_ ->]]; [apply Hl; now left|apply IH; intros; apply Hl; now right]). }
  apply G; [|auto]. apply nths_in. destruct ts; [congruence|cbn; lia].
Qed.
Lemma within_guard times ts : increasing times -> times <> [] -> ts <> [] -> (forall t, In t ts -> (nths times 0 <= t <= last times (qz 0))%num) ->
  (qltb (lmax times) (lmax ts) || qltb (lmin ts) (lmin times))%bool = false.
Proof.
  intros I NE NT H. destruct (H _ (lmax_in ts NT)) as (_ & H1). destruct (H _ (lmin_in ts NT)) as (H2 & _).
  assert (P : 0 < length times) by (destruct times; [congruence|cbn; lia]).
  apply orb_false_iff. split.
  - destruct (qltb_spec (lmax times) (lmax ts)) as [Q|]; [|reflexivity]. exfalso. pose proof (lmax_spec _ _ Q (last times (qz 0))) as R.
    rewrite (last_nths _ NE) in R, H1. specialize (R (nths_in times (length times - 1) ltac:(lia))). qlra.
  - destruct (qltb_spec (lmin ts) (lmin times)) as [Q|]; [|reflexivity]. exfalso. pose proof (lmin_spec _ _ NE Q (nths times 0) (nths_in _ _ P)) as R. qlra.
Qed.

(** ** the frames *)
Lemma forall2_map_r {A B C} (R : A -> C -> Prop) (f : B -> C) l m : Forall2 (fun a b => R a (f b)) l m -> Forall2 R l (map f m).
Proof. induction 1; constructor; auto. Qed.
Lemma reconstruct_run {F} (M : mops F) asort (mf : mfield F) w ws ts terms m0 (P : num -> F -> Prop) : is_argsort asort -> good_unit (mf_ut mf) ->
  mf_kind mf <> Dmd -> increasing (mf_times mf) -> mf_times mf <> [] -> times_in mf ts ->
  wanted mf w = Ok ws -> nth_error (mf_modes mf) 0 = Some m0 -> mapM (mode_term M mf ts) ws = Ok terms ->
  (forall k t, nth_error ts k = Some t -> exists f, m_import M (mf_g mf) (at_time M mf terms k) (o_mask (m_ops M) m0) (mf_uv mf) = Ok f /\ o_grid (m_ops M) f = mf_g mf /\ P t f) ->
  exists t' fs, reconstruct M asort mf w (Some ts) = Ok t' /\ tfg t' = mf_g mf /\ tfu t' = mf_ut mf /\ Forall2 P ts fs /\ holds ts fs t'.
Proof.
  intros AS GU K I NE (NT & TI) EW E0 ET IMP. unfold reconstruct. rewrite EW. cbn [bind].
  assert (exists f, mf_kind mf = f) as (kd & Ek) by eauto. rewrite Ek.
  rewrite (within_guard _ _ I NE NT TI).
  assert (Z : (match ts, mf_times mf with [], _ => true | _, [] => true | _, _ => false end) = false) by (destruct ts; [congruence|]; destruct (mf_times mf); [congruence|reflexivity]).
  assert (G0 : py_get (mf_modes mf) 0 = Ok m0).
  { destruct (py_get_ok (mf_modes mf) 0 0) as (a & Ea & Ga); [split; [now apply nth_error_Some_lt in E0|left; reflexivity]|]. rewrite E0 in Ea. injection Ea as <-. exact Ga. }
  set (imp := fun k => let* f := m_import M (mf_g mf) (at_time M mf terms k) (o_mask (m_ops M) m0) (mf_uv mf) in Ok (f, nths ts k, mf_ut mf)).
  assert (exists fs, mapM imp (seq 0 (length ts)) = Ok (map (fun p => (fst p, snd p, mf_ut mf)) (combine fs ts)) /\ length fs = length ts /\
     (forall f, In f fs -> o_grid (m_ops M) f = mf_g mf) /\ Forall2 P ts fs) as (fs & Ef & Lf & Gf & Pf).
  { assert (forall n a, a + n = length ts -> exists fs, mapM imp (seq a n) = Ok (map (fun p => (fst p, snd p, mf_ut mf)) (combine fs (skipn a ts))) /\ length fs = n /\
       (forall f, In f fs -> o_grid (m_ops M) f = mf_g mf) /\ Forall2 P (skipn a ts) fs) as G.
    { induction n as [|n IH]; intros a La.
      - exists []. cbn. rewrite skipn_all2 by lia. repeat split; [intros f []|constructor].
      - destruct (IH (S a) ltac:(lia)) as (fs & Ef & Lf & Gf & Pf). destruct (nth_error_ex ts a ltac:(lia)) as (t & Et).
        destruct (IMP a t Et) as (f & Ei & Gi & Pi). exists (f :: fs).
        assert (skipn a ts = t :: skipn (S a) ts) as SK.
        { clear -Et. revert a Et. induction ts as [|x l IH]; intros [|a] Et; try discriminate Et; [now injection Et as ->|]. cbn [skipn]. now apply IH. }
        cbn [seq mapM]. unfold imp at 1. rewrite Ei. cbn [bind]. rewrite Ef. rewrite SK. cbn [bind combine map fst snd].
        rewrite (nth_error_nths _ _ _ Et). repeat split; [cbn; congruence| |constructor; auto].
        intros g [<- | Ig]; [exact Gi|now apply Gf]. }
    destruct (G (length ts) 0 eq_refl) as (fs & A & B & C & D). exists fs. auto. }
  assert (M1 : map fst (combine fs ts) = fs) by (clear -Lf; revert ts Lf; induction fs as [|f fs IH]; intros [|t ts] L; try discriminate L; cbn; [reflexivity|f_equal; apply IH; now injection L]).
  assert (M2 : map snd (combine fs ts) = ts) by (clear -Lf; revert ts Lf; induction fs as [|f fs IH]; intros [|t ts] L; try discriminate L; cbn; [reflexivity|f_equal; apply IH; now injection L]).
  assert (HG : forall p, In p (combine fs ts) -> o_grid (m_ops M) (fst p) = mf_g mf) by (intros [f t] Ip; apply Gf; now apply in_combine_l in Ip).
  assert (NC : combine fs ts <> []) by (intro Hn; rewrite Hn in M2; cbn in M2; congruence).
  assert (ON : tf_ok (@tf_new F)) by (split; [reflexivity|]; intros a b _ Hb; cbn in Hb; lia).
  destruct (add_all_perm (m_ops M) asort (mf_ut mf) (mf_g mf) (combine fs ts) AS GU HG tf_new ON (or_introl eq_refl) NC) as (t' & EA & OT & UT & GT & PT).
  exists t', fs. split.
  2:{ split; [exact GT|]. split; [exact UT|]. split; [exact Pf|]. split; [exact OT|]. split; [exact Lf|]. split.
      - unfold frames in PT at 2. cbn [tff tft tf_new combine] in PT. rewrite app_nil_r in PT. rewrite PT. replace (map _ _) with (combine ts fs); [reflexivity|].
        clear -Lf. revert ts Lf. induction fs as [|f fs IH]; intros [|t ts] L; try discriminate L; cbn; [reflexivity|f_equal; apply IH; now injection L].
      - intro IT. rewrite (add_all_lemma (m_ops M) asort (mf_ut mf) (mf_g mf) (combine fs ts) AS GU HG tf_new ON) in EA; [|cbn; now rewrite M2|now left|exact NC].
        injection EA as <-. cbn [tft tff tf_new app]. now rewrite M1, M2. }
  assert (EA' : out_res (add_all (m_ops M) asort tf_new (map (fun p => (fst p, snd p, mf_ut mf)) (combine fs ts))) = Ok t') by (rewrite EA; reflexivity).
  destruct kd; [| |congruence]; rewrite Z; cbn [guard]; rewrite G0; cbn [bind]; rewrite ET; cbn [bind]; fold imp; rewrite Ef; cbn [bind]; exact EA'.
Qed.
Lemma same_dims_ok a b n m : has_shape a n m -> has_shape b n m -> same_dims a b = true.
Proof. intros (A & B) (C & D). unfold same_dims. rewrite A, B, C, D, !Nat.eqb_refl. reflexivity. Qed.
Lemma grid_eta g : mkgrid (ax g) (ay g) (ux g) (uy g) = g. Proof. now destruct g. Qed.
Lemma base_ok_core {F} (mf : mfield F) ev vects : base_ok mf ev vects -> base_core mf.
Proof. intros (K & NE & L1 & L2 & I & NT & PO & _). unfold base_core. auto 10. Qed.
Lemma sf_reconstruct_lemma asort (mf : mfield sfield) w places ts : is_argsort asort -> base_core mf -> sf_base_ok mf ->
  selects (length (mf_modes mf)) w places -> times_in mf ts ->
  exists m0 t' fs, nth_error (mf_modes mf) 0 = Some m0 /\ reconstruct sf_mops asort mf w (Some ts) = Ok t' /\ tfg t' = mf_g mf /\ tfu t' = mf_ut mf /\
    Forall2 (sf_frame mf m0 places) ts fs /\ holds ts fs t'.
Proof.
  intros AS (K & NE & L1 & L2 & I & NT & PO) (GO & GM & UM & WM & MO & GU) SEL TI.
  destruct (wanted_ok mf w places SEL) as (ws & EW & D).
  destruct (mf_modes mf) as [|m0 mr] eqn:EM; [congruence|]. rewrite <- EM in *.
  assert (WMv : has_shape (values (mf_mean mf)) (length (ax (mf_g mf))) (length (ay (mf_g mf)))) by (destruct WM as (W & _); rewrite GM in W; exact W).
  destruct (terms_lemma sf_mops mf ts ws places) as (terms & modes & evos & ET & T1 & T2 & F1 & F2); auto.
  { intros f If. cbn [m_comps sf_mops combine forallb fst snd]. rewrite andb_true_r. destruct (MO f If) as (G & (W & _)). rewrite G in W. eapply same_dims_ok; [exact WMv|exact W]. }
  { apply TI. }
  exists m0. assert (E0 : nth_error (mf_modes mf) 0 = Some m0) by (rewrite EM; reflexivity).
  destruct (reconstruct_run sf_mops asort mf w ws ts terms m0 (sf_frame mf m0 places) AS GU) as (t' & fs & E & A); auto; [congruence| |exists t', fs; auto].
  intros k t Et.
  assert (Fv : Forall2 (fun tm v => fst tm = [v]) terms (map values modes)) by (apply forall2_map_r; exact F1).
  destruct (fold_single k terms (map values modes) Fv (values (mf_mean mf))) as (b & Eb & D0 & D1 & C).
  unfold at_time. cbn [m_comps sf_mops]. rewrite Eb. cbn [m_import sf_mops m_ops o_mask sf_ops]. destruct GO as ((Ix & Iy) & X2 & Y2). destruct WMv as (W0 & W1).
  rewrite (sf_import_plain (ax (mf_g mf)) (ay (mf_g mf)) b (msk m0) (ux (mf_g mf)) (uy (mf_g mf)) (mf_uv mf) Ix Iy X2 Y2); [|congruence|congruence].
  eexists. split; [reflexivity|]. rewrite grid_eta. split; [reflexivity|]. split; [reflexivity|]. split; [reflexivity|]. split.
  { destruct (MO m0) as (Gm & (_ & (Wa & Wb))); [rewrite EM; now left|]. split; split; cbn; congruence. }
  exists modes, evos, (map (fun tm => ck k (snd tm)) terms). split; [exact T1|]. split; [exact T2|]. split; [now apply (evo_column evos terms ts k t)|].
  intros i j Hi Hj. cbn zeta. specialize (C i j). rewrite map_map, combination_fold in C. rewrite <- C.
  split; [reflexivity|]. cbn [msk values at_ raw amap2 amap].
  destruct (at_ (msk m0) i j); [reflexivity|]. cbn [orb]. destruct (at_ b i j); reflexivity.
Qed.
Lemma vf_reconstruct_lemma asort (mf : mfield vfield) w places ts : is_argsort asort -> base_core mf -> vf_base_ok mf ->
  selects (length (mf_modes mf)) w places -> times_in mf ts ->
  exists m0 t' fs, nth_error (mf_modes mf) 0 = Some m0 /\ reconstruct vf_mops asort mf w (Some ts) = Ok t' /\ tfg t' = mf_g mf /\ tfu t' = mf_ut mf /\
    Forall2 (vf_frame mf m0 places) ts fs /\ holds ts fs t'.
Proof.
  intros AS (K & NE & L1 & L2 & I & NT & PO) (GO & GM & UM & WM & MO & GU) SEL TI.
  destruct (wanted_ok mf w places SEL) as (ws & EW & D).
  destruct (mf_modes mf) as [|m0 mr] eqn:EM; [congruence|]. rewrite <- EM in *.
  destruct WM as (Wx & Wy & _). rewrite GM in Wx, Wy.
  destruct (terms_lemma vf_mops mf ts ws places) as (terms & modes & evos & ET & T1 & T2 & F1 & F2); auto.
  { intros f If. cbn [m_comps vf_mops combine forallb fst snd]. rewrite andb_true_r. destruct (MO f If) as (G & (Wa & Wb & _)). rewrite G in Wa, Wb.
    apply andb_true_iff. split; eapply same_dims_ok; eauto. }
  { apply TI. }
  exists m0. assert (E0 : nth_error (mf_modes mf) 0 = Some m0) by (rewrite EM; reflexivity).
  destruct (reconstruct_run vf_mops asort mf w ws ts terms m0 (vf_frame mf m0 places) AS GU) as (t' & fs & E & A); auto; [congruence| |exists t', fs; auto].
  intros k t Et.
  assert (Fv : Forall2 (fun tm v => fst tm = [fst v; snd v]) terms (map (fun m => (cx m, cy m)) modes)) by (apply forall2_map_r; exact F1).
  destruct (fold_pair k terms _ Fv (cx (mf_mean mf)) (cy (mf_mean mf))) as (b & b' & Eb & D0 & D1 & D0' & D1' & C & C').
  unfold at_time. cbn [m_comps vf_mops]. rewrite Eb. cbn [m_import vf_mops]. destruct GO as ((Ix & Iy) & X2 & Y2). destruct Wx as (Wx0 & Wx1). destruct Wy as (Wy0 & Wy1).
  destruct (MO m0) as (Gm & (_ & _ & Wm)); [rewrite EM; now left|]. rewrite Gm in Wm.
  destruct (vf_import_plain (ax (mf_g mf)) (ay (mf_g mf)) b b' (vmsk m0) (ux (mf_g mf)) (uy (mf_g mf)) (mf_uv mf) Ix Iy X2 Y2) as (f & Ef & (Gf & Uf & Wf) & Cf);
    [split; congruence|split; congruence|exact Wm|].
  rewrite grid_eta in Gf. exists f. split; [exact Ef|]. split; [exact Gf|]. split; [exact Gf|]. split; [exact Uf|]. split; [exact Wf|].
  exists modes, evos, (map (fun tm => ck k (snd tm)) terms). split; [exact T1|]. split; [exact T2|]. split; [now apply (evo_column evos terms ts k t)|].
  intros i j Hi Hj. cbn zeta. rewrite <- !combination_fold. destruct (Cf i j) as (-> & -> & ->). cbn [o_mask m_ops vf_mops vf_ops]. rewrite C, C', !map_map. cbn [fst snd]. auto.
Qed.

(** ** the value of an evolution at a time is determined *)
Lemma evo_at_fun p t c c' : increasing (px p) -> evo_at p t c -> evo_at p t c' -> c = c'.
Proof.
  intros I H H'.
  assert (MO : forall a b x y, nth_error (px p) a = Some x -> nth_error (px p) b = Some y -> a < b -> (x < y)%num).
  { intros a b x y Ha Hb Hab. rewrite <- (nth_error_nths _ _ _ Ha), <- (nth_error_nths _ _ _ Hb). apply I; [exact Hab|now apply nth_error_Some_lt in Hb]. }
  destruct H as [(i & X & Y)|(i & x0 & x1 & a & b & X0 & X1 & (T0 & T1) & A & B & V)];
  destruct H' as [(i' & X' & Y')|(i' & x0' & x1' & a' & b' & X0' & X1' & (T0' & T1') & A' & B' & V')].
  - assert (i = i') as <-; [|congruence]. destruct (Nat.lt_trichotomy i i') as [L|[L|L]]; [|exact L|]; exfalso; [pose proof (MO _ _ _ _ X X' L)|pose proof (MO _ _ _ _ X' X L)]; qlra.
  - exfalso. destruct (Nat.le_gt_cases i i') as [L|L].
    + assert (x0' < t)%num by exact T0'. destruct (Nat.eq_dec i i') as [<- | N]; [assert (t = x0') by congruence; qlra|pose proof (MO _ _ _ _ X X0' ltac:(lia)); qlra].
    + destruct (Nat.eq_dec i (S i')) as [-> | N]; [assert (t = x1') by congruence; qlra|pose proof (MO _ _ _ _ X1' X ltac:(lia)); qlra].
  - exfalso. destruct (Nat.le_gt_cases i' i) as [L|L].
    + destruct (Nat.eq_dec i i') as [<- | N]; [assert (t = x0) by congruence; qlra|pose proof (MO _ _ _ _ X' X0 ltac:(lia)); qlra].
    + destruct (Nat.eq_dec i' (S i)) as [-> | N]; [assert (t = x1) by congruence; qlra|pose proof (MO _ _ _ _ X1 X' ltac:(lia)); qlra].
  - assert (i = i') as <-.
    { destruct (Nat.lt_trichotomy i i') as [L|[L|L]]; [|exact L|]; exfalso.
      - destruct (Nat.eq_dec i' (S i)) as [-> | N]; [assert (x1 = x0') by congruence; qlra|pose proof (MO _ _ _ _ X1 X0' ltac:(lia)); qlra].
      - destruct (Nat.eq_dec i (S i')) as [-> | N]; [assert (x1' = x0) by congruence; qlra|pose proof (MO _ _ _ _ X1' X0 ltac:(lia)); qlra]. }
    rewrite X0 in X0'. injection X0' as <-. rewrite X1 in X1'. injection X1' as <-. rewrite A in A'. injection A' as <-. rewrite B in B'. injection B' as <-.
    destruct a as [a|]; [|congruence]. destruct b as [b|]; [|congruence]. destruct V as (r & -> & L). destruct V' as (r' & -> & L'). f_equal.
    unfold on_line in L, L'. assert (D : (0 < x1 - x0)%num) by qlra.
    assert (Z : ((r - r') * (x1 - x0) = 0)%num) by (transitivity (r * (x1 - x0) - r' * (x1 - x0))%num; [qring|rewrite L, L'; qring]).
    destruct (Qcmult_integral _ _ Z); qlra.
Qed.
