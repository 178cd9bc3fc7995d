(** * PodProofs8: the modes are orthonormal and share the energy of the deviations *)
From Coq Require Import Sorted Permutation Lia.
From Verif Require Import Num Res ListLib SortLib Arr FieldModel ScalarFieldModel VectorFieldModel ProfileModel FieldSpec SeqSpec
  ProfileSpec ProfileProofs ProfileProofs2 PointsModel PointsSpec FieldProofs2 TemporalModel TemporalSpec TemporalProofs2 TemporalProofs5 TemporalProofs10 GradModel GradProofs2
  PodModel PodSpec PodProofs PodProofs2 PodProofs3 PodProofs4 PodProofs5 PodProofs6 PodProofs7.

Section Energy.
  Context (nc nx ny T N : nat) (s : nat -> nat -> nat -> nat -> num) (lam : nat -> num) (V : nat -> nat -> num) (root : num -> num).
  Context (LN : N <= T) (PF : pod_facts root nc nx ny T s N lam V).
  Let phi n c i j := (sumn T (fun k => s k c i j * V k n) / root (lam n))%num.
  Lemma mode_unit n : n < N -> dot nc nx ny (phi n) (phi n) = 1%num.
  Proof.
    destruct PF as (ORT & COL & EIG & RT & NUL). intro Hn. destruct (RT n Hn) as (Z & R). assert (Z2 : root (lam n) <> 0%num). { intro Hz. rewrite Hz in R. apply Z. rewrite <- R. qring. }
    pose proof (pod_norm nc nx ny T s lam V EIG n ltac:(lia)) as E.
    rewrite (sumn_ext T _ (fun k => lam n * (V k n * V k n))%num) in E by (intros; qring). rewrite sumn_mul_l, COL, Nat.eqb_refl in E by lia.
    assert (E2 : (dot nc nx ny (phi n) (phi n) * lam n)%num = lam n).
    { transitivity (lam n * 1)%num; [|qring]. rewrite <- E. unfold dot. rewrite <- sumn_mul_r. apply sumn_ext. intros c _. rewrite <- sumn_mul_r. apply sumn_ext. intros i _. rewrite <- sumn_mul_r. apply sumn_ext. intros j _.
      unfold phi. set (w := sumn T (fun k => s k c i j * V k n)%num). rewrite <- R at 3.
      replace (w / root (lam n) * (w / root (lam n)) * (root (lam n) * root (lam n)))%num with ((w / root (lam n) * root (lam n)) * (w / root (lam n) * root (lam n)))%num by qring. now rewrite qdiv_mul. }
    rewrite <- (qmul_div (dot nc nx ny (phi n) (phi n)) (lam n) Z), E2. rewrite <- (qmul_div 1%num (lam n) Z). f_equal. qring.
  Qed.
  Lemma trace_lam : sumn N lam = sumn T (fun k => dot nc nx ny (s k) (s k)).
  Proof.
    destruct PF as (ORT & COL & EIG & RT & NUL). rewrite <- (sumn_split T N lam LN NUL).
    rewrite (sumn_ext T lam (fun n => sumn T (fun k => sumn T (fun l => dot nc nx ny (s k) (s l) * (V k n * V l n))))%num).
    - rewrite sumn_swap. apply sumn_ext. intros k Hk. rewrite sumn_swap. rewrite (sumn_ext T _ (fun l => dot nc nx ny (s k) (s l) * (if Nat.eqb l k then 1 else 0))%num).
      + now apply (sumn_select T k (fun l => dot nc nx ny (s k) (s l))).
      + intros l Hl. rewrite sumn_mul_l. f_equal. rewrite ORT by assumption. now rewrite Nat.eqb_sym.
    - intros n Hn. rewrite (sumn_ext T _ (fun k => lam n * (V k n * V k n))%num).
      + rewrite sumn_mul_l, COL, Nat.eqb_refl by assumption. qring.
      + intros k Hk. transitivity (V k n * (lam n * V k n))%num; [|qring]. rewrite <- EIG by assumption. rewrite <- sumn_mul_l. apply sumn_ext. intros; qring.
  Qed.
  Lemma coef_norm n : n < N -> sumn T (fun k => V k n * root (lam n) * (V k n * root (lam n)))%num = lam n.
  Proof.
    destruct PF as (ORT & COL & EIG & RT & NUL). intro Hn. destruct (RT n Hn) as (Z & R).
    rewrite (sumn_ext T _ (fun k => lam n * (V k n * V k n))%num) by (intros k Hk; transitivity (root (lam n) * root (lam n) * (V k n * V k n))%num; [qring|now rewrite R]). rewrite sumn_mul_l, COL, Nat.eqb_refl by lia. qring.
  Qed.
End Energy.
Lemma total_aidx n m (g : nat -> nat -> num) : total (map (fun p => g (fst p) (snd p)) (aidx n m)) = sumn n (fun i => sumn m (fun j => g i j)).
Proof.
  unfold aidx. rewrite <- total_sumn. induction (seq 0 n) as [|i l IH]; [reflexivity|]. cbn [flat_map map]. rewrite map_app, total_app', IH, map_map. cbn [fst snd]. rewrite total_sumn. reflexivity.
Qed.
Lemma aidx_length n m : length (aidx n m) = n * m.
Proof. unfold aidx. rewrite <- (seq_length n 0) at 2. induction (seq 0 n) as [|i l IH]; [reflexivity|]. cbn [flat_map]. rewrite app_length, map_length, seq_length, IH. reflexivity. Qed.
Lemma flatten_nums (a : arr onum) n m g : has_shape a n m -> (forall i j, i < n -> j < m -> at_ a i j = Some (g i j)) ->
  flatten a = map Some (map (fun p => g (fst p) (snd p)) (aidx n m)).
Proof.
  intros (A & B) H. unfold flatten. rewrite A, B, map_map. apply map_ext_in. intros [i j] Hi. apply in_aidx in Hi. cbn. now apply H.
Qed.
Lemma map_Some_inj (a b : list num) : map Some a = map Some b -> a = b.
Proof. revert b. induction a as [|x a IH]; intros [|y b] E; try discriminate E; [reflexivity|]. cbn in E. injection E as -> E. f_equal. now apply IH. Qed.
Lemma energy_sum N (es : list num) (lam : nat -> num) c : length es = N -> (forall n e, nth_error es n = Some e -> (e * c)%num = lam n) -> (total es * c)%num = sumn N lam.
Proof.
  intros L H. rewrite <- total_sumn, <- L. clear L. assert (G : forall a, (forall n e, nth_error es n = Some e -> (e * c)%num = lam (a + n)) -> (total es * c)%num = total (map lam (seq a (length es)))).
  { clear H. induction es as [|e es IH]; intros a H; [unfold total; cbn [fold_right map seq length]; qring|]. cbn [length seq map]. unfold total. cbn [fold_right]. fold (total es). fold (total (map lam (seq (S a) (length es)))).
    rewrite <- (IH (S a)) by (intros n x Hn; rewrite (H (S n) x Hn); f_equal; lia). pose proof (H 0 e eq_refl) as E0. rewrite Nat.add_0_r in E0. rewrite <- E0. qring. }
  now apply (G 0).
Qed.
Lemma sf_mode_energy_value root g T s N lam V n f p ts e : N <= T -> n < N -> pod_facts root 1 (length (ax g)) (length (ay g)) T s N lam V ->
  sf_mode_is root g T s lam V n f -> evo_is root ts T lam V n p -> sf_energy f p e -> (e * (2 * qn (length (ax g) * length (ay g)) * qn T))%num = lam n.
Proof.
  intros LN Hn PF (G & (W & _) & C) (_ & _ & Y) (v & c & Ev & Ec & E). rewrite G in W.
  rewrite (flatten_nums (values f) _ _ (fun i j => (sumn T (fun k => s k 0%nat i j * V k n) / root (lam n))%num) W) in Ev by (intros i j Hi Hj; now apply C).
  apply map_Some_inj in Ev. rewrite Y in Ec. apply map_Some_inj in Ec. subst v c. rewrite !map_length, aidx_length, seq_length in E. rewrite !map_map in E.
  rewrite (total_aidx _ _ (fun i j => (sumn T (fun k => s k 0%nat i j * V k n) / root (lam n) * (sumn T (fun k => s k 0%nat i j * V k n) / root (lam n)))%num)) in E.
  rewrite total_sumn, (coef_norm _ _ _ T N s lam V root LN PF n Hn) in E.
  pose proof (mode_unit _ _ _ T N s lam V root LN PF n Hn) as U. unfold dot in U. cbn [sumn] in U. rewrite Qcplus_0_l in U. rewrite U in E. transitivity (1 * lam n)%num; [rewrite <- E|]; qring.
Qed.
Lemma vf_mode_energy_value root g T s N lam V n f p ts e : N <= T -> n < N -> pod_facts root 2 (length (ax g)) (length (ay g)) T s N lam V ->
  vf_mode_is root g T s lam V n f -> evo_is root ts T lam V n p -> vf_energy f p e -> (e * (2 * qn (length (ax g) * length (ay g)) * qn T))%num = lam n.
Proof.
  intros LN Hn PF (G & (WX & WY & _) & C) (_ & _ & Y) (x & y & c & Ex & Ey & Ec & E). rewrite G in WX, WY.
  rewrite (flatten_nums (cx f) _ _ (fun i j => (sumn T (fun k => s k 0%nat i j * V k n) / root (lam n))%num) WX) in Ex by (intros i j Hi Hj; now apply C).
  rewrite (flatten_nums (cy f) _ _ (fun i j => (sumn T (fun k => s k 1%nat i j * V k n) / root (lam n))%num) WY) in Ey by (intros i j Hi Hj; now apply C).
  apply map_Some_inj in Ex. apply map_Some_inj in Ey. rewrite Y in Ec. apply map_Some_inj in Ec. subst x y c. rewrite !map_length, aidx_length, seq_length in E. rewrite !map_map in E.
  rewrite (total_aidx _ _ (fun i j => (sumn T (fun k => s k 0%nat i j * V k n) / root (lam n) * (sumn T (fun k => s k 0%nat i j * V k n) / root (lam n)))%num)) in E.
  rewrite (total_aidx _ _ (fun i j => (sumn T (fun k => s k 1%nat i j * V k n) / root (lam n) * (sumn T (fun k => s k 1%nat i j * V k n) / root (lam n)))%num)) in E.
  rewrite total_sumn, (coef_norm _ _ _ T N s lam V root LN PF n Hn) in E.
  pose proof (mode_unit _ _ _ T N s lam V root LN PF n Hn) as U. unfold dot in U. cbn [sumn] in U. rewrite Qcplus_0_l in U. rewrite U in E. transitivity (1 * lam n)%num; [rewrite <- E|]; qring.
Qed.
Lemma seq_at a n k x : nth_error (seq a n) k = Some x -> x = a + k /\ k < n.
Proof. intro E. pose proof (nth_error_Some_lt _ _ _ E) as L. rewrite seq_length in L. apply nth_error_nth with (d := 0) in E. rewrite seq_nth in E by exact L. auto. Qed.

(** ** the energies of the modes add up to the mean energy of the deviations, and are in the proportion of the eigenvalues *)
Lemma sf_energy_shared asort nearest linear cubic solve root (t : tfield sfield) u v : is_argsort asort -> grid_ok2 (tfg t) -> tf_ok t -> increasing (tft t) ->
  good_unit (tfu t) -> good_unit u -> 2 <= length (tff t) -> sf_frames_are t u v ->
  (forall snaps, snapshots_are 1 (length (ax (tfg t))) (length (ay (tfg t))) (length (tff t)) snaps (fun k _ i j => deviation (length (tff t)) (fun l => v l i j) k) ->
     is_pod root 1 (length (ax (tfg t))) (length (ay (tfg t))) (length (tff t)) (fun k _ i j => deviation (length (tff t)) (fun l => v l i j) k) (solve snaps) /\ s_vals (solve snaps) <> []) ->
  exists mf ev es, modal_pod sf_mops asort nearest linear cubic solve root t WAll = Ok mf /\ modes_energy sf_mops mf false = Ok (map Some es) /\
    mf_eigvals mf = Some ev /\
    yv ev = map (fun e => Some (e * (2 * qn (length (ax (tfg t)) * length (ay (tfg t))) * qn (length (tff t)))))%num es /\
    (total es * (2 * qn (length (ax (tfg t)) * length (ay (tfg t))) * qn (length (tff t))) =
       sumn (length (tff t)) (fun k => sumn (length (ax (tfg t))) (fun i => sumn (length (ay (tfg t))) (fun j =>
         deviation (length (tff t)) (fun l => v l i j) k * deviation (length (tff t)) (fun l => v l i j) k))))%num.
Proof.
  intros AS GO OK I GU Gu T2 FA SOL.
  destruct (sf_decomposition asort nearest linear cubic solve root t u v AS GO OK I GU Gu T2 FA SOL) as (mf & ev & vects & t' & EM & BO & SB & _ & _ & _ & _ & _ & _ & snaps & N & lam & V & _ & LN & SV & YE & PF & FM & FE).
  destruct (sf_energies_lemma mf (base_ok_core _ _ _ BO) SB) as (es & cs & E1 & _ & L1 & _ & EV & _).
  { intros p Ip c Ic. apply In_nth_error in Ip. destruct Ip as (k & Hk). destruct (forall2_nth _ _ _ FE k p Hk) as (n & _ & _ & _ & Y). rewrite Y in Ic. apply in_map_iff in Ic. destruct Ic as (x & <- & _). discriminate. }
  { intros f If. apply In_nth_error in If. destruct If as (k & Hk). destruct (forall2_nth _ _ _ FM k f Hk) as (n & _ & G & _ & C). intros i j Hi Hj. rewrite G in Hi, Hj. destruct (C i j Hi Hj) as (A & B). split; [exact A|].
    cbn [values at_] in B. rewrite A in B. eauto. }
  pose proof BO as (_ & _ & _ & _ & _ & _ & _ & EEV & _). pose proof (Forall2_len _ _ _ FM) as Lm. rewrite seq_length in Lm.
  assert (VAL : forall n e, nth_error es n = Some e -> (e * (2 * qn (length (ax (tfg t)) * length (ay (tfg t))) * qn (length (tff t))))%num = lam n).
  { intros n e He. pose proof (nth_error_Some_lt _ _ _ He) as Hn. rewrite L1, <- Lm in Hn. destruct (nth_error_ex (mf_modes mf) n ltac:(lia)) as (f & Hf).
    destruct (forall2_nth _ _ _ FM n f Hf) as (n' & Hn' & PM). apply seq_at in Hn'. destruct Hn' as (-> & _). cbn [Nat.add] in PM.
    destruct (nth_error_ex (mf_evo mf) n) as (p & Hp). { rewrite <- (Forall2_len _ _ _ FE), seq_length. lia. }
    destruct (forall2_nth _ _ _ FE n p Hp) as (n' & Hn' & PE). apply seq_at in Hn'. destruct Hn' as (-> & _). cbn [Nat.add] in PE.
    destruct (EV n f p e Hf Hp He) as (SE & _). exact (sf_mode_energy_value root (tfg t) _ _ N lam V n f p _ e LN Hn PF PM PE SE). }
  exists mf, ev, es. split; [exact EM|]. split; [exact E1|]. split; [exact EEV|]. split.
  - rewrite YE. rewrite map_map. clear -VAL L1 Lm. assert (L : length es = N) by lia. clear L1 Lm. subst N.
    set (c := (2 * qn (length (ax (tfg t)) * length (ay (tfg t))) * qn (length (tff t)))%num) in *. clearbody c.
    assert (G : forall a, (forall n e, nth_error es n = Some e -> (e * c)%num = lam (a + n)) -> map (fun x => Some (lam x)) (seq a (length es)) = map (fun e => Some (e * c)%num) es); [|now apply (G 0)].
    clear VAL. induction es as [|e es IH]; intros a H; [reflexivity|]. cbn [length seq map]. f_equal; [pose proof (H 0 e eq_refl) as E0; rewrite Nat.add_0_r in E0; now rewrite E0|].
    apply IH. intros n x Hx. rewrite (H (S n) x Hx). f_equal. lia.
  - rewrite (energy_sum N es lam _ ltac:(lia) VAL). rewrite (trace_lam _ _ _ _ N _ lam V root LN PF). apply sumn_ext. intros k _. unfold dot. cbn [sumn]. now rewrite Qcplus_0_l.
Qed.
Lemma vf_energy_shared asort nearest linear cubic solve root (t : tfield vfield) u v : is_argsort asort -> grid_ok2 (tfg t) -> tf_ok t -> increasing (tft t) ->
  good_unit (tfu t) -> good_unit u -> 2 <= length (tff t) -> vf_frames_are t u v ->
  (forall snaps, snapshots_are 2 (length (ax (tfg t))) (length (ay (tfg t))) (length (tff t)) snaps (fun k c i j => deviation (length (tff t)) (fun l => v l c i j) k) ->
     is_pod root 2 (length (ax (tfg t))) (length (ay (tfg t))) (length (tff t)) (fun k c i j => deviation (length (tff t)) (fun l => v l c i j) k) (solve snaps) /\ s_vals (solve snaps) <> []) ->
  exists mf ev es, modal_pod vf_mops asort nearest linear cubic solve root t WAll = Ok mf /\ modes_energy vf_mops mf false = Ok (map Some es) /\
    mf_eigvals mf = Some ev /\
    yv ev = map (fun e => Some (e * (2 * qn (length (ax (tfg t)) * length (ay (tfg t))) * qn (length (tff t)))))%num es /\
    (total es * (2 * qn (length (ax (tfg t)) * length (ay (tfg t))) * qn (length (tff t))) =
       sumn (length (tff t)) (fun k => sumn 2 (fun c => sumn (length (ax (tfg t))) (fun i => sumn (length (ay (tfg t))) (fun j =>
         deviation (length (tff t)) (fun l => v l c i j) k * deviation (length (tff t)) (fun l => v l c i j) k)))))%num.
Proof.
  intros AS GO OK I GU Gu T2 FA SOL.
  destruct (vf_decomposition asort nearest linear cubic solve root t u v AS GO OK I GU Gu T2 FA SOL) as (mf & ev & vects & t' & EM & BO & SB & _ & _ & _ & _ & _ & _ & snaps & N & lam & V & _ & LN & SV & YE & PF & FM & FE).
  destruct (vf_energies_lemma mf (base_ok_core _ _ _ BO) SB) as (es & cs & E1 & _ & L1 & _ & EV & _).
  { intros p Ip c Ic. apply In_nth_error in Ip. destruct Ip as (k & Hk). destruct (forall2_nth _ _ _ FE k p Hk) as (n & _ & _ & _ & Y). rewrite Y in Ic. apply in_map_iff in Ic. destruct Ic as (x & <- & _). discriminate. }
  { intros f If. apply In_nth_error in If. destruct If as (k & Hk). destruct (forall2_nth _ _ _ FM k f Hk) as (n & _ & G & _ & C). intros i j Hi Hj. rewrite G in Hi, Hj. destruct (C i j Hi Hj) as (A & B & D). split; [exact A|]. eauto. }
  pose proof BO as (_ & _ & _ & _ & _ & _ & _ & EEV & _). pose proof (Forall2_len _ _ _ FM) as Lm. rewrite seq_length in Lm.
  assert (VAL : forall n e, nth_error es n = Some e -> (e * (2 * qn (length (ax (tfg t)) * length (ay (tfg t))) * qn (length (tff t))))%num = lam n).
  { intros n e He. pose proof (nth_error_Some_lt _ _ _ He) as Hn. rewrite L1, <- Lm in Hn. destruct (nth_error_ex (mf_modes mf) n ltac:(lia)) as (f & Hf).
    destruct (forall2_nth _ _ _ FM n f Hf) as (n' & Hn' & PM). apply seq_at in Hn'. destruct Hn' as (-> & _). cbn [Nat.add] in PM.
    destruct (nth_error_ex (mf_evo mf) n) as (p & Hp). { rewrite <- (Forall2_len _ _ _ FE), seq_length. lia. }
    destruct (forall2_nth _ _ _ FE n p Hp) as (n' & Hn' & PE). apply seq_at in Hn'. destruct Hn' as (-> & _). cbn [Nat.add] in PE.
    destruct (EV n f p e Hf Hp He) as (SE & _). exact (vf_mode_energy_value root (tfg t) _ _ N lam V n f p _ e LN Hn PF PM PE SE). }
  exists mf, ev, es. split; [exact EM|]. split; [exact E1|]. split; [exact EEV|]. split.
  - rewrite YE. rewrite map_map. clear -VAL L1 Lm. assert (L : length es = N) by lia. clear L1 Lm. subst N.
    set (c := (2 * qn (length (ax (tfg t)) * length (ay (tfg t))) * qn (length (tff t)))%num) in *. clearbody c.
    assert (G : forall a, (forall n e, nth_error es n = Some e -> (e * c)%num = lam (a + n)) -> map (fun x => Some (lam x)) (seq a (length es)) = map (fun e => Some (e * c)%num) es); [|now apply (G 0)].
    clear VAL. induction es as [|e es IH]; intros a H; [reflexivity|]. cbn [length seq map]. f_equal; [pose proof (H 0 e eq_refl) as E0; rewrite Nat.add_0_r in E0; now rewrite E0|].
    apply IH. intros n x Hx. rewrite (H (S n) x Hx). f_equal. lia.
  - rewrite (energy_sum N es lam _ ltac:(lia) VAL). exact (trace_lam _ _ _ _ N _ lam V root LN PF).
Qed.
