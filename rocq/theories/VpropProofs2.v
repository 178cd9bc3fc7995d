(** * VpropProofs2: circulation of a vortex (C149, C150). *)
From Coq Require Import Lia.
From Verif Require Import Num Res ListLib SortLib Arr FieldModel ScalarFieldModel VectorFieldModel FieldSpec ProfileModel PointsModel TemporalModel TemporalSpec
  FieldProofs GradProofs AsciiProofs2 Series2Proofs5 TemporalProofs11 VpropModel VpropSpec VpropProofs.

Lemma in_all n m c : In c (all_cells n m) <-> fst c < n /\ snd c < m.
Proof. destruct c as [i j]. unfold all_cells. unfold cell; rewrite in_prod_iff, !in_seq. cbn. lia. Qed.
Lemma all_nodup n m : NoDup (all_cells n m).
Proof. apply NoDup_prod; apply seq_NoDup. Qed.
Lemma component_nodup n m ok c : NoDup (component (all_cells n m) ok c).
Proof. unfold component. destruct (length (all_cells n m)); cbn; apply NoDup_filter, all_nodup. Qed.
Lemma joined_ext P Q c d : (forall e, P e <-> Q e) -> joined P c d -> joined Q c d.
Proof. intros H J. induction J as [p|d e J IH A p]; [constructor; now apply H|]. econstructor; eauto. now apply H. Qed.
Lemma component_zone n m ok c P : fst c < n -> snd c < m -> (forall e, P e <-> fst e < n /\ snd e < m /\ ok e = true) -> P c -> zone P c (component (all_cells n m) ok c).
Proof.
  intros H1 H2 HP Pc. split; [apply component_nodup|]. intro d. apply HP in Pc. rewrite component_joined; [|apply in_all; tauto|tauto].
  split; apply joined_ext; intro e; rewrite in_all, HP; tauto.
Qed.
Lemma joined_in P c d : joined P c d -> P d.
Proof. now destruct 1. Qed.
Lemma joined_start P c d : joined P c d -> P c.
Proof. induction 1; auto. Qed.
Lemma zone_unique P c z z' : zone P c z -> zone P c z' -> Permutation z z'.
Proof. intros [N H] [N' H']. apply NoDup_Permutation; auto. intro x. now rewrite H, H'. Qed.

(** ** sums and maxima of numbers among onums *)
Lemma osums_some l : (forall v, In v l -> v <> None) -> osums l = Some (Num.qsum (map (fun v => match v with Some a => a | None => 0%num end) l)).
Proof.
  induction l as [|v l IH]; intro H; [reflexivity|]. unfold osums in *. cbn [fold_right map]. rewrite IH by (intros; apply H; now right). destruct v as [a|]; [reflexivity|]. now exfalso; apply (H None (or_introl eq_refl)).
Qed.
Lemma omax_fold l : forall a, (forall v, In v l -> v <> None) -> exists m, fold_left omax2 l (Some a) = Some m /\ (In (Some m) l \/ m = a) /\ (a <= m)%num /\ forall v, In (Some v) l -> (v <= m)%num.
Proof.
  induction l as [|v l IH]; intros a H.
  - exists a. cbn. repeat split; auto. apply qle_refl. intros v [].
  - destruct v as [b|]; [|now exfalso; apply (H None (or_introl eq_refl))]. cbn [fold_left omax2]. destruct (IH (qmax a b)) as (m & E & I & L & A); [intros; apply H; now right|].
    exists m. split; [exact E|]. assert (Q : (a <= qmax a b)%num /\ (b <= qmax a b)%num /\ (qmax a b = a \/ qmax a b = b)) by (unfold qmax; destruct (qleb_spec a b); repeat split; auto; try qlra; apply qle_refl).
    destruct Q as (Q1 & Q2 & Q3). split; [|split].
    + destruct I as [I|I]; [left; now right|]. rewrite I. destruct Q3 as [-> | ->]; [now right|left; now left].
    + eapply qle_trans; eauto.
    + intros v [[= <-]|I2]; [eapply qle_trans; eauto|now apply A].
Qed.
Lemma omax_some l : l <> [] -> (forall v, In v l -> v <> None) -> exists m, omax l = Ok (Some m) /\ In (Some m) l /\ forall v, In (Some v) l -> (v <= m)%num.
Proof.
  destruct l as [|[a|] l]; intros N H; [congruence| |now exfalso; apply (H None (or_introl eq_refl))].
  destruct (omax_fold l a) as (m & E & I & L & A); [intros; apply H; now right|]. exists m. cbn [omax]. rewrite E. split; [reflexivity|]. split; [destruct I as [I| ->]; [now right|now left]|].
  intros v [[= <-]|I2]; auto.
Qed.

(** ** cells of a clean field *)
Lemma shows_iff f c : sf_clean f -> fst c < length (ax (sg f)) -> snd c < length (ay (sg f)) -> forall v, at_cell (values f) c = Some v <-> shows_at f c v.
Proof.
  intros C H1 H2 v. unfold at_cell, shows_at. assert (K := proj1 (sf_clean_idx f) C _ _ H1 H2). split; [|tauto]. intro E. repeat split; auto.
  destruct (at_ (msk f) (fst c) (snd c)) eqn:M; [|reflexivity]. exfalso. assert (Z := proj2 K eq_refl). congruence.
Qed.
Lemma shown_abs_in f : sf_wf f -> sf_clean f -> forall o, In o (shown_abs f) <-> exists c v, shows_at f c v /\ o = Some (qabs v).
Proof.
  intros [[R0 R1] _] C o. unfold shown_abs. rewrite in_flat_map. split.
  - intros (c & I & H). rewrite R0, R1, in_all in I. destruct (at_ (msk f) (fst c) (snd c)) eqn:M; [contradiction|]. destruct H as [<-|[]].
    destruct (at_cell (values f) c) as [v|] eqn:E; [exists c, v; split; [now apply shows_iff|reflexivity]|].
    exfalso. assert (K := proj1 (sf_clean_idx f) C _ _ (proj1 I) (proj2 I)). apply K in E. congruence.
  - intros (c & v & (H1 & H2 & M & E) & ->). exists c. split; [rewrite R0, R1, in_all; auto|]. rewrite M. left. unfold at_cell. now rewrite E.
Qed.
Lemma strongest_lemma f : sf_wf f -> sf_clean f -> (exists c v, shows_at f c v) -> exists m, omax (shown_abs f) = Ok (Some m) /\ strongest f m.
Proof.
  intros W C (c & v & S0). destruct (omax_some (shown_abs f)) as (m & E & I & A).
  - intro E. assert (X : In (Some (qabs v)) (shown_abs f)) by (apply shown_abs_in; eauto). now rewrite E in X.
  - intros o I. apply shown_abs_in in I; auto. destruct I as (? & ? & _ & ->). discriminate.
  - exists m. split; [exact E|]. split.
    + apply shown_abs_in in I; auto. destruct I as (c' & v' & S1 & [= ->]). eauto.
    + intros c' v' S1. apply A. apply shown_abs_in; eauto.
Qed.
Lemma strongest_unique f m m' : strongest f m -> strongest f m' -> m = m'.
Proof. intros [(c & v & S1 & <-) A] [(c' & v' & S2 & <-) A']. apply A' in S1. apply A in S2. now apply Qcle_antisym. Qed.
Lemma strong_iff f m eps c : sf_wf f -> sf_clean f -> strongest f m -> (stronger f (eps * m)%num c <-> fst c < length (ax (sg f)) /\ snd c < length (ay (sg f)) /\ strong (values f) (Some m) eps c = true).
Proof.
  intros W C [(c0 & v0 & S0 & E0) A]. assert (M0 : (0 <= m)%num) by (rewrite <- E0; apply qabs_nonneg). unfold stronger, strong. split.
  - intros (v & S1 & L). pose proof S1 as (H1 & H2 & _ & E). split; [exact H1|]. split; [exact H2|]. unfold at_cell. rewrite E. cbn [oabs option_map odiv].
    assert (A1 := A c v S1). destruct (qeqb_spec m 0) as [Z|Z].
    + rewrite Z in *. exfalso. rewrite Qcmult_0_r in L. qlra.
    + assert (Mp : (0 < m)%num) by (destruct (qle_lt_or_eq _ _ M0); [assumption|congruence]). apply qltb_lt.
      assert (D := qdiv_mul (qabs v) m Z). set (q := (qabs v / m)%num) in *. clearbody q. destruct (Qclt_le_dec eps q) as [|N]; [assumption|exfalso]. assert (X := qmul_le_r q eps m M0 N). qlra.
  - intros (H1 & H2 & H). destruct (at_cell (values f) c) as [v|] eqn:E; [|discriminate H]. cbn [oabs option_map odiv] in H. destruct (qeqb_spec m 0) as [Z|Z]; [discriminate|]. exists v.
    split; [now apply shows_iff|]. apply qltb_lt in H. assert (Mp : (0 < m)%num) by (destruct (qle_lt_or_eq _ _ M0); [assumption|congruence]).
    assert (D := qdiv_mul (qabs v) m Z). set (q := (qabs v / m)%num) in *. clearbody q. assert (X := qmul_lt_r eps q m Mp H). qlra.
Qed.
Lemma sum_cells f z : (forall c, In c z -> at_cell (values f) c <> None) -> osums (map (at_cell (values f)) z) = Some (cell_sum f (fun _ v => v) z).
Proof.
  intro H. rewrite osums_some; [|intros v I; apply in_map_iff in I; destruct I as (c & <- & I); now apply H]. rewrite map_map. reflexivity.
Qed.
Lemma step1_reg l h : regular_axis l h -> step1 l = Ok h.
Proof.
  intros (Hp & L & R). destruct l as [|a [|b l]]; cbn in L; try lia. cbn. f_equal. assert (X := R 1 ltac:(cbn; lia)). cbn in X. rewrite X. change (qn 1) with (qz 1). qring.
Qed.
Lemma nearest_in l x i : nearest_node l x i -> i < length l.
Proof. now intros [H _]. Qed.
Lemma nearest_same l x i j : nearest_node l x i -> nearest_node l x j -> i = j.
Proof.
  intros (Hi & Ai & Bi) (Hj & Aj & Bj). assert (E : qabs (nths l i - x)%num = qabs (nths l j - x)%num) by (apply Qcle_antisym; auto).
  assert (X := Bj i Hi E). assert (Y := Bi j Hj (eq_sym E)). lia.
Qed.

Lemma circulation_lemma crit f vort x y eps dx dy i j m : crit f = Ok vort -> sg vort = vg f -> sf_wf vort -> sf_clean vort -> grid_sorted (vg f) -> on_axis (ax (vg f)) x -> on_axis (ay (vg f)) y ->
  regular_axis (ax (vg f)) dx -> regular_axis (ay (vg f)) dy -> nearest_node (ax (vg f)) x i -> nearest_node (ay (vg f)) y j -> strongest vort m ->
  (~ stronger vort (eps * m)%num (i, j) -> vortex_circulation crit f x y eps = Ok (Some (qz 0), one_unit)) /\
  (stronger vort (eps * m)%num (i, j) -> exists z, zone (stronger vort (eps * m)%num) (i, j) z /\
     vortex_circulation crit f x y eps = Ok (Some (cell_sum vort (fun _ v => v) z * dx * dy)%num, unit_mul (unit_mul (uv vort) (ux (vg f))) (uy (vg f)))).
Proof.
  intros E G W C GS OX OY RX RY Ni Nj M. unfold vortex_circulation.
  destruct (nearest_cell_lemma (vg f) x y GS OX OY) as (i' & j' & EN & Ni' & Nj'). rewrite <- (nearest_same _ _ _ _ Ni Ni'), <- (nearest_same _ _ _ _ Nj Nj') in EN. rewrite EN. cbn [bind].
  rewrite (step1_reg _ _ RX), (step1_reg _ _ RY). cbn [bind]. rewrite E. cbn [bind].
  destruct (strongest_lemma vort W C) as (m' & EM & M'); [destruct M as [(c & v & S0 & _) _]; eauto|]. rewrite EM. rewrite (strongest_unique _ _ _ M' M). cbn [bind].
  pose proof W as [[R0 R1] _]. assert (Hi := nearest_in _ _ _ Ni). assert (Hj := nearest_in _ _ _ Nj).
  assert (IN : in_arr (values vort) (i, j) = true) by (unfold in_arr; cbn [values d0 d1 fst snd]; rewrite R0, R1, G; apply andb_true_iff; rewrite !Nat.ltb_lt; auto).
  rewrite IN. cbn [negb guard]. assert (SI := strong_iff vort m eps).
  split; intro S0.
  - destruct (strong (values vort) (Some m) eps (i, j)) eqn:SE; [|reflexivity]. exfalso. apply S0. apply SI; auto. cbn [fst snd]. rewrite G. auto.
  - pose proof S0 as S1. apply SI in S1; auto. destruct S1 as (_ & _ & S1). rewrite S1.
    set (z := component _ _ _). assert (Z : zone (stronger vort (eps * m)%num) (i, j) z).
    { apply component_zone; [cbn [values d0 fst]; rewrite R0, G; exact Hi|cbn [values d1 snd]; rewrite R1, G; exact Hj| |exact S0].
      intro e. cbn [values d0 d1]. rewrite R0, R1. now apply SI. }
    exists z. split; [exact Z|]. rewrite sum_cells; [reflexivity|]. intros c I. apply Z in I. apply joined_in in I. destruct I as (v & (_ & _ & _ & Q) & _). unfold at_cell. congruence.
Qed.
(** ** an opposite vorticity *)
Lemma opposite_shows f g c v : opposite f g -> (shows_at g c v <-> shows_at f c (- v)%num).
Proof.
  intros (G & _ & H). unfold shows_at. rewrite G. split; intros (H1 & H2 & M & V); destruct (H _ _ H1 H2) as [HM HV].
  - repeat split; auto; [congruence|]. rewrite V in HV. destruct (at_ (values f) (fst c) (snd c)) as [w|]; [|discriminate]. f_equal. assert (v = (- w)%num) by congruence. subst v. qring.
  - repeat split; auto; [congruence|]. rewrite HV, V. f_equal. qring.
Qed.
Lemma opposite_sym f g : opposite f g -> opposite g f.
Proof.
  intros (G & U & H). split; [auto|]. split; [auto|]. rewrite G. intros i j Hi Hj. destruct (H i j Hi Hj) as [HM HV]. split; [auto|]. rewrite HV. destruct (at_ (values f) i j) as [w|]; [|reflexivity]. f_equal. qring.
Qed.
Lemma opposite_strongest f g m : opposite f g -> strongest f m -> strongest g m.
Proof.
  intros O [(c & v & S0 & E) A]. split.
  - exists c, (- v)%num. split; [apply (opposite_shows f g); auto; now rewrite Qcopp_involutive|]. now rewrite qabs_opp.
  - intros c' v' S1. apply (opposite_shows f g) in S1; auto. rewrite <- qabs_opp. eauto.
Qed.
Lemma opposite_stronger f g t c : opposite f g -> (stronger g t c <-> stronger f t c).
Proof.
  intro O. split; intros (v & S0 & L); exists (- v)%num; (split; [|now rewrite qabs_opp]).
  - now apply (opposite_shows f g).
  - apply (opposite_shows f g); auto. now rewrite Qcopp_involutive.
Qed.
Lemma zone_ext P Q c z : (forall d, P d <-> Q d) -> zone P c z -> zone Q c z.
Proof. intros H [N I]. split; [exact N|]. intro d. rewrite I. split; apply joined_ext; intro e; rewrite H; tauto. Qed.
Lemma qsum_perm (l k : list num) : Permutation l k -> Num.qsum l = Num.qsum k.
Proof. unfold Num.qsum. induction 1; cbn; auto; [now rewrite IHPermutation|qring|congruence]. Qed.
Lemma circulation_opposite crit f g vf vg0 x y eps dx dy m : crit f = Ok vf -> crit g = Ok vg0 -> opposite vf vg0 -> vg g = vg f -> sg vf = vg f -> sf_wf vf -> sf_clean vf -> sf_wf vg0 -> sf_clean vg0 ->
  grid_sorted (vg f) -> on_axis (ax (vg f)) x -> on_axis (ay (vg f)) y -> regular_axis (ax (vg f)) dx -> regular_axis (ay (vg f)) dy -> strongest vf m ->
  exists v u, vortex_circulation crit f x y eps = Ok (Some v, u) /\ vortex_circulation crit g x y eps = Ok (Some (- v)%num, u).
Proof.
  intros Ef Eg O G Gf W C W' C' GS OX OY RX RY M.
  destruct (nearest_cell_lemma (vg f) x y GS OX OY) as (i & j & _ & Ni & Nj).
  assert (Gg : sg vg0 = vg g) by (destruct O as [Q _]; congruence).
  destruct (circulation_lemma crit f vf x y eps dx dy i j m) as [A0 A1]; auto.
  destruct (circulation_lemma crit g vg0 x y eps dx dy i j m) as [B0 B1]; auto; try (rewrite G; assumption). { now apply (opposite_strongest vf). }
  assert (D : stronger vf (eps * m)%num (i, j) \/ ~ stronger vf (eps * m)%num (i, j)).
  { destruct (strong (values vf) (Some m) eps (i, j)) eqn:S0; [left|right; rewrite strong_iff; auto; intros (_ & _ & Q); congruence].
    apply strong_iff; auto. rewrite Gf. cbn. split; [exact (nearest_in _ _ _ Ni)|]. split; [exact (nearest_in _ _ _ Nj)|exact S0]. }
  destruct D as [D|D].
  - destruct (A1 D) as (z & Z & EA). destruct (B1 (proj2 (opposite_stronger vf vg0 _ _ O) D)) as (z' & Z' & EB).
    exists (cell_sum vf (fun _ v => v) z * dx * dy)%num, (unit_mul (unit_mul (uv vf) (ux (vg f))) (uy (vg f))). split; [exact EA|]. rewrite EB.
    assert (P : Permutation z z').
    { eapply zone_unique; [exact Z|]. eapply zone_ext; [|exact Z']. intro d. now apply opposite_stronger. }
    replace (cell_sum vg0 (fun _ v => v) z') with (- cell_sum vf (fun _ v => v) z)%num.
    + destruct O as (_ & U & _). rewrite U, G. f_equal. f_equal. f_equal. qring.
    + unfold cell_sum. erewrite (qsum_perm (map _ z')); [|apply Permutation_map; apply Permutation_sym; exact P].
      assert (K : forall l, (forall c, In c l -> fst c < length (ax (sg vf)) /\ snd c < length (ay (sg vf))) ->
        (- Num.qsum (map (fun c => match at_ (values vf) (fst c) (snd c) with Some v => v | None => 0 end) l) = Num.qsum (map (fun c => match at_ (values vg0) (fst c) (snd c) with Some v => v | None => 0 end) l))%num).
      { induction l as [|c l IH]; intro H; [cbn; qring|]. cbn [map]. rewrite !AsciiProofs2.qsum_cons, <- IH by (intros; apply H; now right).
        destruct O as (_ & _ & H2). destruct (H c (or_introl eq_refl)) as [Q1 Q2]. destruct (H2 _ _ Q1 Q2) as [_ ->]. destruct (at_ (values vf) (fst c) (snd c)); qring. }
      apply K. intros c I. apply Z in I. apply joined_in in I. destruct I as (v & (Q1 & Q2 & _) & _). auto.
  - exists (qz 0), one_unit. split; [now apply A0|]. rewrite B0; [f_equal; f_equal; f_equal; qring|]. intro Q. apply D. now apply (opposite_stronger vf vg0).
Qed.
