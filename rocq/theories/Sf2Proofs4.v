(** * Sf2Proofs4: zones of a scalar field. *)
From Coq Require Import Lia QArith Qcanon List ZArith.
From Verif Require Import Num Res ListLib SortLib Arr FieldModel ScalarFieldModel VectorFieldModel FieldSpec PointsSpec FieldProofs FieldProofs2 GradProofs VpropModel VpropSpec VpropProofs VpropProofs2 VpropProofs3 TurbProofs3 ProfileModel BlModel Sf2Model Sf2Spec.
From Verif Require Import Sf2Proofs3.

(** ** zones *)
Lemma adjacent_sym c d : adjacent c d -> adjacent d c.
Proof. unfold adjacent. intuition auto. Qed.
Lemma joined_trans P c d e : joined P c d -> joined P d e -> joined P c e.
Proof. intros J K. induction K as [p|x y K IH A p]; [exact J|]. econstructor; eauto. Qed.
Lemma joined_sym P c d : joined P c d -> joined P d c.
Proof.
  intro J. induction J as [p|x y J IH A p]; [now constructor|]. apply (joined_trans P y x c); [|exact IH]. econstructor; [now constructor|now apply adjacent_sym|]. now apply joined_in in J.
Qed.
Lemma zone_move P c c' z : zone P c z -> In c' z -> zone P c' z.
Proof. intros [N H] I. apply H in I. split; [exact N|]. intro d. rewrite H. split; intro J; [apply (joined_trans P c' c d); [now apply joined_sym|exact J]|apply (joined_trans P c c' d); assumption]. Qed.
Lemma filter_ext_mem {A} (p q : A -> bool) l : (forall a, In a l -> p a = q a) -> filter p l = filter q l.
Proof. apply filter_ext_in. Qed.
Lemma component_filter all ok c : all <> [] -> exists p, component all ok c = filter p all.
Proof. intro N. unfold component. destruct (length all) eqn:E; [destruct all; [congruence|discriminate]|]. eexists. reflexivity. Qed.
Lemma filter_members {A} (p q : A -> bool) l : (forall a, In a (filter p l) <-> In a (filter q l)) -> filter p l = filter q l.
Proof. intro H. apply filter_ext_in. intros a I. specialize (H a). rewrite !filter_In in H. destruct (p a), (q a); intuition congruence. Qed.
Section Label.
  Variables (n m : nat) (ok : cell -> bool) (P : nat * nat -> Prop).
  Hypothesis HP : forall e, P e <-> fst e < n /\ snd e < m /\ ok e = true.
  Let all := all_cells n m.
  Lemma comp_zone c : P c -> zone P c (component all ok c).
  Proof. intro Pc. pose proof (proj1 (HP c) Pc) as (A & B & C). now apply component_zone. Qed.
  Lemma comp_same c d : P c -> In d (component all ok c) -> component all ok d = component all ok c.
  Proof.
    intros Pc I. pose proof (comp_zone c Pc) as Z. pose proof (zone_move _ _ _ _ Z I) as Z1. assert (Pd : P d) by (apply Z in I; now apply joined_in in I). pose proof (comp_zone d Pd) as Z2.
    assert (NE : all <> []) by (intro E; assert (X : In c all) by (apply in_all; apply HP in Pc; tauto); rewrite E in X; contradiction).
    destruct (component_filter all ok c NE) as [p Ep]. destruct (component_filter all ok d NE) as [q Eq]. rewrite Ep, Eq in *. apply filter_members. intro a. rewrite (proj2 Z1), (proj2 Z2). tauto.
  Qed.
  Lemma label_are_zones : are_zones P (label_zones all ok).
  Proof.
    unfold label_zones. set (first := fun c : cell => (ok c && match component all ok c with d :: _ => cell_eqb d c | [] => false end)%bool).
    assert (FP : forall c, In c (filter first all) -> P c /\ exists r, component all ok c = c :: r).
    { intros c I. apply filter_In in I. destruct I as [I F]. unfold first in F. apply andb_true_iff in F. destruct F as [F1 F2]. apply in_all in I. split; [apply HP; tauto|]. destruct (component all ok c) as [|d r]; [discriminate|]. apply cell_eqb_eq in F2. subst d. eauto. }
    split; [|split].
    - intros z I. apply in_map_iff in I. destruct I as (c & <- & I). destruct (FP c I) as (Pc & r & E). split; [rewrite E; discriminate|]. intros c' I'. apply (zone_move P c); [now apply comp_zone|exact I'].
    - intros c Pc. exists (component all ok c). assert (IC : In c (component all ok c)) by (apply (proj2 (comp_zone c Pc)); now constructor). split; [|exact IC].
      destruct (component all ok c) as [|d r] eqn:E; [contradiction|]. apply in_map_iff. exists d. assert (ID : In d (component all ok c)) by (rewrite E; now left). pose proof (comp_same c d Pc ID) as S0. split; [now rewrite S0|].
      assert (Pd : P d) by (apply (proj2 (comp_zone c Pc)) in ID; now apply joined_in in ID). pose proof (proj1 (HP d) Pd) as (A & B & C). apply filter_In. split; [now apply in_all|]. unfold first. rewrite C, S0, E. cbn [andb]. now apply cell_eqb_eq.
    - intros i j z z' c Ei Ej I I'. rewrite nth_error_map in Ei, Ej. destruct (nth_error (filter first all) i) as [a|] eqn:Fi; [|discriminate]. destruct (nth_error (filter first all) j) as [b|] eqn:Fj; [|discriminate]. injection Ei as <-. injection Ej as <-.
      pose proof (FP a (nth_error_In _ _ Fi)) as (Pa & r & Ea). pose proof (FP b (nth_error_In _ _ Fj)) as (Pb & s & Eb). rewrite <- (comp_same a c Pa I) in Ea. rewrite <- (comp_same b c Pb I') in Eb. rewrite Ea in Eb. injection Eb as -> _.
      assert (ND : NoDup (filter first all)) by (apply NoDup_filter, all_nodup). rewrite NoDup_nth_error in ND. apply ND; [apply nth_error_Some; congruence|congruence].
  Qed.
End Label.

(** ** extreme values *)
Lemma shown_list_in f : sf_wf f -> sf_clean f -> forall o, In o (shown_list f) <-> exists c v, shows_at f c v /\ o = Some v.
Proof.
  intros [[R0 R1] _] C o. unfold shown_list. rewrite in_flat_map. split.
  - intros (c & I & H). rewrite R0, R1, in_all in I. destruct (at_ (msk f) (fst c) (snd c)) eqn:M; [contradiction|]. destruct H as [<-|[]].
    destruct (at_cell (values f) c) as [v|] eqn:E; [exists c, v; split; [now apply shows_iff|reflexivity]|].
    exfalso. assert (K := proj1 (sf_clean_idx f) C _ _ (proj1 I) (proj2 I)). apply K in E. congruence.
  - intros (c & v & (H1 & H2 & M & E) & ->). exists c. split; [rewrite R0, R1, in_all; auto|]. rewrite M. left. unfold at_cell. now rewrite E.
Qed.
Lemma sf_max_lemma f : sf_wf f -> sf_clean f -> (exists c v, shows_at f c v) -> exists m, sf_max f = Ok (Some m) /\ most_shown f m.
Proof.
  intros W C (c & v & S0). unfold sf_max. destruct (omax_some (shown_list f)) as (m & E & I & A).
  - intro E. assert (X : In (Some v) (shown_list f)) by (apply shown_list_in; eauto). now rewrite E in X.
  - intros o I. apply shown_list_in in I; auto. destruct I as (? & ? & _ & ->). discriminate.
  - exists m. split; [exact E|]. split.
    + apply shown_list_in in I; auto. destruct I as (c' & v' & S1 & [= ->]). eauto.
    + intros c' v' S1. apply A. apply shown_list_in; eauto.
Qed.
Lemma sf_min_lemma f : sf_wf f -> sf_clean f -> (exists c v, shows_at f c v) -> exists m, sf_min f = Ok (Some m) /\ least_shown f m.
Proof.
  intros W C (c & v & S0). unfold sf_min. destruct (omax_some (map oneg (shown_list f))) as (m & E & I & A).
  - intro E. assert (X : In (Some v) (shown_list f)) by (apply shown_list_in; eauto). destruct (shown_list f); [contradiction|discriminate].
  - intros o I. apply in_map_iff in I. destruct I as (o' & <- & I). apply shown_list_in in I; auto. destruct I as (? & ? & _ & ->). discriminate.
  - exists (- m)%num. rewrite E. split; [reflexivity|]. split.
    + apply in_map_iff in I. destruct I as (o' & EO & I). apply shown_list_in in I; auto. destruct I as (c' & v' & S1 & ->). injection EO as <-. exists c'. now replace (- - v')%num with v' by qring.
    + intros c' v' S1. assert (X : (- v' <= m)%num) by (apply A; apply in_map_iff; exists (Some v'); split; [reflexivity|]; apply shown_list_in; eauto). qlra.
Qed.
Lemma least_unique f a b : least_shown f a -> least_shown f b -> a = b.
Proof. intros [(c & A) A'] [(d & B) B']. apply Qcle_antisym; eauto. Qed.
Lemma most_unique f a b : most_shown f a -> most_shown f b -> a = b.
Proof. intros [(c & A) A'] [(d & B) B']. apply Qcle_antisym; eauto. Qed.
Lemma nudge_widened b0 b1 a b : widened b0 b1 a b <-> nudge (b0, b1) = (a, b).
Proof. unfold widened, nudge. cbn [fst snd]. rewrite !(Qcmult_comm _ (qq 1 100000)). split; [intros [-> ->]; reflexivity|intros [= <- <-]; auto]. Qed.
Lemma bounds_lemma f rel b0 b1 lo hi : sf_wf f -> sf_clean f -> (exists c v, shows_at f c v) -> bounds_meant f rel b0 b1 lo hi ->
  exists a b, nudge (b0, b1) = (a, b) /\ (a < b)%num /\
    (abs_bounds f (a, b) rel = Ok (Some (lo, hi)) \/ (abs_bounds f (a, b) rel = Ok None /\ forall c, ~ between f lo hi c)).
Proof.
  intros W C SH (a & b & WD & AB & K). exists a, b. split; [now apply nudge_widened|]. split; [exact AB|].
  destruct (sf_max_lemma f W C SH) as (mx & EX & MX). destruct (sf_min_lemma f W C SH) as (mn & EN & MN). unfold abs_bounds. cbn [fst snd]. rewrite EX, EN. cbn [bind].
  assert (LE : (mn <= mx)%num) by (destruct MN as [(c & S1) _]; destruct MX as [_ A]; eauto).
  destruct rel.
  - destruct K as (mn' & mx' & MN' & MX' & SG & K). rewrite (least_unique f _ _ MN' MN), (most_unique f _ _ MX' MX) in K. left.
    assert (qltb (a * b)%num 0%num = false) as -> by (destruct (qltb_spec (a * b)%num 0%num); [qlra|reflexivity]). cbn [andb guard].
    assert (QA : qabs (mx - mn)%num = (mx - mn)%num) by (unfold qabs; destruct (qleb_spec 0%num (mx - mn)%num); [reflexivity|qlra]). rewrite QA.
    destruct K as [(Q & -> & ->)|(Q & -> & ->)].
    + assert (qltb (qabs b) (qabs a) = false) as -> by (destruct (qltb_spec (qabs b) (qabs a)); [qlra|reflexivity]). do 3 f_equal; qring.
    + assert (qltb (qabs b) (qabs a) = true) as -> by (now apply qltb_lt). do 3 f_equal; qring.
  - destruct K as [-> ->]. cbn [andb guard]. destruct (qltb_spec mx a) as [Q|Q]; [right; split; [reflexivity|]; intros c (v & S1 & V1 & V2); apply (proj2 MX) in S1; qlra|].
    destruct (qltb_spec b mn) as [Q2|Q2]; [right; split; [reflexivity|]; intros c (v & S1 & V1 & V2); apply (proj2 MN) in S1; qlra|]. left. reflexivity.
Qed.
Lemma within_iff f lo hi c : sf_wf f -> sf_clean f -> (between f lo hi c <-> fst c < length (ax (sg f)) /\ snd c < length (ay (sg f)) /\ (within (values f) (lo, hi) c && negb (at_ (msk f) (fst c) (snd c)))%bool = true).
Proof.
  intros W C. unfold between, within. cbn [fst snd]. split.
  - intros (v & S0 & V). pose proof S0 as (H1 & H2 & M & E). split; [exact H1|]. split; [exact H2|]. unfold at_cell. rewrite E, M. cbn. rewrite andb_true_r. apply andb_true_iff. split; apply qleb_le; tauto.
  - intros (H1 & H2 & B). apply andb_true_iff in B. destruct B as [B M]. destruct (at_cell (values f) c) as [v|] eqn:E; [|discriminate]. exists v. apply andb_true_iff in B. destruct B as [B1 B2]. apply qleb_le in B1, B2.
    split; [apply shows_iff; auto|auto].
Qed.
(** ** the position of a fractional index on a regular axis *)
Lemma index_pos_regular l h q : regular_axis l h -> (0 <= q)%num -> (q <= qn (length l - 1))%num -> index_pos l (Some q) = Ok (nths l 0 + q * h)%num.
Proof.
  intros R Q0 Q1. pose proof R as (P & L & E). unfold index_pos.
  assert (F0 : (0 <= qfloor q)%Z) by (apply qfloor_iff; exact Q0). assert (F1 := qfloor_le q). assert (F2 := qfloor_lt q).
  set (k := Z.to_nat (qfloor q)). assert (EK : qn k = qz (qfloor q)) by (unfold qn, k; now rewrite Z2Nat.id). rewrite <- EK in F1.
  assert (KL : k < length l).
  { destruct (le_lt_dec (length l) k) as [Z|]; [|assumption]. exfalso. assert (X : qn k = (qn (length l - 1) + qn (k - (length l - 1)))%num) by (rewrite <- qn_add; f_equal; lia). assert (Y := qn_gt0 (k - (length l - 1)) ltac:(lia)). qlra. }
  clearbody k. clear EK F2. assert (Nat.leb (length l) k = false) as -> by (apply Nat.leb_gt; exact KL).
  destruct (qeqb_spec q (qn k)) as [Z|N]; [rewrite Z in *|].
  - cbn [guard]. now rewrite (E k KL).
  - rewrite (step1_reg l h R). cbn [bind guard]. rewrite (E k KL). f_equal. qring.
Qed.
Lemma qsum_total l : Num.qsum l = total l.
Proof. reflexivity. Qed.
Lemma total_idx (l : list num) h z (coord : cell -> nat) : (forall i, i < length l -> nths l i = (nths l 0 + qn i * h)%num) -> (forall c, In c z -> coord c < length l) ->
  total (map (fun c => nths l (coord c)) z) = (qn (length z) * nths l 0 + total (map (fun c => qn (coord c)) z) * h)%num.
Proof.
  intros E H. induction z as [|c z IH]; [unfold total; cbn; change (qn 0) with (qz 0); qring|]. cbn [map length]. unfold total. cbn [fold_right]. fold (total (map (fun c => nths l (coord c)) z)). fold (total (map (fun c => qn (coord c)) z)).
  rewrite IH by (intros; apply H; now right). rewrite (E (coord c)) by (apply H; now left). rewrite qn_S. qring.
Qed.
Lemma mean_index_pos l h z (coord : cell -> nat) : regular_axis l h -> z <> [] -> (forall c, In c z -> coord c < length l) ->
  exists x, index_pos l (mean_index z coord) = Ok x /\ (x * qn (length z) = total (map (fun c => nths l (coord c)) z))%num.
Proof.
  intros R NE H. pose proof R as (P & L & E). unfold mean_index. rewrite qsum_total. set (s := total (map (fun c => qn (coord c)) z)). assert (PL : (0 < qn (length z))%num) by (apply qn_gt0; destruct z; [congruence|cbn; lia]).
  unfold odiv. assert (qeqb (qn (length z)) 0%num = false) as -> by (apply qeqb_neq; apply qgt_neq; exact PL).
  assert (D := qdiv_mul s (qn (length z)) ltac:(apply qgt_neq; exact PL)). set (q := (s / qn (length z))%num) in *. clearbody q.
  assert (B : (0 * qn (length (map (fun c => qn (coord c)) z)) <= s <= qn (length l - 1) * qn (length (map (fun c => qn (coord c)) z)))%num).
  { apply Sf2Proofs.total_bounds. intros v I. apply in_map_iff in I. destruct I as (c & <- & I). split; [apply qn_nonneg|]. apply qz_le. specialize (H c I). lia. }
  rewrite map_length, <- D in B. destruct B as [B1 B2].
  rewrite (index_pos_regular l h q R).
  - eexists. split; [reflexivity|]. rewrite (total_idx l h z coord E H). fold s. rewrite <- D. qring.
  - destruct (Qclt_le_dec q 0%num) as [Z|]; [|assumption]. exfalso. pose proof (qmul_lt_r _ _ _ PL Z). qlra.
  - destruct (Qclt_le_dec (qn (length l - 1)) q) as [Z|]; [|assumption]. exfalso. pose proof (qmul_lt_r _ _ _ PL Z). qlra.
Qed.
Lemma mass_index_pos f l h z (coord : cell -> nat) : regular_axis l h -> (forall c, In c z -> coord c < length l) -> (forall c, In c z -> at_ (values f) (fst c) (snd c) <> None) -> (0 < cell_sum f (fun _ v => qabs v) z)%num ->
  exists x, index_pos l (mass_center (values f) z coord) = Ok x /\ (x * cell_sum f (fun _ v => qabs v) z = cell_sum f (fun c v => qabs v * nths l (coord c)) z)%num.
Proof.
  intros R H HV P. pose proof R as (PH & L & E). rewrite (mass_lemma f z coord HV P). set (S0 := cell_sum f (fun _ v => qabs v) z) in *. set (S1 := cell_sum f (fun c v => (qabs v * qn (coord c))%num) z).
  assert (D := qdiv_mul S1 S0 ltac:(apply qgt_neq; exact P)). set (q := (S1 / S0)%num) in *. clearbody q.
  assert (B1 : (0 <= S1)%num).
  { replace 0%num with (cell_sum f (fun _ _ => 0%num) z * 0)%num by qring. rewrite <- (cell_sum_scale f (fun _ _ => 0%num)). apply cell_sum_le. intros c v I _. replace (0 * 0)%num with 0%num by qring. apply qmul_nonneg; [apply qabs_nonneg|apply qn_nonneg]. }
  assert (B2 : (S1 <= S0 * qn (length l - 1))%num).
  { unfold S0. rewrite <- (cell_sum_scale f (fun _ v => qabs v)). apply cell_sum_le. intros c v I _. apply qmul_le_l; [apply qabs_nonneg|]. apply qz_le. specialize (H c I). lia. }
  rewrite <- D in B1, B2. rewrite (index_pos_regular l h q R).
  - eexists. split; [reflexivity|]. rewrite (cell_sum_ext f (fun c v => (qabs v * nths l (coord c))%num) (fun c v => (qabs v * nths l 0 + qabs v * qn (coord c) * h)%num)).
    + rewrite (cell_sum_add f (fun c v => (qabs v * nths l 0)%num) (fun c v => (qabs v * qn (coord c) * h)%num)), (cell_sum_scale f (fun _ v => qabs v)), (cell_sum_scale f (fun c v => (qabs v * qn (coord c))%num)). fold S0 S1. rewrite <- D. qring.
    + intros c v I. rewrite (E (coord c)) by auto. qring.
  - destruct (Qclt_le_dec q 0%num) as [Z|]; [|assumption]. exfalso. pose proof (qmul_lt_r _ _ _ P Z). qlra.
  - destruct (Qclt_le_dec (qn (length l - 1)) q) as [Z|]; [|assumption]. exfalso. pose proof (qmul_lt_r _ _ _ P Z). qlra.
Qed.
Lemma index_exact l k : k < length l -> index_pos l (Some (qn k)) = Ok (nths l k).
Proof.
  intro H. unfold index_pos. assert (Z.to_nat (qfloor (qn k)) = k) as ->.
  { assert (X := qfloor_le (qn k)). assert (Y := qfloor_lt (qn k)). set (w := qfloor (qn k)) in *. clearbody w. unfold qn in X, Y. rewrite qz_le in X. rewrite qz_lt in Y. lia. }
  destruct (qeqb_spec (qn k) (qn k)) as [_|N]; [|congruence]. assert (Nat.leb (length l) k = false) as -> by (apply Nat.leb_gt; exact H). reflexivity.
Qed.
