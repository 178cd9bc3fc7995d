(** * Sf2Proofs6: the histogram of a scalar field. *)
From Coq Require Import Lia QArith Qcanon List ZArith Permutation.
From Verif Require Import Num Res ListLib SortLib Arr FieldModel ScalarFieldModel FieldSpec PointsSpec PointsProofs5 FieldProofs FieldProofs2 GradProofs PodProofs2 VpropModel VpropSpec VpropProofs VpropProofs2 VpropProofs3 ProfileModel ProfileSpec Prof2Model BlModel BlProofs Sf2Model Sf2Spec.
From Verif Require Import Sf2Proofs3 Sf2Proofs4.

Lemma pow_cells n m : aidx n m = all_cells n m.
Proof. unfold aidx, all_cells. generalize (seq 0 n). intro l. induction l as [|i l IH]; [reflexivity|]. cbn. now rewrite IH. Qed.
Lemma showing_unique f P k k' : cells_showing f P k -> cells_showing f P k' -> k = k'.
Proof. intros (cs & N & <- & H) (cs' & N' & <- & H'). apply Permutation_length. apply NoDup_Permutation; auto. intro c. rewrite H, H'. tauto. Qed.
Lemma showing_ext f P Q k : (forall v, P v <-> Q v) -> cells_showing f P k -> cells_showing f Q k.
Proof. intros E (cs & N & L & H). exists cs. split; [exact N|]. split; [exact L|]. intro c. rewrite H. split; intros (v & S0 & X); exists v; (split; [exact S0|now apply E]). Qed.
(** ** values kept and cells *)
Lemma kept_count f a b g : sf_wf f -> sf_clean f -> cells_showing f (fun v => (a <= v <= b)%num /\ g v = true) (length (filter g (kept_values (flatten (values f)) a b))).
Proof.
  intros [[R0 R1] _] C. unfold flatten. change (d0 (values f)) with (d0 (raw f)). change (d1 (values f)) with (d1 (raw f)). rewrite R0, R1. set (n := length (ax (sg f))). set (m := length (ay (sg f))).
  set (t := fun c : nat * nat => match at_cell (values f) c with Some v => (qleb a v && qleb v b && g v)%bool | None => false end).
  exists (filter t (aidx n m)). split; [apply NoDup_filter, NoDup_aidx|]. split.
  - induction (aidx n m) as [|c l IH]; [reflexivity|]. cbn [filter map kept_values flat_map]. fold (kept_values (map (fun p => at_ (values f) (fst p) (snd p)) l) a b). rewrite filter_app, app_length, <- IH. unfold t at 1, at_cell.
    destruct (at_ (values f) (fst c) (snd c)) as [v|]; [|reflexivity]. destruct (qleb a v && qleb v b)%bool; cbn [andb filter]; [|reflexivity]. destruct (g v); reflexivity.
  - intro c. rewrite filter_In. destruct c as [i j]. rewrite in_aidx. unfold t. split.
    + intros [[H1 H2] T]. destruct (at_cell (values f) (i, j)) as [v|] eqn:E; [|discriminate]. apply andb_true_iff in T. destruct T as [T G]. apply andb_true_iff in T. destruct T as [T1 T2]. apply qleb_le in T1, T2. exists v. split; [now apply shows_iff|auto].
    + intros (v & S0 & (V1 & V2) & G). pose proof S0 as (H1 & H2 & _ & E). split; [auto|]. unfold at_cell. rewrite E, G, (proj2 (qleb_le _ _) V1), (proj2 (qleb_le _ _) V2). reflexivity.
Qed.
(** ** bins *)
Section Bins.
  Variables (a b : num) (n : nat).
  Hypothesis (AB : (a < b)%num) (NP : 0 < n).
  Definition edge (i : nat) : num := (a + qn i * ((b - a) / qn n))%num.
  Lemma edge_0 : edge 0 = a.
  Proof. unfold edge. change (qn 0) with (qz 0). set (s := ((b - a) / qn n)%num). clearbody s. qring. Qed.
  Lemma width_pos : (0 < (b - a) / qn n)%num.
  Proof. apply qdiv_pos; [qlra|now apply qn_gt0]. Qed.
  Lemma edge_n : edge n = b.
  Proof. unfold edge. rewrite (Qcmult_comm (qn n)), qdiv_mul by (apply qgt_neq; now apply qn_gt0). qring. Qed.
  Lemma bin_lemma v i : (a <= v <= b)%num -> i < n -> ((bin_index a b n v <= i)%nat <-> ((v < edge (S i))%num \/ (S i = n /\ v = edge n))) /\ bin_index a b n v < n.
  Proof.
    intros [V1 V2] I. assert (PW := width_pos). assert (PN := qn_gt0 n NP). assert (PB : (0 < b - a)%num) by qlra. unfold bin_index.
    assert (D1 := qdiv_mul (v - a)%num (b - a)%num ltac:(apply qgt_neq; exact PB)). assert (D2 := qdiv_mul (b - a)%num (qn n) ltac:(apply qgt_neq; exact PN)).
    assert (EN := edge_n). unfold edge in *. set (w := ((b - a) / qn n)%num) in *. set (r := ((v - a) / (b - a))%num) in *. clearbody r w.
    set (q := (r * qn n)%num). assert (EQ : (v - a)%num = (q * w)%num) by (rewrite <- D1, <- D2; unfold q; qring). clearbody q. clear D1 r.
    assert (Q0 : (0 <= q)%num) by (destruct (Qclt_le_dec q 0%num) as [Z|]; [|assumption]; exfalso; pose proof (qmul_lt_r _ _ _ PW Z); qlra).
    assert (Q1 : (q <= qn n)%num) by (destruct (Qclt_le_dec (qn n) q) as [Z|]; [|assumption]; exfalso; pose proof (qmul_lt_r _ _ _ PW Z); rewrite (Qcmult_comm (qn n)) in *; qlra).
    assert (F0 : (0 <= qfloor q)%Z) by (apply qfloor_iff; exact Q0). assert (F1 := qfloor_le q). assert (F2 := qfloor_lt q). set (k := Z.to_nat (qfloor q)).
    assert (E1 : qn k = qz (qfloor q)) by (unfold qn, k; now rewrite Z2Nat.id). assert (E2 : (qn k + 1)%num = qz (qfloor q + 1)) by (rewrite <- qn_S; unfold qn, k; f_equal; lia). rewrite <- E1 in F1. rewrite <- E2 in F2. clearbody k.
    assert (KN : k <= n). { destruct (le_lt_dec k n) as [|Z]; [assumption|]. exfalso. assert (X : qn k = (qn n + qn (k - n))%num) by (rewrite <- qn_add; f_equal; lia). pose proof (qn_gt0 (k - n) ltac:(lia)). qlra. }
    assert (LT : forall j, (q < qn (S j))%num <-> k <= j).
    { intro j. rewrite qn_S. split; intro H.
      - destruct (le_lt_dec k j) as [|Z]; [assumption|]. exfalso. assert (X : qn k = (qn j + 1 + qn (k - S j))%num) by (rewrite <- qn_S, <- qn_add; f_equal; lia). pose proof (qn_nonneg (k - S j)). qlra.
      - assert (X : qn j = (qn k + qn (j - k))%num) by (rewrite <- qn_add; f_equal; lia). pose proof (qn_nonneg (j - k)). qlra. }
    assert (LV : forall j, (v < a + qn j * w)%num <-> (q < qn j)%num).
    { intro j. split; intro H.
      - destruct (Qclt_le_dec q (qn j)) as [|Z]; [assumption|]. exfalso. pose proof (qmul_le_r _ _ _ (Qclt_le_weak _ _ PW) Z). qlra.
      - pose proof (qmul_lt_r _ _ _ PW H). qlra. }
    rewrite LV, LT. destruct (Nat.eqb_spec k n) as [->|NE].
    - split; [|lia]. split; [intro H; right; split; [lia|]|intros [H|[H _]]; lia]. assert (q = qn n) as -> by (apply Qcle_antisym; [exact Q1|exact F1]). rewrite (Qcmult_comm (qn n)) in EQ. rewrite (Qcmult_comm (qn n)). qlra.
    - split; [|lia]. split; [auto|]. intros [H|[H V]]; [exact H|]. lia.
  Qed.
  Lemma bin_is v i : (a <= v <= b)%num -> i < n -> bin_index a b n v = i <-> in_bin n edge i v.
  Proof.
    intros V I. unfold in_bin. destruct (bin_lemma v i V I) as [B BN]. destruct i as [|i].
    - rewrite edge_0. destruct V as [V1 V2]. split; [intro H; split; [exact V1|]; apply B; lia|intros [_ H]; apply B in H; lia].
    - destruct (bin_lemma v i V ltac:(lia)) as [B' _]. split.
      + intro H. split; [|apply B; lia]. destruct (Qclt_le_dec v (edge (S i))) as [Z|]; [|assumption]. exfalso. assert (X : bin_index a b n v <= i) by (apply B'; now left). lia.
      + intros [H1 H2]. apply B in H2. destruct (le_lt_dec (bin_index a b n v) i) as [Z|Z]; [|lia]. exfalso. apply B' in Z. destruct Z as [Z|[Z _]]; [qlra|lia].
  Qed.
  Lemma in_bin_range i v : i < n -> in_bin n edge i v -> (a <= v <= b)%num.
  Proof.
    intros I [H1 H2]. assert (PW := width_pos). assert (LE : forall j j', j <= j' -> (edge j <= edge j')%num).
    { intros j j' L. unfold edge. assert (X : qn j' = (qn j + qn (j' - j))%num) by (rewrite <- qn_add; f_equal; lia). rewrite X. set (w := ((b - a) / qn n)%num) in *. clearbody w. assert (Y := qmul_nonneg _ _ (qn_nonneg (j' - j)) (Qclt_le_weak _ _ PW)).
      replace ((qn j + qn (j' - j)) * w)%num with (qn j * w + qn (j' - j) * w)%num by qring. qlra. }
    pose proof (LE 0 i ltac:(lia)) as X. rewrite edge_0 in X. split; [qlra|]. rewrite <- edge_n. destruct H2 as [H2|[_ ->]]; [pose proof (LE (S i) n ltac:(lia)); qlra|apply qle_refl].
  Qed.
  Lemma up_to_range i v : i < n -> up_to_bin n edge i v -> (a <= v <= b)%num.
  Proof.
    intros I [H1 H2]. rewrite edge_0 in H1. split; [exact H1|]. destruct H2 as [H2|[_ ->]]; [|rewrite edge_n; apply qle_refl].
    assert (PW := width_pos). rewrite <- edge_n. unfold edge in *. assert (X : qn n = (qn (S i) + qn (n - S i))%num) by (rewrite <- qn_add; f_equal; lia). rewrite X in *. set (w := ((b - a) / (qn (S i) + qn (n - S i)))%num) in *. clearbody w.
    assert (Y := qmul_nonneg _ _ (qn_nonneg (n - S i)) (Qclt_le_weak _ _ PW)). replace ((qn (S i) + qn (n - S i)) * w)%num with (qn (S i) * w + qn (n - S i) * w)%num by qring. qlra.
  Qed.
End Bins.
(** ** sums of counts *)
Lemma count_le (g : num -> nat) vs i : length (filter (fun v => Nat.leb (g v) (S i)) vs) = length (filter (fun v => Nat.leb (g v) i) vs) + length (filter (fun v => Nat.eqb (g v) (S i)) vs).
Proof.
  induction vs as [|v vs IH]; [reflexivity|]. cbn [filter]. destruct (Nat.leb_spec (g v) (S i)), (Nat.leb_spec (g v) i), (Nat.eqb_spec (g v) (S i)); cbn [length]; lia.
Qed.
Lemma cumsum_nth (g : nat -> num) k : forall s j i, i < k -> nth i (cumsum_from (Some s) (map (fun i => Some (g i)) (seq j k))) None = Some (s + total (map g (seq j (S i))))%num.
Proof.
  induction k as [|k IH]; intros s j i I; [lia|]. cbn [seq map cumsum_from]. destruct i as [|i].
  - cbn [nth seq map]. unfold total. cbn [fold_right]. unfold oadd, lift2. f_equal. qring.
  - cbn [nth]. change (oadd (Some s) (Some (g j))) with (Some (s + g j)%num). rewrite IH by lia. f_equal. change (seq j (S (S i))) with (j :: seq (S j) (S i)). cbn [map]. unfold total. cbn [fold_right]. qring.
Qed.
Lemma cumsum_length s l : length (cumsum_from s l) = length l.
Proof. revert s. induction l as [|a l IH]; intro s; [reflexivity|]. cbn. now rewrite IH. Qed.
Lemma total_counts (g : num -> nat) vs i : total (map (fun j => qn (length (filter (fun v => Nat.eqb (g v) j) vs))) (seq 0 (S i))) = qn (length (filter (fun v => Nat.leb (g v) i) vs)).
Proof.
  induction i as [|i IH].
  - cbn [seq map]. unfold total. cbn [fold_right]. rewrite (filter_ext (fun v => Nat.eqb (g v) 0) (fun v => Nat.leb (g v) 0)) by (intro v; destruct (g v); reflexivity). qring.
  - rewrite seq_S, map_app. rewrite count_le, qn_add, <- IH. cbn [map Nat.add]. unfold total. rewrite fold_right_app. cbn [fold_right].
    generalize (qn (length (filter (fun v => Nat.eqb (g v) (S i)) vs))). intro x. generalize (map (fun j => qn (length (filter (fun v => Nat.eqb (g v) j) vs))) (seq 0 (S i))). intro l. induction l as [|y l IL]; cbn [fold_right]; [qring|]. rewrite IL. qring.
Qed.
Lemma total_scaled (g : nat -> num) c l : total (map (fun i => (g i * c)%num) l) = (total (map g l) * c)%num.
Proof. induction l as [|i l IH]; unfold total in *; cbn [map fold_right]; [qring|]. rewrite IH. qring. Qed.
(** ** the range *)
Lemma flat_some (l : list onum) : (forall o, In o l -> o <> None) -> existsb isnan l = false /\ exists vs, l = map Some vs /\ flat_map (fun o : onum => match o with Some v => [v] | None => [] end) l = vs.
Proof.
  induction l as [|o l IH]; intro H; [split; [reflexivity|now exists []]|]. destruct o as [v|]; [|exfalso; apply (H None); [now left|reflexivity]]. destruct IH as (E & vs & -> & F); [intros; apply H; now right|].
  split; [exact E|]. exists (v :: vs). split; [reflexivity|]. cbn [flat_map]. now rewrite F.
Qed.
Lemma flatten_shown f v : sf_wf f -> sf_clean f -> (In (Some v) (flatten (values f)) <-> exists c, shows_at f c v).
Proof.
  intros [[R0 R1] _] C. unfold flatten. rewrite in_map_iff. change (d0 (values f)) with (d0 (raw f)). change (d1 (values f)) with (d1 (raw f)). rewrite R0, R1. split.
  - intros ([i j] & E & I). apply in_aidx in I. exists (i, j). apply shows_iff; auto; tauto.
  - intros ([i j] & (H1 & H2 & _ & E)). exists (i, j). split; [exact E|]. now apply in_aidx.
Qed.
Lemma range_lemma f range a b : sf_wf f -> sf_clean f -> bin_range f range a b -> (a < b)%num /\ hist_range (flatten (values f)) range = Ok (a, b).
Proof.
  intros W C (lo & hi & R & K). assert (KK : (if qeqb lo hi then ((lo - qq 1 2)%num, (hi + qq 1 2)%num) else (lo, hi)) = (a, b)).
  { destruct K as [(L & -> & ->)|(-> & -> & ->)]; [rewrite (proj2 (qeqb_neq _ _)) by (now apply qlt_neq); reflexivity|]. now rewrite (proj2 (qeqb_eq _ _) eq_refl). }
  assert (AB : (a < b)%num) by (assert (X : (0 < qq 1 2)%num) by reflexivity; destruct K as [(L & -> & ->)|(-> & -> & ->)]; qlra). split; [exact AB|].
  unfold hist_range. destruct range as [[p q]|].
  - destruct R as (-> & -> & L). rewrite (proj2 (qltb_ge _ _) L). cbn [guard]. now rewrite KK.
  - destruct R as (NM & [(c & S0) MN] & [(c' & S1) MX]). destruct (flat_some (flatten (values f))) as (EX & vs & EF & EV).
    { intros o I. unfold flatten in I. apply in_map_iff in I. destruct I as ([i j] & <- & I). pose proof W as [[R0 R1] _]. change (d0 (values f)) with (d0 (raw f)) in I. change (d1 (values f)) with (d1 (raw f)) in I. rewrite R0, R1 in I. apply in_aidx in I. destruct (NM i j) as (v & _ & _ & _ & E); [tauto|tauto|]. cbn [fst snd] in *. rewrite E. discriminate. }
    rewrite EX. cbn [guard]. rewrite EV. assert (HI : forall v, In v vs <-> exists c, shows_at f c v).
    { intro v. rewrite <- (flatten_shown f v W C), EF, in_map_iff. split; [intro; now exists v|intros (w & [= ->] & I); exact I]. }
    assert (NE : vs <> []) by (intro E; assert (X : In lo vs) by (apply HI; eauto); now rewrite E in X).
    assert (lmin vs = lo) as E1. { apply Qcle_antisym; [apply lmin_le, HI; eauto|]. destruct (proj1 (HI _) (lmin_in vs NE)) as (d & Sd). eauto. }
    assert (lmax vs = hi) as E2. { apply Qcle_antisym; [|apply lmax_ge, HI; eauto]. destruct (proj1 (HI _) (lmax_in vs NE)) as (d & Sd). eauto. }
    destruct vs as [|v0 vs]; [congruence|]. rewrite E1, E2. now rewrite KK.
Qed.
Lemma histogram_lemma counts f cum normalized bins n range a b : sf_wf f -> sf_clean f -> bins_meant bins n -> bin_range f range a b ->
  exists p e, get_histogram counts f cum normalized bins range = Ok p /\ equal_bins a b n e /\ length (px p) = n /\ length (yv p) = n /\ pux p = uv f /\ puy p = counts /\
    (forall i, i < n -> nths (px p) i = ((e i + e (S i)) / 2 + a)%num) /\
    forall N, cells_showing f (fun v => (a <= v <= b)%num) N -> (normalized = true -> 0 < N) -> forall i, i < n ->
      exists k y, cells_showing f (if cum then up_to_bin n e i else in_bin n e i) k /\ nth i (yv p) None = Some y /\
        if normalized then (y * (qn N * (e (S i) - e i)) = qn k)%num else y = qn k.
Proof.
  intros W C BM BR. destruct (range_lemma f range a b W C BR) as [AB ER]. unfold get_histogram. set (l := flatten (values f)) in *.
  assert (NN : 0 < n /\ (match bins with None => 10%Z | Some z => z end) = Z.of_nat n) by (destruct bins; cbn in BM; [destruct BM as [-> X]; auto|subst n; split; [lia|reflexivity]]).
  destruct NN as [NP ->]. assert ((Z.of_nat n <? 1)%Z = false) as -> by (apply Z.ltb_ge; lia). cbn [guard]. rewrite ER. cbn [bind]. rewrite Nat2Z.id.
  set (vs := kept_values l a b). set (xs := map _ (seq 0 n)). set (h0 := map Some (bin_counts a b n vs)). set (W0 := ((b - a) / qn n * qn (length vs))%num).
  set (e := edge a b n). set (cnt := fun i => qn (length (filter (fun v => Nat.eqb (bin_index a b n v) i) vs))).
  set (g := fun i => if normalized then (cnt i / W0)%num else cnt i).
  assert (PW := width_pos a b n AB NP). assert (ST : forall i, (e (S i) - e i = (b - a) / qn n)%num) by (intro i; unfold e, edge; rewrite qn_S; set (w := ((b - a) / qn n)%num); clearbody w; qring).
  assert (NX : forall i, i < n -> nths xs i = ((e i + e (S i)) / 2 + a)%num).
  { intros i I. unfold xs. rewrite (map_seq_nth (fun i => (nths (linspace a b n) i + (nths (linspace a b n) 0 + nths (linspace a b n) 1) / 2)%num)) by exact I. rewrite !linspace_nth by lia. fold (edge a b n i) (edge a b n 0) (edge a b n 1). rewrite edge_0. fold e.
    assert (X1 := ST i). assert (X2 := ST 0). unfold e in X2 at 2. rewrite edge_0 in X2. fold e in X2. change (edge a b n 1) with (e 1). set (w := ((b - a) / qn n)%num) in *. clearbody w.
    assert (E1 : e 1 = (a + w)%num) by qlra. assert (E2 : e (S i) = (e i + w)%num) by qlra. rewrite E1, E2. qfield; try discriminate. }
  assert (LX : length xs = n) by (unfold xs; now rewrite map_length, seq_length).
  assert (INC : increasing xs).
  { intros i j IJ J. rewrite LX in J. rewrite !NX by lia. assert (Q : forall j, e j = (a + qn j * ((b - a) / qn n))%num) by reflexivity. assert (X : qn j = (qn i + qn (j - i))%num) by (rewrite <- qn_add; f_equal; lia).
    assert (XX : (e j + e (S j))%num = (e i + e (S i) + 2 * (qn (j - i) * ((b - a) / qn n)))%num) by (rewrite !Q, !qn_S, X; set (w := ((b - a) / qn n)%num); clearbody w; qring). rewrite XX. assert (Y := qmul_pos _ _ (qn_gt0 (j - i) ltac:(lia)) PW).
    set (u := (qn (j - i) * ((b - a) / qn n))%num) in *. clearbody u. replace ((e i + e (S i) + 2 * u) / 2)%num with ((e i + e (S i)) / 2 + u)%num by (qfield; try discriminate). qlra. }
  assert (EH : forall N, N = length vs -> (normalized = true -> 0 < N) -> (if normalized then map (fun c => odiv c (Some W0)) h0 else h0) = map (fun i => Some (g i)) (seq 0 n)).
  { intros N EN PN. unfold h0, bin_counts. fold cnt. unfold g. destruct normalized; rewrite !map_map; [|reflexivity]. apply map_ext. intro i. cbn [odiv]. rewrite (proj2 (qeqb_neq _ _)); [reflexivity|]. apply qgt_neq. unfold W0. apply qmul_pos; [exact PW|apply qn_gt0; specialize (PN eq_refl); lia]. }
  assert (LH : length (if normalized then map (fun c => odiv c (Some W0)) h0 else h0) = n) by (unfold h0, bin_counts; destruct normalized; now rewrite !map_length, seq_length).
  set (h := if normalized then map (fun c => odiv c (Some W0)) h0 else h0) in *. set (ys := if cum then cumsum_from (Some 0%num) h else h).
  assert (LY : length ys = n) by (unfold ys; destruct cum; [now rewrite cumsum_length|exact LH]).
  destruct (new_nth xs ys None (uv f) counts) as (p & EP & OK & U & V & X & Y); [lia|exact I|now apply increasing_nondecreasing|]. 
  exists p, e. split; [exact EP|]. split; [intros i _; reflexivity|]. split; [now rewrite X|]. split; [destruct OK as (O1 & O2 & _); unfold yv, nan_at; rewrite map_length, combine_length; rewrite X in *; lia|]. split; [exact U|]. split; [exact V|]. split; [now rewrite X|].
  intros N CN PN i I0. destruct (Y i) as [Yi _]; [lia|]. cbn in Yi. rewrite Yi. clear Yi Y.
  assert (N = length vs) as EN.
  { apply (showing_unique f _ _ _ CN). rewrite <- (map_id vs). rewrite map_id. assert (Z := kept_count f a b (fun _ => true) W C). fold l vs in Z. assert (filter (fun _ : num => true) vs = vs) as EE by (clear; induction vs as [|v r IH]; [reflexivity|cbn; now rewrite IH]). rewrite EE in Z. apply (showing_ext _ _ _ _) with (2 := Z). intro v. tauto. }
  specialize (EH N EN PN). subst N. rewrite ST.
  assert (FIN : forall k y, y = (if normalized then qn k / W0 else qn k)%num -> if normalized then (y * (qn (length vs) * ((b - a) / qn n)) = qn k)%num else y = qn k).
  { intros k y ->. destruct normalized; [|reflexivity]. replace (qn (length vs) * ((b - a) / qn n))%num with W0 by (unfold W0; apply Qcmult_comm). apply qdiv_mul. apply qgt_neq. unfold W0. apply qmul_pos; [exact PW|apply qn_gt0; auto]. }
  destruct cum.
  - exists (length (filter (fun v => Nat.leb (bin_index a b n v) i) vs)). eexists. split; [|split].
    + apply (showing_ext f (fun v => (a <= v <= b)%num /\ Nat.leb (bin_index a b n v) i = true)); [|apply kept_count; assumption]. intro v. split.
      * intros [V0 B]. apply Nat.leb_le in B. apply (bin_lemma a b n AB NP v i V0 I0) in B. split; [unfold e; rewrite edge_0; apply V0|exact B].
      * intro B. assert (V0 := up_to_range a b n AB NP i v I0 B). split; [exact V0|]. apply Nat.leb_le. apply (bin_lemma a b n AB NP v i V0 I0). apply B.
    + unfold ys. rewrite EH, cumsum_nth by exact I0. reflexivity.
    + apply FIN. unfold g. destruct normalized.
      * transitivity (0 + total (map (fun i => (cnt i * Qcinv W0)%num) (seq 0 (S i))))%num; [reflexivity|]. rewrite total_scaled. unfold cnt. rewrite total_counts. unfold Qcdiv. qring.
      * rewrite <- (total_counts (bin_index a b n)). fold cnt. change (fun i0 : nat => cnt i0) with cnt. generalize (total (map cnt (seq 0 (S i)))). intro t. qring.
  - exists (length (filter (fun v => Nat.eqb (bin_index a b n v) i) vs)). eexists. split; [|split].
    + apply (showing_ext f (fun v => (a <= v <= b)%num /\ Nat.eqb (bin_index a b n v) i = true)); [|apply kept_count; assumption]. intro v. split.
      * intros [V0 B]. apply Nat.eqb_eq in B. now apply (bin_is a b n AB NP v i V0 I0) in B.
      * intro B. assert (V0 := in_bin_range a b n AB NP i v I0 B). split; [exact V0|]. apply Nat.eqb_eq. now apply (bin_is a b n AB NP v i V0 I0).
    + unfold ys. rewrite EH. rewrite (nth_indep _ None (Some (g 0))) by (rewrite map_length, seq_length; exact I0). rewrite (map_nth (fun i => Some (g i))), seq_nth by exact I0. reflexivity.
    + apply FIN. unfold g, cnt. reflexivity.
Qed.
(** a masked cell: without a range the call fails *)
Lemma histogram_masked counts f cum normalized bins n i j : sf_wf f -> sf_clean f -> bins_meant bins n -> i < length (ax (sg f)) -> j < length (ay (sg f)) -> at_ (msk f) i j = true ->
  get_histogram counts f cum normalized bins None = Err ValueErr.
Proof.
  intros W C BM I J M. unfold get_histogram. assert (NN : 0 < n /\ (match bins with None => 10%Z | Some z => z end) = Z.of_nat n) by (destruct bins; cbn in BM; [destruct BM as [-> X]; auto|subst n; split; [lia|reflexivity]]).
  destruct NN as [NP ->]. assert ((Z.of_nat n <? 1)%Z = false) as -> by (apply Z.ltb_ge; lia). cbn [guard hist_range].
  assert (existsb isnan (flatten (values f)) = true) as ->; [|reflexivity]. apply existsb_exists. exists None. split; [|reflexivity]. unfold flatten. apply in_map_iff. exists (i, j). pose proof W as [[R0 R1] _].
  split; [cbn [fst snd]; now apply (proj1 (sf_clean_idx f) C i j I J)|]. change (d0 (values f)) with (d0 (raw f)). change (d1 (values f)) with (d1 (raw f)). rewrite R0, R1. now apply in_aidx.
Qed.
