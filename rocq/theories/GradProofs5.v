From Verif Require Import Num Res ListLib SortLib Arr FieldModel ScalarFieldModel VectorFieldModel PointsModel FieldSpec FieldProofs FieldProofs2 ScalarProofs GradModel GradSpec GradProofs GradProofs2 GradProofs3 GradProofs4.

(** ** the middle of the list of points of a disc is its centre *)
Lemma rev_flat_map {A B} (f : A -> list B) l : rev (flat_map f l) = flat_map (fun a => rev (f a)) (rev l).
Proof.
  induction l as [|a l IH]; [reflexivity|]. cbn [flat_map rev]. rewrite rev_app_distr, IH, flat_map_app. cbn. now rewrite app_nil_r.
Qed.
Lemma rev_filter {A} (p : A -> bool) l : rev (filter p l) = filter p (rev l).
Proof.
  induction l as [|a l IH]; [reflexivity|]. cbn [filter rev]. rewrite filter_app, <- IH. cbn [filter].
  destruct (p a); cbn [rev]; [reflexivity|now rewrite app_nil_r].
Qed.
Lemma filter_map_comm {A B} (p : B -> bool) (f : A -> B) l : filter p (map f l) = map f (filter (fun a => p (f a)) l).
Proof. induction l as [|a l IH]; [reflexivity|]. cbn. destruct (p (f a)); cbn; now rewrite IH. Qed.
Lemma rev_seq_map n : rev (seq 0 n) = map (fun k => n - 1 - k) (seq 0 n).
Proof.
  induction n as [|n IH]; [reflexivity|]. rewrite seq_S at 1. rewrite rev_app_distr. cbn [rev app]. rewrite IH.
  cbn [seq map]. f_equal; [lia|]. rewrite <- seq_shift, map_map. apply map_ext. intro k. lia.
Qed.
Lemma rev_zrange a b : rev (zrange a b) = map (fun z => a + b - 1 - z)%Z (zrange a b).
Proof.
  unfold zrange. rewrite <- map_rev, rev_seq_map, !map_map. apply map_ext_in. intros k Hk. apply in_seq in Hk. lia.
Qed.
Definition reflect (c p : Z * Z) : Z * Z := (2 * fst c - fst p, 2 * snd c - snd p)%Z.
Lemma keep_reflect c r p : keep_around (qz (fst c)) (qz (snd c)) r (reflect c p) = keep_around (qz (fst c)) (qz (snd c)) r p.
Proof.
  destruct c as [a b], p as [x y]. unfold keep_around, reflect. cbn [fst snd].
  replace (qz (2 * a - x) - qz a)%num with (qz a - qz x)%num by (rewrite qz_sub, qz_mul; qring).
  replace (qz a - qz (2 * a - x))%num with (qz x - qz a)%num by (rewrite qz_sub, qz_mul; qring).
  replace (qz (2 * b - y) - qz b)%num with (qz b - qz y)%num by (rewrite qz_sub, qz_mul; qring).
  replace (qz b - qz (2 * b - y))%num with (qz y - qz b)%num by (rewrite qz_sub, qz_mul; qring).
  assert ((le_int (qz a - qz x) r && le_int (qz x - qz a) r && le_int (qz b - qz y) r && le_int (qz y - qz b) r)%num%bool =
          (le_int (qz x - qz a) r && le_int (qz a - qz x) r && le_int (qz y - qz b) r && le_int (qz b - qz y) r)%num%bool) as ->.
  { destruct (le_int (qz a - qz x)%num r), (le_int (qz x - qz a)%num r), (le_int (qz b - qz y)%num r), (le_int (qz y - qz b)%num r); reflexivity. }
  assert (qeqb (qz (2 * a - x)) (qz a) = qeqb (qz x) (qz a)) as ->.
  { destruct (qeqb_spec (qz x) (qz a)) as [E|E]; destruct (qeqb_spec (qz (2 * a - x)) (qz a)) as [E'|E']; try reflexivity; exfalso.
    - apply E'. apply qz_inj in E. f_equal. lia.
    - apply E. apply qz_inj in E'. f_equal. lia. }
  assert (qeqb (qz (2 * b - y)) (qz b) = qeqb (qz y) (qz b)) as ->.
  { destruct (qeqb_spec (qz y) (qz b)) as [E|E]; destruct (qeqb_spec (qz (2 * b - y)) (qz b)) as [E'|E']; try reflexivity; exfalso.
    - apply E'. apply qz_inj in E. f_equal. lia.
    - apply E. apply qz_inj in E'. f_equal. lia. }
  replace ((qz a - qz x) * (qz a - qz x) + (qz b - qz y) * (qz b - qz y))%num
    with ((qz x - qz a) * (qz x - qz a) + (qz y - qz b) * (qz y - qz b))%num by qring.
  reflexivity.
Qed.
Lemma qfloor_shift a r : qfloor (qz a + r)%num = (a + qfloor r)%Z.
Proof.
  apply Z.le_antisymm.
  - assert (qfloor (qz a + r)%num - a <= qfloor r)%Z; [|lia]. apply qfloor_iff. rewrite qz_sub.
    pose proof (qfloor_le (qz a + r)%num). qlra.
  - apply qfloor_iff. rewrite qz_add. pose proof (qfloor_le r). qlra.
Qed.
Lemma qceil_shift a r : qceil (qz a - r)%num = (a - qfloor r)%Z.
Proof.
  apply Z.le_antisymm.
  - apply qceil_iff. rewrite qz_sub. pose proof (qfloor_le r). qlra.
  - assert (a - qceil (qz a - r)%num <= qfloor r)%Z; [|lia]. apply qfloor_iff. rewrite qz_sub.
    pose proof (qceil_ge (qz a - r)%num). qlra.
Qed.
Lemma points_symmetric a b r l : points_around_ind (qz a) (qz b) r = Ok l -> rev l = map (reflect (a, b)) l.
Proof.
  unfold points_around_ind. destruct (negb (qltb 0%num r)); [discriminate|]. cbn [guard]. intro E. injection E as <-.
  rewrite rev_filter, rev_flat_map.
  set (xs := zrange (qceil (qz a - r)%num) (qfloor (qz a + r)%num + 1)). set (ys := zrange (qceil (qz b - r)%num) (qfloor (qz b + r)%num + 1)).
  assert (rev xs = map (fun z => 2 * a - z)%Z xs) as Rx.
  { unfold xs. rewrite rev_zrange. rewrite qceil_shift, qfloor_shift. apply map_ext. intro z. lia. }
  assert (rev ys = map (fun z => 2 * b - z)%Z ys) as Ry.
  { unfold ys. rewrite rev_zrange. rewrite qceil_shift, qfloor_shift. apply map_ext. intro z. lia. }
  assert (flat_map (fun y => rev (map (fun x => (x, y)) xs)) (rev ys) = map (reflect (a, b)) (flat_map (fun y => map (fun x => (x, y)) xs) ys)) as ->.
  { rewrite Ry. rewrite flat_map_concat_map, map_map, flat_map_concat_map, concat_map, map_map. f_equal. apply map_ext. intro y.
    rewrite <- map_rev, Rx, !map_map. apply map_ext. intro x. reflexivity. }
  rewrite filter_map_comm. f_equal. apply filter_ext. intro p. apply (keep_reflect (a, b)).
Qed.
Lemma middle_centre (c : Z * Z) l : NoDup l -> In c l -> rev l = map (reflect c) l -> nth_error l (length l / 2) = Some c.
Proof.
  intros N I E. apply In_nth_error in I. destruct I as (k & Hk). pose proof (nth_error_Some_lt _ _ _ Hk) as Lk.
  assert (nth_error (rev l) k = Some c) as R.
  { rewrite E, nth_error_map, Hk. cbn [option_map]. unfold reflect. destruct c. cbn [fst snd]. f_equal. f_equal; lia. }
  assert (nth_error l (length l - 1 - k) = Some c) as R'.
  { rewrite (nth_error_nth' _ c) by lia. rewrite (nth_error_nth' _ c) in R by (rewrite rev_length; lia).
    injection R as R. rewrite rev_nth in R by lia. replace (length l - 1 - k) with (length l - S k) by lia. now rewrite R. }
  assert (k = length l - 1 - k) as K.
  { apply (proj1 (NoDup_nth_error l) N); [exact Lk|]. now rewrite Hk, R'. }
  assert (length l / 2 = k) as ->; [|exact Hk]. symmetry. apply Nat.div_unique with (r := 1); lia.
Qed.
Lemma keep_one {A} (l : list A) k : forall s, k < length l ->
  keep (map (fun i => negb (existsb (Nat.eqb i) [s + k])) (seq s (length l))) l = firstn k l ++ skipn (S k) l.
Proof.
  revert k. induction l as [|a l IH]; intros k s H; cbn in H; [lia|]. cbn [length seq map]. destruct k as [|k].
  - replace (s + 0) with s by lia. cbn [existsb]. rewrite Nat.eqb_refl. cbn [orb negb keep firstn skipn app].
    clear IH H. assert (forall t, s < t -> keep (map (fun i => negb (existsb (Nat.eqb i) [s])) (seq t (length l))) l = l) as K.
    { induction l as [|b l IH]; intros t Ht; [reflexivity|]. cbn [length seq map existsb].
      assert (Nat.eqb t s = false) as -> by (apply Nat.eqb_neq; lia). cbn [orb negb keep]. f_equal. apply IH. lia. }
    apply K. lia.
  - cbn [existsb]. assert (Nat.eqb s (s + S k) = false) as -> by (apply Nat.eqb_neq; lia). cbn [orb negb keep firstn skipn app]. f_equal.
    specialize (IH k (S s) ltac:(lia)). replace (s + S k) with (S s + k) by lia. exact IH.
Qed.
Lemma np_delete_one {A} (l : list A) k : k < length l -> np_delete [Z.of_nat k] l = Ok (firstn k l ++ skipn (S k) l).
Proof.
  intro H. unfold np_delete. cbn [mapM]. unfold norm_ind.
  assert (((0 <=? Z.of_nat k) && (Z.of_nat k <? Z.of_nat (length l)))%Z%bool = true) as ->.
  { apply andb_true_iff. split; [apply Z.leb_le|apply Z.ltb_lt]; lia. }
  rewrite Nat2Z.id. cbn [bind]. rewrite <- (keep_one l k 0 H). reflexivity.
Qed.
Lemma nth_split' {A} (l : list A) k c : nth_error l k = Some c -> l = firstn k l ++ c :: skipn (S k) l.
Proof.
  revert k. induction l as [|a l IH]; intros [|k] H; cbn in H; try discriminate.
  - now injection H as <-.
  - cbn. f_equal. now apply IH.
Qed.

(** the motif of ind=True: every shift of the disc but the null one *)
Lemma motif_ind_spec n m r : (0 < r)%num -> exists l, motif_ind n m r = Ok l /\ NoDup l /\
  forall i j, In (i, j) l <-> (i, j) <> (0, 0)%Z /\ disc r 0 0 i j.
Proof.
  intro Hr. unfold motif_ind. set (a := Z.of_nat (n / 2)). set (b := Z.of_nat (m / 2)). cbn [fst snd].
  destruct (points_around_lemma (qz a) (qz b) r) as [_ P]. destruct (P Hr) as (l & E & N & Sl). rewrite E. cbn [bind].
  pose proof (points_symmetric _ _ _ _ E) as R.
  assert (In (a, b) l) as I.
  { apply Sl. replace (qz a - qz a)%num with 0%num by qring. replace (qz b - qz b)%num with 0%num by qring.
    pose proof (qsq_nonneg r). qlra. }
  pose proof (middle_centre (a, b) l N I R) as M. pose proof (nth_error_Some_lt _ _ _ M) as Lt.
  rewrite np_delete_one by (rewrite map_length; exact Lt). eexists. split; [reflexivity|].
  rewrite firstn_map, skipn_map, <- map_app. pose proof (nth_split' _ _ _ M) as Sp.
  set (l' := firstn (length l / 2) l ++ skipn (S (length l / 2)) l) in *.
  assert (Permutation l ((a, b) :: l')) as Pm.
  { rewrite Sp at 1. unfold l'. symmetry. apply Permutation_middle. }
  assert (NoDup ((a, b) :: l')) as N' by (now apply (Permutation_NoDup Pm)). inversion N' as [|x y Nc Nl]; subst x y.
  split.
  - apply FinFun.Injective_map_NoDup; [|exact Nl]. intros [x y] [x' y']. unfold zsub. cbn [fst snd]. intro H. injection H as H1 H2. f_equal; lia.
  - intros i j. rewrite in_map_iff. split.
    + intros ([x y] & H & Hin). unfold zsub in H. cbn [fst snd] in H. injection H as H1 H2. split.
      * intro Z. injection Z as Z1 Z2. apply Nc. replace a with x by lia. now replace b with y by lia.
      * assert (In (x, y) l) as Hl by (apply (Permutation_in _ (Permutation_sym Pm)); now right).
        apply Sl in Hl. unfold disc. rewrite !Z.sub_0_r. rewrite <- H1, <- H2. rewrite !qz_sub. exact Hl.
    + intros [Nz D]. exists (a + i, b + j)%Z. split.
      * unfold zsub. cbn [fst snd]. f_equal; lia.
      * assert (In (a + i, b + j)%Z l) as Hl.
        { apply Sl. unfold disc in D. rewrite !Z.sub_0_r in D. rewrite !qz_add.
          replace (qz a + qz i - qz a)%num with (qz i) by qring. replace (qz b + qz j - qz b)%num with (qz j) by qring. exact D. }
        apply (Permutation_in _ Pm) in Hl. destruct Hl as [Hl|Hl]; [|exact Hl]. exfalso. apply Nz. injection Hl as H1 H2. f_equal; lia.
Qed.

(** ** the skipped cells *)
Lemma disc_shift r i j a b : disc r i j a b <-> disc r 0 0 (a - i) (b - j).
Proof. unfold disc. now rewrite !Z.sub_0_r. Qed.
Lemma disc_neg r i j : disc r 0 0 i j -> disc r 0 0 (- i) (- j).
Proof.
  unfold disc. rewrite !Z.sub_0_r, !qz_opp. intro H. replace (- qz i * - qz i + - qz j * - qz j)%num with (qz i * qz i + qz j * qz j)%num by qring. exact H.
Qed.
Lemma disc_bound r i j : (0 < r)%num -> disc r 0 0 i j -> (- qfloor r <= i <= qfloor r)%Z /\ (- qfloor r <= j <= qfloor r)%Z.
Proof.
  intros Hr. unfold disc. rewrite !Z.sub_0_r. intro H.
  assert (forall u v, (u * u + v * v <= r * r)%num -> (u <= r)%num /\ (- u <= r)%num) as B.
  { intros u v K. pose proof (qsq_nonneg v). split.
    - destruct (qleb_spec u r) as [|L]; [assumption|]. exfalso. qnra.
    - destruct (qleb_spec (- u)%num r) as [|L]; [assumption|]. exfalso. qnra. }
  destruct (B _ _ H) as [A1 A2]. destruct (B (qz j) (qz i) ltac:(qlra)) as [B1 B2].
  assert (i <= qfloor r)%Z by now apply qfloor_iff. assert (- i <= qfloor r)%Z by (apply qfloor_iff; now rewrite qz_opp).
  assert (j <= qfloor r)%Z by now apply qfloor_iff. assert (- j <= qfloor r)%Z by (apply qfloor_iff; now rewrite qz_opp). lia.
Qed.
Lemma disc_axis r z : (0 < r)%num -> (- qfloor r <= z <= qfloor r)%Z -> disc r 0 0 z 0 /\ disc r 0 0 0 z.
Proof.
  intros Hr Hz. unfold disc. rewrite !Z.sub_0_r. change (qz 0) with 0%num.
  assert ((qz z <= r)%num /\ (- qz z <= r)%num) as [A B].
  { split; [|rewrite <- qz_opp]; apply qfloor_iff; lia. }
  assert (qz z * qz z <= r * r)%num by qnra. split; qlra.
Qed.
Lemma qfloor_nonneg r : (0 < r)%num -> (0 <= qfloor r)%Z.
Proof. intro H. apply qfloor_iff. change (qz 0) with 0%num. qlra. Qed.

Lemma neighbourhood_ind_lemma f user r : vf_wf f -> user_fits f user -> (0 < r)%num ->
  exists k, neighbourhood f user r true = Ok k /\
    NoDup (nmotif k) /\ (forall i j, In (i, j) (nmotif k) <-> (i, j) <> (0, 0)%Z /\ disc r 0 0 i j) /\
    forall i j, i < length (ax (vg f)) -> j < length (ay (vg f)) ->
      (skipped k i j = true <-> spoiled (length (ax (vg f))) (length (ay (vg f))) (both_masks f user) r i j).
Proof.
  intros (_ & _ & [M0 M1]) U Hr. unfold neighbourhood. set (n := length (ax (vg f))) in *. set (m := length (ay (vg f))) in *.
  destruct (motif_ind_spec n m r Hr) as (l & E & N & S). rewrite E. cbn [bind]. eexists. split; [reflexivity|]. cbn [nmotif].
  split; [exact N|]. split; [exact S|]. intros i j Hi Hj.
  unfold skipped. cbn [nmask nsurr nborder]. set (mask := match user with None => vmsk f | Some a => amap2 orb a (vmsk f) end).
  assert (d0 mask = n /\ d1 mask = m) as [D0 D1].
  { unfold mask. destruct user as [a|]; [destruct U|]; cbn; split; assumption. }
  assert (forall p q, at_ mask p q = both_masks f user p q) as B by (intros; unfold mask, both_masks; destruct user; reflexivity).
  pose proof (qfloor_nonneg r Hr) as F0.
  assert (Bd : border_ind n m r i j = true <-> ~ (qfloor r <= Z.of_nat i /\ Z.of_nat i + qfloor r < Z.of_nat n /\
                                                    qfloor r <= Z.of_nat j /\ Z.of_nat j + qfloor r < Z.of_nat m)%Z).
  { unfold border_ind. rewrite !orb_true_iff, !Z.leb_le. lia. }
  assert (Sr : surrounded l mask i j = true <-> exists p q, p < n /\ q < m /\ both_masks f user p q = true /\
               (p, q) <> (i, j) /\ disc r (Z.of_nat i) (Z.of_nat j) (Z.of_nat p) (Z.of_nat q)).
  { unfold surrounded. rewrite existsb_exists, D0, D1. split.
    - intros ([p q] & Hin & H). apply in_aidx in Hin. cbn [fst snd] in H. apply andb_true_iff in H. destruct H as [H1 H2].
      apply existsb_exists in H2. destruct H2 as ([s t] & Hs & H2). cbn [fst snd] in H2. apply andb_true_iff in H2. rewrite !Z.eqb_eq in H2.
      apply S in Hs. destruct Hs as [Nz Ds]. exists p, q. rewrite <- B. repeat split; try tauto.
      + intro K. injection K as -> ->. apply Nz. f_equal; lia.
      + apply disc_shift. apply disc_neg in Ds. replace (Z.of_nat p - Z.of_nat i)%Z with (- s)%Z by lia. now replace (Z.of_nat q - Z.of_nat j)%Z with (- t)%Z by lia.
    - intros (p & q & Hp & Hq & Mk & Ne & D). exists (p, q). split; [now apply in_aidx|]. cbn [fst snd]. rewrite B, Mk. cbn [andb].
      apply existsb_exists. exists (Z.of_nat i - Z.of_nat p, Z.of_nat j - Z.of_nat q)%Z. cbn [fst snd]. split.
      + apply S. split.
        * intro K. injection K as K1 K2. apply Ne. f_equal; lia.
        * apply (proj1 (disc_shift _ _ _ _ _)) in D. apply disc_neg in D.
          replace (Z.of_nat i - Z.of_nat p)%Z with (- (Z.of_nat p - Z.of_nat i))%Z by lia.
          now replace (Z.of_nat j - Z.of_nat q)%Z with (- (Z.of_nat q - Z.of_nat j))%Z by lia.
      + apply andb_true_iff. rewrite !Z.eqb_eq. lia. }
  rewrite !orb_true_iff, Sr, Bd, B. split.
  - intros [[H|H]|H].
    + exists (Z.of_nat i), (Z.of_nat j). split.
      * unfold disc. rewrite !Z.sub_diag. change (qz 0) with 0%num. pose proof (qsq_nonneg r). qlra.
      * intros (p & q & Ep & Eq & _ & _ & K). apply Nat2Z.inj in Ep, Eq. subst. congruence.
    + destruct H as (p & q & Hp & Hq & Mk & Ne & D). exists (Z.of_nat p), (Z.of_nat q). split; [exact D|].
      intros (p' & q' & Ep & Eq & _ & _ & K). apply Nat2Z.inj in Ep, Eq. subst. congruence.
    + assert (exists z w, disc r 0 0 z w /\ ~ (0 <= Z.of_nat i + z < Z.of_nat n /\ 0 <= Z.of_nat j + w < Z.of_nat m))%Z as (z & w & D & O).
      { destruct (Z_lt_le_dec (Z.of_nat i) (qfloor r)). { exists (- qfloor r)%Z, 0%Z. split; [apply disc_axis; auto; lia|lia]. }
        destruct (Z_lt_le_dec (Z.of_nat i + qfloor r) (Z.of_nat n)). 2: { exists (qfloor r), 0%Z. split; [apply disc_axis; auto; lia|lia]. }
        destruct (Z_lt_le_dec (Z.of_nat j) (qfloor r)). { exists 0%Z, (- qfloor r)%Z. split; [apply disc_axis; auto; lia|lia]. }
        destruct (Z_lt_le_dec (Z.of_nat j + qfloor r) (Z.of_nat m)). 2: { exists 0%Z, (qfloor r). split; [apply disc_axis; auto; lia|lia]. }
        exfalso. apply H. lia. }
      exists (Z.of_nat i + z)%Z, (Z.of_nat j + w)%Z. split.
      * apply disc_shift. replace (Z.of_nat i + z - Z.of_nat i)%Z with z by lia. now replace (Z.of_nat j + w - Z.of_nat j)%Z with w by lia.
      * intros (p & q & Ep & Eq & Hp & Hq & _). lia.
  - intros (a & b & D & Nu). destruct (Z_lt_le_dec a 0) as [A|A].
    { right. intro K. apply (proj1 (disc_shift _ _ _ _ _)) in D. apply (disc_bound r _ _ Hr) in D. lia. }
    destruct (Z_lt_le_dec b 0) as [A'|A'].
    { right. intro K. apply (proj1 (disc_shift _ _ _ _ _)) in D. apply (disc_bound r _ _ Hr) in D. lia. }
    destruct (Z_lt_le_dec a (Z.of_nat n)) as [A2|A2].
    2: { right. intro K. apply (proj1 (disc_shift _ _ _ _ _)) in D. apply (disc_bound r _ _ Hr) in D. lia. }
    destruct (Z_lt_le_dec b (Z.of_nat m)) as [A3|A3].
    2: { right. intro K. apply (proj1 (disc_shift _ _ _ _ _)) in D. apply (disc_bound r _ _ Hr) in D. lia. }
    left. assert (both_masks f user (Z.to_nat a) (Z.to_nat b) = true) as Mk.
    { destruct (both_masks f user (Z.to_nat a) (Z.to_nat b)) eqn:K; [reflexivity|]. exfalso. apply Nu. exists (Z.to_nat a), (Z.to_nat b). repeat split; first [lia|exact K]. }
    destruct (Nat.eq_dec (Z.to_nat a) i) as [Ei|Ei]; [destruct (Nat.eq_dec (Z.to_nat b) j) as [Ej|Ej]|].
    + left. now rewrite <- Ei, <- Ej.
    + right. exists (Z.to_nat a), (Z.to_nat b). repeat split; try lia; try exact Mk.
      * intro K. injection K as K1 K2. congruence.
      * rewrite !Z2Nat.id by lia. exact D.
    + right. exists (Z.to_nat a), (Z.to_nat b). repeat split; try lia; try exact Mk.
      * intro K. injection K as K1 K2. congruence.
      * rewrite !Z2Nat.id by lia. exact D.
Qed.

(** ** reading the neighbours of a cell that is not skipped *)
Lemma not_spoiled n m mask r i j : ~ spoiled n m mask r i j -> forall a b, disc r (Z.of_nat i) (Z.of_nat j) a b ->
  (0 <= a < Z.of_nat n)%Z /\ (0 <= b < Z.of_nat m)%Z /\ mask (Z.to_nat a) (Z.to_nat b) = false.
Proof.
  intros H a b D.
  assert (usable n m mask a b \/ ~ usable n m mask a b) as [(p & q & -> & -> & Hp & Hq & M)|N].
  - unfold usable. destruct (Z_lt_le_dec a 0) as [A|A]; [right; intros (p & q & ? & ? & ? & ? & _); lia|].
    destruct (Z_lt_le_dec b 0) as [A'|A']; [right; intros (p & q & ? & ? & ? & ? & _); lia|].
    destruct (Z_lt_le_dec a (Z.of_nat n)) as [A2|A2]; [|right; intros (p & q & ? & ? & ? & ? & _); lia].
    destruct (Z_lt_le_dec b (Z.of_nat m)) as [A3|A3]; [|right; intros (p & q & ? & ? & ? & ? & _); lia].
    destruct (mask (Z.to_nat a) (Z.to_nat b)) eqn:M.
    + right. intros (p & q & Ep & Eq & _ & _ & M'). subst a b. rewrite !Nat2Z.id in M. congruence.
    + left. exists (Z.to_nat a), (Z.to_nat b). repeat split; first [lia|exact M].
  - rewrite !Nat2Z.id. repeat split; first [lia|exact M].
  - exfalso. apply H. exists a, b. tauto.
Qed.
Definition cells_of (motif : list (Z * Z)) (i j : nat) : list (nat * nat) :=
  map (fun s => (Z.to_nat (Z.of_nat i + fst s), Z.to_nat (Z.of_nat j + snd s))) motif.
Lemma mapM_map {A B} (f : A -> res B) (g : A -> B) l : (forall a, In a l -> f a = Ok (g a)) -> mapM f l = Ok (map g l).
Proof.
  induction l as [|a l IH]; intro H; [reflexivity|]. cbn [mapM map]. rewrite (H a) by now left. cbn [bind]. rewrite IH; [reflexivity|].
  intros b Hb. apply H. now right.
Qed.
Lemma read_in {n m : nat} (v : arr onum) i j s : d0 v = n -> d1 v = m ->
  (0 <= Z.of_nat i + fst s < Z.of_nat n)%Z -> (0 <= Z.of_nat j + snd s < Z.of_nat m)%Z ->
  read_at v i j s = Ok (at_ v (Z.to_nat (Z.of_nat i + fst s)) (Z.to_nat (Z.of_nat j + snd s))).
Proof.
  intros D0 D1 H1 H2. unfold read_at, norm_ind. rewrite D0, D1.
  assert (((0 <=? Z.of_nat i + fst s) && (Z.of_nat i + fst s <? Z.of_nat n))%Z%bool = true) as ->.
  { apply andb_true_iff. split; [apply Z.leb_le|apply Z.ltb_lt]; lia. }
  assert (((0 <=? Z.of_nat j + snd s) && (Z.of_nat j + snd s <? Z.of_nat m))%Z%bool = true) as ->.
  { apply andb_true_iff. split; [apply Z.leb_le|apply Z.ltb_lt]; lia. }
  reflexivity.
Qed.
Lemma disc_of_shift r i j s : disc r 0 0 (fst s) (snd s) -> disc r (Z.of_nat i) (Z.of_nat j) (Z.of_nat i + fst s) (Z.of_nat j + snd s).
Proof.
  intro D. apply disc_shift. replace (Z.of_nat i + fst s - Z.of_nat i)%Z with (fst s) by lia.
  now replace (Z.of_nat j + snd s - Z.of_nat j)%Z with (snd s) by lia.
Qed.
Lemma NoDup_map_inj_in {A B} (f : A -> B) l : NoDup l -> (forall a b, In a l -> In b l -> f a = f b -> a = b) -> NoDup (map f l).
Proof.
  induction 1 as [|a l Na N IH]; intro H; [constructor|]. cbn [map]. constructor.
  - rewrite in_map_iff. intros (b & E & Hb). apply H in E; [|now right|now left]. congruence.
  - apply IH. intros; apply H; auto; now right.
Qed.
Lemma cells_neighbours n m mask r motif i j : NoDup motif ->
  (forall a b, In (a, b) motif <-> (a, b) <> (0, 0)%Z /\ disc r 0 0 a b) -> ~ spoiled n m mask r i j ->
  neighbours r i j (cells_of motif i j) /\
  (forall p q, In (p, q) (cells_of motif i j) -> p < n /\ q < m /\ mask p q = false).
Proof.
  intros N S Ns. pose proof (not_spoiled _ _ _ _ _ _ Ns) as P.
  assert (forall s, In s motif -> (0 <= Z.of_nat i + fst s)%Z /\ (0 <= Z.of_nat j + snd s)%Z) as Pos.
  { intros [a b] Hs. apply S in Hs. destruct Hs as [_ D]. pose proof (P _ _ (disc_of_shift r i j (a, b) D)). tauto. }
  split; [split|].
  - unfold cells_of. apply NoDup_map_inj_in; [exact N|]. intros [a b] [a' b'] H1 H2 E.
    pose proof (Pos _ H1). pose proof (Pos _ H2). cbn [fst snd] in *. injection E as E1 E2. f_equal; lia.
  - intros p q. unfold cells_of. rewrite in_map_iff. split.
    + intros ([a b] & E & Hs). pose proof (Pos _ Hs) as Ps. apply S in Hs. destruct Hs as [Nz D]. pose proof (disc_of_shift r i j (a, b) D) as D'.
      cbn [fst snd] in *. injection E as <- <-. rewrite !Z2Nat.id by tauto. split; [|exact D'].
      intro K. injection K as K1 K2. apply Nz. f_equal; lia.
    + intros [Ne D]. exists (Z.of_nat p - Z.of_nat i, Z.of_nat q - Z.of_nat j)%Z. cbn [fst snd]. split.
      * f_equal; lia.
      * apply S. split; [|now apply (proj1 (disc_shift _ _ _ _ _)) in D]. intro K. injection K as K1 K2. apply Ne. f_equal; lia.
  - intros p q. unfold cells_of. rewrite in_map_iff. intros ([a b] & E & Hs). apply S in Hs. destruct Hs as [_ D].
    pose proof (P _ _ (disc_of_shift r i j (a, b) D)) as K. cbn [fst snd] in *. injection E as <- <-.
    destruct K as (K1 & K2 & K3). repeat split; first [lia|exact K3].
Qed.
Lemma each_cell_ok {A} n m (f : nat -> nat -> res A) : (forall i j, i < n -> j < m -> exists a, f i j = Ok a) -> each_cell n m f = Ok tt.
Proof.
  intro H. unfold each_cell.
  assert (forall l, (forall p, In p l -> In p (aidx n m)) -> exists r, mapM (fun p => f (fst p) (snd p)) l = Ok r) as K.
  { induction l as [|[i j] l IH]; intro Hl; [now exists []|]. cbn [mapM fst snd].
    assert (In (i, j) (aidx n m)) as Hin by (apply Hl; now left). apply in_aidx in Hin. destruct (H i j) as (a & ->); try tauto. cbn [bind].
    destruct IH as (r & ->); [intros p Hp; apply Hl; now right|]. cbn [bind]. eauto. }
  destruct (K (aidx n m) (fun p Hp => Hp)) as (r & ->). reflexivity.
Qed.

(** ** get_enstrophy *)
Lemma osum_some (l : list num) : osum (map Some l) = Some (qsum l).
Proof. induction l as [|a l IH]; [reflexivity|]. cbn [map osum fold_right]. change (fold_right oadd (Some 0%num)) with osum in *. rewrite IH. reflexivity. Qed.
Lemma enstrophy_lemma vorticity f user r hx hy w : vf_wf f -> user_fits f user -> evenly (ax (vg f)) hx -> evenly (ay (vg f)) hy ->
  (0 < r)%num -> vorticity f = Ok w -> sf_wf w -> sf_clean w -> sg w = vg f -> nothing_masked w ->
  exists s, vf_enstrophy vorticity f user r true = Ok s /\
    on_grid (vg f) s (unit_mul (unit_mul (unit_mul (uv w) (uv w)) (ux (vg f))) (uy (vg f))) /\ sf_clean s /\
    forall i j, i < length (ax (vg f)) -> j < length (ay (vg f)) ->
      (at_ (msk s) i j = true <-> spoiled (length (ax (vg f))) (length (ay (vg f))) (both_masks f user) r i j) /\
      (at_ (msk s) i j = false -> exists l, neighbours r i j l /\
        at_ (values s) i j = oscale (hx * hy)%num (osum (map (fun c => osq (at_ (values w) (fst c) (snd c))) l))).
Proof.
  intros W U Ex Ey Hr Ew Ww Cw Gw Nw. destruct (neighbourhood_ind_lemma f user r W U Hr) as (k & Ek & N & S & Sk).
  pose proof Ex as (Hx & Lx & _). pose proof Ey as (Hy & Ly & _). pose proof (evenly_sorted _ _ _ Ex Ey) as [Ix Iy].
  unfold vf_enstrophy. rewrite Ew. cbn [bind]. rewrite Ek. cbn [bind]. rewrite !ltb2 by assumption. cbn [orb guard].
  rewrite (evenly_step _ _ Ex), (evenly_step _ _ Ey). pose proof (values_shape _ Ww) as [V0 V1]. rewrite Gw in V0, V1.
  set (n := length (ax (vg f))) in *. set (m := length (ay (vg f))) in *.
  assert (forall i j, i < n -> j < m -> exists v, at_ (values w) i j = Some v) as Vw.
  { intros i j Hi Hj. apply nothing_masked_idx in Nw; [|exact Ww]. pose proof (proj1 (any_masked_false w) Nw i j) as K.
    rewrite sf_clean_idx, Gw in Cw. destruct Ww as [_ [M0 M1]]. rewrite M0, M1, Gw in K.
    destruct (at_ (values w) i j) eqn:V; [eauto|]. apply (Cw i j Hi Hj) in V. rewrite (K Hi Hj) in V. discriminate. }
  set (cell := fun i j => if skipped k i j then Ok (Some 0%num) else enstrophy_at (values w) (nmotif k) hx hy i j).
  assert (forall i j, i < n -> j < m -> skipped k i j = false ->
     ~ spoiled n m (both_masks f user) r i j /\
     cell i j = Ok (oscale (hx * hy)%num (osum (map (fun c => osq (at_ (values w) (fst c) (snd c))) (cells_of (nmotif k) i j))))) as Cell.
  { intros i j Hi Hj K. assert (~ spoiled n m (both_masks f user) r i j) as Ns.
    { intro Sp. apply (Sk i j Hi Hj) in Sp. congruence. }
    split; [exact Ns|]. unfold cell. rewrite K. unfold enstrophy_at.
    rewrite (mapM_map (read_at (values w) i j) (fun s => at_ (values w) (Z.to_nat (Z.of_nat i + fst s)) (Z.to_nat (Z.of_nat j + snd s)))).
    - cbn [bind]. unfold cells_of. rewrite !map_map. reflexivity.
    - intros [a b] Hs. apply S in Hs. destruct Hs as [_ D]. pose proof (not_spoiled _ _ _ _ _ _ Ns _ _ (disc_of_shift r i j (a, b) D)) as (Q1 & Q2 & _).
      now apply (@read_in n m). }
  rewrite (each_cell_ok n m cell).
  2: { intros i j Hi Hj. destruct (skipped k i j) eqn:K; [unfold cell; rewrite K; eauto|]. destruct (Cell i j Hi Hj K) as [_ ->]. eauto. }
  cbn [bind].
  destruct (import_gradient (vg f) (mkarr n m (fun i j => cell_or None (cell i j))) (mkarr n m (skipped k))
              (unit_mul (unit_mul (unit_mul (uv w) (uv w)) (ux (vg f))) (uy (vg f))) Ix Iy Lx Ly) as (s & Es & Os & Ps); try (split; reflexivity).
  exists s. split; [exact Es|]. split; [exact Os|].
  assert (forall i j, i < n -> j < m -> at_ (msk s) i j = skipped k i j /\ (at_ (values s) i j = None <-> at_ (msk s) i j = true)) as Ms.
  { intros i j Hi Hj. destruct (Ps i j) as [-> ->]. cbn [at_]. destruct (skipped k i j) eqn:K; cbn [orb]; [split; [reflexivity|tauto]|].
    destruct (Cell i j Hi Hj K) as [Ns ->]. cbn [cell_or].
    destruct (cells_neighbours n m (both_masks f user) r (nmotif k) i j N S Ns) as [_ In'].
    assert (exists l, map (fun c => osq (at_ (values w) (fst c) (snd c))) (cells_of (nmotif k) i j) = map Some l) as [l ->].
    { revert In'. generalize (cells_of (nmotif k) i j). intro cs. induction cs as [|[p q] cs IH]; intro In'; [now exists []|].
      destruct IH as [l Hl]; [intros; apply In'; now right|]. destruct (In' p q (or_introl eq_refl)) as (Hp & Hq & _).
      destruct (Vw p q Hp Hq) as [v Hv]. exists (v * v :: l)%num. cbn [map fst snd]. rewrite Hl, Hv. reflexivity. }
    rewrite osum_some. cbn. split; [reflexivity|]. split; discriminate. }
  destruct Os as (Og & _). split.
  - apply sf_clean_idx. rewrite Og. intros i j Hi Hj. now apply Ms.
  - intros i j Hi Hj. destruct (Ms i j Hi Hj) as [M _]. rewrite M. split; [now apply Sk|]. intro K.
    destruct (Cell i j Hi Hj K) as [Ns Ec]. exists (cells_of (nmotif k) i j). split.
    + now apply (cells_neighbours n m (both_masks f user) r (nmotif k) i j N S Ns).
    + destruct (Ms i j Hi Hj) as [_ Mv]. destruct (Ps i j) as [P1 P2]. rewrite P2 in M. rewrite M, K in P1. rewrite P1. cbn [at_]. rewrite Ec. reflexivity.
Qed.
Lemma osum_sq_nonneg (l : list onum) v : osum (map osq l) = Some v -> (0 <= v)%num.
Proof.
  revert v. induction l as [|a l IH]; intros v H; cbn in H.
  - injection H as <-. qlra.
  - change (fold_right oadd (Some 0%num) (map osq l)) with (osum (map osq l)) in H. destruct a as [a|]; [|discriminate].
    destruct (osum (map osq l)) as [s|] eqn:E; cbn in H; [|discriminate]. injection H as <-. specialize (IH s eq_refl).
    pose proof (qsq_nonneg a). qlra.
Qed.
Lemma enstrophy_nonneg_lemma vorticity f user r hx hy w s : vf_wf f -> user_fits f user -> evenly (ax (vg f)) hx -> evenly (ay (vg f)) hy ->
  (0 < r)%num -> vorticity f = Ok w -> sf_wf w -> sf_clean w -> sg w = vg f -> nothing_masked w ->
  vf_enstrophy vorticity f user r true = Ok s ->
  forall x y v m, sf_shows s x y (Some v) m -> (0 <= v)%num.
Proof.
  intros W U Ex Ey Hr Ew Ww Cw Gw Nw E x y v m (i & j & Ei & Ej & Ev & Em).
  destruct (enstrophy_lemma vorticity f user r hx hy w W U Ex Ey Hr Ew Ww Cw Gw Nw) as (s' & E' & (G & _) & C & P).
  assert (s' = s) by congruence. subst s'. rewrite G in Ei, Ej.
  pose proof (nth_error_Some_lt _ _ _ Ei) as Hi. pose proof (nth_error_Some_lt _ _ _ Ej) as Hj.
  rewrite sf_clean_idx, G in C. destruct (P i j Hi Hj) as [_ P2].
  destruct (at_ (msk s) i j) eqn:M. { apply C in M; try assumption. congruence. }
  destruct (P2 eq_refl) as (l & _ & Q). rewrite Ev in Q.
  replace (map (fun c => osq (at_ (values w) (fst c) (snd c))) l) with (map osq (map (fun c => at_ (values w) (fst c) (snd c)) l)) in Q by now rewrite map_map.
  destruct (osum (map osq (map (fun c => at_ (values w) (fst c) (snd c)) l))) as [t|] eqn:T; cbn in Q; [|discriminate].
  injection Q as ->. apply osum_sq_nonneg in T. destruct Ex as (Hx & _), Ey as (Hy & _).
  apply qmul_nonneg; [exact T|]. apply qmul_nonneg; qlra.
Qed.
