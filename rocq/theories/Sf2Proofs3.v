(** * Sf2Proofs3: even spacing. *)
From Coq Require Import Lia QArith Qcanon List ZArith.
From Verif Require Import Num Res ListLib SortLib Arr FieldModel ScalarFieldModel FieldSpec PointsSpec PointsProofs5 ProfileModel ProfileSpec ProfileProofs3 ProfileProofs4 CritProofs2 Prof2Model BlModel BlSpec BlProofs VpropSpec Sf2Model Sf2Spec.
From Verif Require Import FieldProofs FieldProofs2 ScalarProofs GradProofs2 PodModel PodSpec PodProofs2 Sf2Proofs.

Lemma qdiv_1_r (h : num) : (h / qz 1)%num = h.
Proof. change (qz 1) with 1%num. qfield; try discriminate. Qed.
Lemma diffs_nth (l : list num) i : S i < length l -> nth i (diffs l) (qz 0) = (nths l (S i) - nths l i)%num.
Proof. intro H. unfold diffs. apply (map_seq_nth (fun i => (nths l (S i) - nths l i)%num)). lia. Qed.
Lemma diffs_in (l : list num) x : In x (diffs l) <-> exists i, S i < length l /\ x = (nths l (S i) - nths l i)%num.
Proof.
  unfold diffs. rewrite in_map_iff. split.
  - intros (i & <- & I). apply in_seq in I. exists i. split; [lia|reflexivity].
  - intros (i & H & ->). exists i. split; [reflexivity|]. apply in_seq. lia.
Qed.
Lemma smallest_lmin (l : list num) : 2 <= length l -> smallest_step l (lmin (diffs l)).
Proof.
  intro H. assert (NE : diffs l <> []) by (intro E; apply (f_equal (@length _)) in E; unfold diffs in E; rewrite map_length, seq_length in E; cbn in E; lia). split.
  - apply diffs_in. now apply lmin_in.
  - intros i Hi. apply lmin_le. apply diffs_in. eauto.
Qed.
Lemma smallest_unique l h h' : smallest_step l h -> smallest_step l h' -> h = h'.
Proof. intros [(i & Hi & ->) A] [(j & Hj & ->) B]. apply Qcle_antisym; auto. Qed.
Lemma smallest_pos l h : increasing l -> smallest_step l h -> (0 < h)%num.
Proof. intros I [(i & Hi & ->) _]. assert (nths l i < nths l (S i))%num by (apply I; lia). qlra. Qed.
Lemma linspace_length a b k : length (linspace a b k) = S k.
Proof. unfold linspace. now rewrite map_length, seq_length. Qed.
Lemma linspace_nth a b k i : i <= k -> nths (linspace a b k) i = (a + qn i * ((b - a) / qn k))%num.
Proof. intro H. unfold linspace. apply (map_seq_nth (fun i => (a + qn i * ((b - a) / qn k))%num)). lia. Qed.
Lemma qn_gt0 n : 0 < n -> (0 < qn n)%num.
Proof. intro H. destruct n; [lia|]. rewrite qn_S. pose proof (qn_nonneg n). qlra. Qed.
Lemma linspace_incr a b k : 0 < k -> (a < b)%num -> increasing (linspace a b k).
Proof.
  intros K L i j Hij Hj. rewrite linspace_length in Hj. rewrite !linspace_nth by lia. assert (P : (0 < (b - a) / qn k)%num) by (apply qdiv_pos; [qlra|now apply qn_gt0]). set (s := ((b - a) / qn k)%num) in *. clearbody s.
  assert (E : qn j = (qn i + qn (j - i))%num) by (rewrite <- qn_add; f_equal; lia). rewrite E. assert (Q := qmul_pos _ _ (qn_gt0 (j - i) ltac:(lia)) P). replace ((qn i + qn (j - i)) * s)%num with (qn i * s + qn (j - i) * s)%num by qring. qlra.
Qed.
Lemma linspace_spread (l : list num) k : 0 < k -> l <> [] -> spread_over l (linspace (nths l 0) (last l (qz 0)) k) (S k) ((last l (qz 0) - nths l 0) / qn k)%num.
Proof.
  intros K NE. set (a := nths l 0). set (b := last l (qz 0)). assert (P := qn_gt0 k K). split; [apply linspace_length|]. split; [rewrite linspace_nth by lia; change (qn 0) with (qz 0); set (s := ((b - a) / qn k)%num); clearbody s; fold a; qring|]. split.
  - rewrite last_nths by (intro E; apply (f_equal (@length _)) in E; rewrite linspace_length in E; discriminate). rewrite linspace_length. replace (S k - 1) with k by lia. rewrite linspace_nth by lia.
    assert (D := qdiv_mul (b - a)%num (qn k) ltac:(apply qgt_neq; exact P)). rewrite (Qcmult_comm (qn k)), D. fold b. qring.
  - intros i Hi. rewrite !linspace_nth by lia. rewrite qn_S. set (s := ((b - a) / qn k)%num). clearbody s. qring.
Qed.
(** the number of points *)
Lemma spaced_axis_lemma l r h : increasing l -> 2 <= length l -> (0 < r)%num -> smallest_step l h ->
  exists N, spaced_axis l r = Ok (linspace_n (nths l 0) (last l (qz 0)) N) /\ (qn N * (h / r) <= last l (qz 0) - nths l 0)%num /\ (last l (qz 0) - nths l 0 < qn (S N) * (h / r))%num.
Proof.
  intros I L R S0. unfold spaced_axis. assert (Nat.ltb (length l) 2 = false) as -> by (apply Nat.ltb_ge; exact L). cbn [guard].
  rewrite (smallest_unique _ _ _ (smallest_lmin l L) S0). assert (HP := smallest_pos _ _ I S0). assert (P : (0 < h / r)%num) by now apply qdiv_pos. set (s := (h / r)%num) in *. clearbody s.
  set (D := (last l (qz 0) - nths l 0)%num). assert (PD : (0 < D)%num).
  { unfold D. rewrite last_nths by (intros ->; cbn in L; lia). assert (nths l 0 < nths l (length l - 1))%num by (apply I; lia). qlra. }
  exists (Z.to_nat (qfloor (D / s)%num)). split; [reflexivity|].
  assert (F0 : (0 <= qfloor (D / s)%num)%Z) by (apply qfloor_iff; apply Qclt_le_weak, qdiv_pos; assumption).
  assert (F1 := qfloor_le (D / s)%num). assert (F2 := qfloor_lt (D / s)%num). assert (Q := qdiv_mul D s ltac:(apply qgt_neq; exact P)). set (q := (D / s)%num) in *. clearbody q.
  assert (E1 : qn (Z.to_nat (qfloor q)) = qz (qfloor q)) by (unfold qn; now rewrite Z2Nat.id).
  assert (E2 : qn (S (Z.to_nat (qfloor q))) = qz (qfloor q + 1)) by (unfold qn; f_equal; lia).
  rewrite E1, E2, <- Q. split; [apply qmul_le_r; [now apply Qclt_le_weak|exact F1]|apply qmul_lt_r; [exact P|exact F2]].
Qed.
Lemma linspace_n_eq a b N : 2 <= N -> linspace_n a b N = linspace a b (N - 1).
Proof. intro H. destruct N as [|[|N]]; try lia. reflexivity. Qed.
(** the length of an axis is at least the number of steps times the smallest one *)
Lemma axis_span l h : smallest_step l h -> l <> [] -> (qn (length l - 1) * h <= last l (qz 0) - nths l 0)%num.
Proof.
  intros [_ B] NE. rewrite last_nths by exact NE.
  assert (G : forall i, i < length l -> (qn i * h <= nths l i - nths l 0)%num).
  { induction i as [|i IH]; intro Hi; [change (qn 0) with (qz 0); qlra|]. rewrite qn_S. pose proof (IH ltac:(lia)). pose proof (B i Hi). qlra. }
  apply G. destruct l; [congruence|cbn; lia].
Qed.
Lemma evenly_spaced interp f r hx hy nx ny : grid_sorted (sg f) -> (0 < r)%num -> smallest_step (ax (sg f)) hx -> smallest_step (ay (sg f)) hy -> 2 <= nx -> 2 <= ny ->
  (qn nx * (hx / r) <= last (ax (sg f)) (qz 0) - nths (ax (sg f)) 0)%num -> (last (ax (sg f)) (qz 0) - nths (ax (sg f)) 0 < qn (S nx) * (hx / r))%num ->
  (qn ny * (hy / r) <= last (ay (sg f)) (qz 0) - nths (ay (sg f)) 0)%num -> (last (ay (sg f)) (qz 0) - nths (ay (sg f)) 0 < qn (S ny) * (hy / r))%num ->
  exists f' sx sy, make_evenly_spaced interp f r = Ok f' /\ sf_wf f' /\ grid_sorted (sg f') /\ spread_over (ax (sg f)) (ax (sg f')) nx sx /\ spread_over (ay (sg f)) (ay (sg f')) ny sy /\
    (hx / r < sx)%num /\ (hy / r < sy)%num /\ ux (sg f') = ux (sg f) /\ uy (sg f') = uy (sg f) /\ uv f' = uv f /\
    forall x y v m, sf_shows f' x y v m -> v = interp f x y /\ m = isnan v.
Proof.
  intros [GX GY] R SX SY NX NY X1 X2 Y1 Y2.
  assert (LX : 2 <= length (ax (sg f))) by (destruct SX as [(i & Hi & _) _]; lia). assert (LY : 2 <= length (ay (sg f))) by (destruct SY as [(i & Hi & _) _]; lia).
  assert (KU : forall s D N N', (0 < s)%num -> (qn N * s <= D)%num -> (D < qn (S N) * s)%num -> (qn N' * s <= D)%num -> (D < qn (S N') * s)%num -> N = N').
  { assert (A : forall s D N N', (0 < s)%num -> (qn N * s <= D)%num -> (D < qn (S N') * s)%num -> N <= N').
    { intros s D N N' P H1 H2. destruct (le_lt_dec N N') as [|Q]; [assumption|]. exfalso. assert (E : qn N = (qn (S N') + qn (N - S N'))%num) by (rewrite <- qn_add; f_equal; lia). rewrite E in H1.
      assert (0 <= qn (N - S N') * s)%num by (apply qmul_nonneg; [apply qn_nonneg|now apply Qclt_le_weak]). replace ((qn (S N') + qn (N - S N')) * s)%num with (qn (S N') * s + qn (N - S N') * s)%num in H1 by qring. qlra. }
    intros s D N N' P H1 H2 H3 H4. apply Nat.le_antisymm; eapply A; eassumption. }
  assert (PX : (0 < hx / r)%num) by (apply qdiv_pos; [now apply (smallest_pos _ _ GX)|exact R]). assert (PY : (0 < hy / r)%num) by (apply qdiv_pos; [now apply (smallest_pos _ _ GY)|exact R]).
  destruct (spaced_axis_lemma _ r hx GX LX R SX) as (N & EN & N1 & N2). rewrite (KU _ _ _ _ PX N1 N2 X1 X2) in EN. clear N N1 N2.
  destruct (spaced_axis_lemma _ r hy GY LY R SY) as (N & EM & N1 & N2). rewrite (KU _ _ _ _ PY N1 N2 Y1 Y2) in EM. clear N N1 N2.
  rewrite linspace_n_eq in EN, EM by assumption.
  assert (EX : ax (sg f) <> []) by (intros Z; rewrite Z in LX; cbn in LX; lia). assert (EY : ay (sg f) <> []) by (intros Z; rewrite Z in LY; cbn in LY; lia).
  assert (OX : (nths (ax (sg f)) 0 < last (ax (sg f)) (qz 0))%num) by (rewrite last_nths by exact EX; apply GX; lia). assert (OY : (nths (ay (sg f)) 0 < last (ay (sg f)) (qz 0))%num) by (rewrite last_nths by exact EY; apply GY; lia).
  assert (SPX := linspace_spread (ax (sg f)) (nx - 1) ltac:(lia) EX). assert (SPY := linspace_spread (ay (sg f)) (ny - 1) ltac:(lia) EY). replace (S (nx - 1)) with nx in SPX by lia. replace (S (ny - 1)) with ny in SPY by lia.
  assert (IX := linspace_incr _ _ (nx - 1) ltac:(lia) OX). assert (IY := linspace_incr _ _ (ny - 1) ltac:(lia) OY).
  unfold make_evenly_spaced. rewrite EN, EM. cbn [bind]. set (nxs := linspace (nths (ax (sg f)) 0) (last (ax (sg f)) (qz 0)) (nx - 1)) in *. set (nys := linspace (nths (ay (sg f)) 0) (last (ay (sg f)) (qz 0)) (ny - 1)) in *.
  assert (LXS : length nxs = nx) by apply SPX. assert (LYS : length nys = ny) by apply SPY.
  match goal with |- context [sf_import nxs nys ?v None ?a ?b ?c] => rewrite (sf_import_none nxs nys v a b c IX IY) by first [reflexivity|lia] end.
  eexists. exists ((last (ax (sg f)) (qz 0) - nths (ax (sg f)) 0) / qn (nx - 1))%num, ((last (ay (sg f)) (qz 0) - nths (ay (sg f)) 0) / qn (ny - 1))%num.
  split; [reflexivity|]. split; [repeat split|]. split; [split; assumption|]. split; [exact SPX|]. split; [exact SPY|].
  assert (BIG : forall D s n, 2 <= n -> (0 < s)%num -> (qn n * s <= D)%num -> (s < D / qn (n - 1))%num).
  { intros D s n Hn P H. assert (P1 := qn_gt0 (n - 1) ltac:(lia)). assert (Q := qdiv_mul D (qn (n - 1)) ltac:(apply qgt_neq; exact P1)). set (q := (D / qn (n - 1))%num) in *. clearbody q.
    destruct (Qclt_le_dec s q) as [|Z]; [assumption|]. exfalso. assert (Z' := qmul_le_r _ _ (qn (n - 1)) (Qclt_le_weak _ _ P1) Z). assert (E : qn n = (qn (n - 1) + 1)%num) by (rewrite <- qn_S; f_equal; lia). rewrite E in H.
    replace ((qn (n - 1) + 1) * s)%num with (s * qn (n - 1) + s)%num in H by qring. rewrite Q in Z'. qlra. }
  split; [now apply BIG|]. split; [now apply BIG|]. do 3 (split; [reflexivity|]).
  intros x y v m (i & j & Ex & Ey & <- & <-). cbn [sg ax ay] in Ex, Ey. apply nth_error_nths in Ex, Ey. unfold values. cbn [raw msk amap amap2 afull at_ d0 d1 orb]. rewrite Ex, Ey. destruct (interp f x y); split; reflexivity.
Qed.

(** a regular field of n by m points comes back with n - 1 by m - 1 points *)
Lemma even_smallest l h : (0 < h)%num -> 2 <= length l -> (forall i, i < length l -> nths l i = (nths l 0 + qn i * h)%num) -> smallest_step l h /\ (last l (qz 0) - nths l 0 = qn (length l - 1) * h)%num /\ increasing l.
Proof.
  intros P L E. assert (ST : forall i, S i < length l -> (nths l (S i) - nths l i)%num = h) by (intros i Hi; rewrite (E (S i) Hi), (E i ltac:(lia)), qn_S; qring).
  split; [|split].
  - split; [exists 0; split; [lia|]; symmetry; apply ST; lia|]. intros i Hi. rewrite ST by exact Hi. apply qle_refl.
  - rewrite last_nths by (intros ->; cbn in L; lia). rewrite (E (length l - 1)) by lia. qring.
  - intros i j Hij Hj. rewrite (E i), (E j) by lia. assert (Q : qn j = (qn i + qn (j - i))%num) by (rewrite <- qn_add; f_equal; lia). rewrite Q. assert (Z := qmul_pos _ _ (qn_gt0 (j - i) ltac:(lia)) P).
    replace ((qn i + qn (j - i)) * h)%num with (qn i * h + qn (j - i) * h)%num by qring. qlra.
Qed.
Lemma evenly_spaced_regular interp f hx hy : regular_axis (ax (sg f)) hx -> regular_axis (ay (sg f)) hy -> 3 <= length (ax (sg f)) -> 3 <= length (ay (sg f)) ->
  exists f', make_evenly_spaced interp f (qz 1) = Ok f' /\ length (ax (sg f')) = length (ax (sg f)) - 1 /\ length (ay (sg f')) = length (ay (sg f)) - 1 /\
    forall i, S i < length (ax (sg f')) -> (hx < nths (ax (sg f')) (S i) - nths (ax (sg f')) i)%num.
Proof.
  intros (PX & LX & EX) (PY & LY & EY) L3 M3. destruct (even_smallest _ hx PX LX EX) as (SX & DX & IX). destruct (even_smallest _ hy PY LY EY) as (SY & DY & IY).
  assert (D1 : forall h, (h / qz 1)%num = h) by (intro h; apply qdiv_1_r).
  destruct (evenly_spaced interp f (qz 1) hx hy (length (ax (sg f)) - 1) (length (ay (sg f)) - 1)) as (f' & sx & sy & E & W & G & (A1 & A2 & A3 & A4) & (B1 & _) & S1 & S2 & _); auto; try reflexivity; try lia.
  - split; assumption.
  - rewrite DX, D1. apply qle_refl.
  - rewrite DX, D1, qn_S. qlra.
  - rewrite DY, D1. apply qle_refl.
  - rewrite DY, D1, qn_S. qlra.
  - exists f'. split; [exact E|]. split; [exact A1|]. split; [exact B1|]. intros i Hi. rewrite A1 in Hi. rewrite (A4 i Hi), D1 in *. exact S1.
Qed.
(** two points along y: a single one is left, and the import raises *)
Lemma evenly_spaced_two interp f : grid_sorted (sg f) -> 2 <= length (ax (sg f)) -> length (ay (sg f)) = 2 -> make_evenly_spaced interp f (qz 1) = Err IndexErr.
Proof.
  intros [GX GY] LX LY. unfold make_evenly_spaced.
  destruct (spaced_axis_lemma _ (qz 1) _ GX LX ltac:(reflexivity) (smallest_lmin _ LX)) as (N & EN & _). rewrite EN. cbn [bind]. clear EN.
  assert (L2 : 2 <= length (ay (sg f))) by lia. destruct (spaced_axis_lemma _ (qz 1) _ GY L2 ltac:(reflexivity) (smallest_lmin _ L2)) as (M & EM & M1 & M2). rewrite EM. cbn [bind].
  assert (S0 := smallest_lmin _ L2). assert (P := smallest_pos _ _ GY S0). rewrite qdiv_1_r in M1, M2. set (h := lmin (diffs (ay (sg f)))) in *. clearbody h.
  assert (D : (last (ay (sg f)) (qz 0) - nths (ay (sg f)) 0)%num = h).
  { destruct S0 as [(i & Hi & ->) _]. rewrite last_nths by (intros Z; rewrite Z in LY; discriminate). rewrite LY in *. replace i with 0 by lia. reflexivity. }
  rewrite D in M1, M2.
  assert (M = 1) as ->.
  { destruct M as [|[|M]]; [exfalso; change (qn 1) with (qz 1) in M2; qlra|reflexivity|exfalso]. rewrite !qn_S in M1. pose proof (qmul_nonneg _ _ (qn_nonneg M) (Qclt_le_weak _ _ P)). qlra. }
  unfold sf_import. cbn [linspace_n length]. reflexivity.
Qed.
