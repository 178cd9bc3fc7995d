From Coq Require Import Lia Permutation Sorted.
From Verif Require Import Num Res ListLib SortLib Arr FieldModel ScalarFieldModel VectorFieldModel FieldSpec FieldProofs FieldProofs2 GradModel ProfileModel ProfileSpec ProfileProofs ProfileProofs2 ProfileProofs3 ProfileProofs4 ProfileProofs5
  PodProofs PodProofs2 PointsProofs5 TemporalProofs CritProofs6 UtilsProofs3 AsciiModel AsciiProofs AsciiProofs2 AsciiProofs3 AsciiProofs4 BlProofs Prof2Model Prof2Spec Prof2Proofs Prof2Proofs2 Prof2Proofs3 Prof2Proofs4 Prof2Proofs5 Prof2Proofs6.

Lemma holds_raw p ys : prof_ok p -> holds p ys -> yv p = map Some ys /\ pm p = repeat false (length (px p)).
Proof.
  intros OK [L E]. destruct (samples_fst p OK) as (X & Y & M). rewrite E in Y, M. rewrite map_map in Y, M. cbn in Y, M. split.
  - rewrite <- Y. rewrite <- L. rewrite <- (map_map (fun i => nths ys i) Some). f_equal. apply nth_error_ext'. intro i. rewrite nth_error_map. destruct (Nat.lt_ge_cases i (length ys)) as [Q|Q].
    + rewrite nth_error_seq' by exact Q. cbn. symmetry. now apply nth_error_nth'.
    + rewrite (proj2 (nth_error_None ys i) Q). rewrite (proj2 (nth_error_None (seq 0 (length ys)) i)) by (now rewrite seq_length). reflexivity.
  - rewrite <- M. clear. generalize 0. induction (length (px p)) as [|n IH]; intro a; [reflexivity|]. cbn. now rewrite IH.
Qed.
Lemma new_regular c dx u w : (0 < dx)%num -> exists p, prof_new (map (fun i => qn i * dx)%num (seq 0 (length c))) (map Some c) None u w = Ok p /\ prof_ok p /\ pux p = u /\ puy p = w /\
  px p = map (fun i => qn i * dx)%num (seq 0 (length c)) /\ holds p c.
Proof.
  intro P. set (nx := map (fun i => qn i * dx)%num (seq 0 (length c))). assert (LX : length nx = length c) by (unfold nx; now rewrite map_length, seq_length).
  destruct (new_lemma nx (map Some c) None u w ltac:(now rewrite map_length) I) as (p & E & OK & U & W & _ & SC).
  assert (IX : increasing nx). { intros i j Hij Hj. rewrite LX in Hj. unfold nx. rewrite !(nth_map' _ _ _ (qz 0) 0) by (rewrite seq_length; lia). rewrite !seq_nth by lia. cbn [Nat.add]. apply qmul_lt_r; [exact P|now apply qn_lt]. }
  destruct (SC (increasing_nondecreasing _ IX)) as [PX S]. exists p. split; [exact E|]. split; [exact OK|]. split; [exact U|]. split; [exact W|]. split; [exact PX|]. split; [rewrite PX; now symmetry|].
  rewrite S, PX. apply nth_error_ext'. intro i. rewrite !nth_error_map. destruct (Nat.lt_ge_cases i (length nx)) as [Q|Q].
  - rewrite nth_error_seq' by exact Q. cbn [option_map]. unfold zip3. rewrite (nth_error_combine' _ _ i (nths nx i, Some (nths c i)) false).
    + reflexivity.
    + apply nth_error_combine'; [now apply nth_error_nth'|]. rewrite nth_error_map. rewrite (nth_error_nth' c (qz 0)) by lia. reflexivity.
    + apply nth_error_repeat. exact Q.
  - rewrite (proj2 (nth_error_None (seq 0 (length nx)) i)) by (rewrite seq_length; exact Q). cbn. unfold zip3. rewrite (proj2 (nth_error_None _ i)); [reflexivity|]. rewrite !combine_length, repeat_length, map_length. lia.
Qed.
Lemma holds_len p ys : holds p ys -> length ys = length (px p).
Proof. now intros []. Qed.
Lemma nth_some ys i : i < length ys -> nth i (map Some ys) None = Some (nths ys i).
Proof. intro L. now rewrite (nth_map' _ _ _ None (qz 0)). Qed.

(** ** C139 *)
Lemma corr_lemma p ys wl : prof_ok p -> holds p ys -> increasing (px p) -> (0 <= wl < Z.of_nat (length ys) - 1)%Z ->
  let w := Z.to_nat (wl / 2) in let n := length ys in
  sum_between w (n - w - 1) (fun i => nths ys i * nths ys i)%num <> 0%num ->
  exists c cs, auto_correlation p wl = Ok c /\ prof_ok c /\ pux c = pux p /\ puy c = mkunit [] 1%num /\ holds c cs /\ length cs = 2 * w + 1 /\
    (forall k, k <= 2 * w -> nths (px c) k = (qn k * (nths (px p) 1 - nths (px p) 0))%num) /\
    nths cs w = 1%num /\
    forall k, k <= 2 * w -> (nths cs k * sum_between w (n - w - 1) (fun i => nths ys i * nths ys i) = sum_between w (n - w - 1) (fun i => nths ys (i + k - w) * nths ys i))%num.
Proof.
  intros OK HY IX [W0 W1] w n NZ. destruct (holds_raw p ys OK HY) as [YV PM]. assert (L := holds_len _ _ HY). assert (DV := Z.div_mod wl 2 ltac:(lia)). assert (MB := Z.mod_pos_bound wl 2 ltac:(lia)). assert (WZ : Z.of_nat w = (wl / 2)%Z) by (unfold w; rewrite Z2Nat.id; [reflexivity|lia]).
  set (S0 := sum_between w (n - w - 1) (fun i => nths ys i * nths ys i)%num) in *.
  set (cs := map (fun k => sum_between w (n - w - 1) (fun i => nths ys (i - w + k) * nths ys i)%num / S0)%num (seq 0 (2 * w + 1))).
  assert (LC : length cs = 2 * w + 1) by (unfold cs; now rewrite map_length, seq_length).
  assert (CR : corr_raw p wl = Ok (map Some cs)).
  { unfold corr_raw. rewrite YV, map_length. fold n. assert ((Z.of_nat n - 1 <=? wl)%Z = false) as -> by (apply Z.leb_gt; lia). cbn [guard]. assert ((wl / 2 <? 0)%Z = false) as -> by (apply Z.ltb_ge; lia). cbn [guard]. fold w. f_equal.
    unfold cs. rewrite map_map. apply map_ext_in. intros k Hk. apply in_seq in Hk.
    assert (E1 : forall k, k <= 2 * w -> map (fun i => omul (nth (i - w + k) (map Some ys) None) (nth i (map Some ys) None)) (corr_inds n w) = map Some (map (fun i => nths ys (i - w + k) * nths ys i)%num (seq w (n - w - 1 - w)))).
    { intros k' Hk'. rewrite map_map. unfold corr_inds. apply map_ext_in. intros i Hi. apply in_seq in Hi. rewrite !nth_some by (fold n; lia). reflexivity. }
    rewrite E1 by lia. assert (E2 : map (fun i => omul (nth i (map Some ys) None) (nth i (map Some ys) None)) (corr_inds n w) = map Some (map (fun i => nths ys i * nths ys i)%num (seq w (n - w - 1 - w)))).
    { rewrite map_map. unfold corr_inds. apply map_ext_in. intros i Hi. apply in_seq in Hi. rewrite !nth_some by (fold n; lia). reflexivity. }
    rewrite E2, !osum_some. fold (sum_between w (n - w - 1) (fun i => nths ys i * nths ys i)%num). fold S0. rewrite odiv_some by exact NZ. reflexivity. }
  assert (P2 : 2 <= length (px p)) by (rewrite <- L; fold n; lia). assert (DX : (0 < step0 (px p))%num). { unfold step0. assert (nths (px p) 0 < nths (px p) 1)%num by (apply IX; lia). qlra. }
  unfold auto_correlation. rewrite CR. cbn [bind]. assert (Nat.ltb (length (px p)) 2 = false) as -> by (apply Nat.ltb_ge; exact P2). cbn [guard]. rewrite (proj2 (qeqb_neq _ _) (qgt_neq _ _ DX)). cbn [guard].
  destruct (new_regular cs (step0 (px p)) (pux p) (mkunit [] 1%num) DX) as (c & E & OKc & U & W & PX & HC). rewrite map_length, E. exists c, cs. split; [reflexivity|]. split; [exact OKc|]. split; [exact U|]. split; [exact W|]. split; [exact HC|]. split; [exact LC|]. split.
  { intros k Hk. rewrite PX, LC. rewrite (nth_map' _ _ _ (qz 0) 0) by (rewrite seq_length; lia). rewrite seq_nth by lia. reflexivity. }
  assert (CK : forall k, k <= 2 * w -> nths cs k = (sum_between w (n - w - 1) (fun i => nths ys (i - w + k) * nths ys i)%num / S0)%num). { intros k Hk. unfold cs. rewrite (nth_map' _ _ _ (qz 0) 0) by (rewrite seq_length; lia). now rewrite seq_nth by lia. }
  split.
  - rewrite CK by lia. assert (E1 : sum_between w (n - w - 1) (fun i => nths ys (i - w + w) * nths ys i)%num = S0). { unfold S0, sum_between. f_equal. apply map_ext_in. intros i Hi. apply in_seq in Hi. now replace (i - w + w) with i by lia. } rewrite E1. qfield. exact NZ.
  - intros k Hk. rewrite CK, qdiv_mul by (exact Hk || exact NZ). unfold sum_between. f_equal. apply map_ext_in. intros i Hi. apply in_seq in Hi. now replace (i - w + k) with (i + k - w) by lia.
Qed.
(** the last sample is never used *)
Lemma corr_last p q ys a b wl : prof_ok p -> prof_ok q -> holds p (ys ++ [a]) -> holds q (ys ++ [b]) -> px p = px q -> pux p = pux q -> (0 <= wl)%Z -> auto_correlation p wl = auto_correlation q wl.
Proof.
  intros OKp OKq Hp Hq PX UX W0. destruct (holds_raw p _ OKp Hp) as [YVp _]. destruct (holds_raw q _ OKq Hq) as [YVq _].
  unfold auto_correlation. rewrite <- PX, <- UX. assert (E : corr_raw p wl = corr_raw q wl); [|now rewrite E].
  unfold corr_raw. rewrite YVp, YVq, !map_length, !app_length. cbn [length]. set (n := length ys). destruct (Z.of_nat (n + 1) - 1 <=? wl)%Z eqn:E1; [reflexivity|]. cbn [guard]. apply Z.leb_gt in E1. destruct (wl / 2 <? 0)%Z; [reflexivity|]. cbn [guard]. set (w := Z.to_nat (wl / 2)).
  assert (DV := Z.div_mod wl 2 ltac:(lia)). assert (MB := Z.mod_pos_bound wl 2 ltac:(lia)). assert (WZ : Z.of_nat w = (wl / 2)%Z) by (unfold w; rewrite Z2Nat.id; [reflexivity|lia]).
  assert (G : forall i, i < n -> nth i (map Some (ys ++ [a])) None = nth i (map Some (ys ++ [b])) None). { intros i Hi. rewrite !nth_some by (rewrite app_length; cbn; lia). now rewrite !app_nth1 by (fold n; lia). }
  assert (E2 : map (fun i => omul (nth i (map Some (ys ++ [a])) None) (nth i (map Some (ys ++ [a])) None)) (corr_inds (n + 1) w) = map (fun i => omul (nth i (map Some (ys ++ [b])) None) (nth i (map Some (ys ++ [b])) None)) (corr_inds (n + 1) w)).
  { apply map_ext_in. intros i Hi. apply in_seq in Hi. now rewrite !G by lia. }
  rewrite E2. f_equal. apply map_ext_in. intros k Hk. apply in_seq in Hk. f_equal. f_equal. apply map_ext_in. intros i Hi. apply in_seq in Hi. now rewrite !G by lia.
Qed.

(** ** C140 *)
Lemma sum_filter (P : nat -> bool) (f : nat -> num) l : Num.qsum (map f (filter P l)) = Num.qsum (map (fun i => if P i then f i else 0%num) l).
Proof. induction l as [|a l IH]; [reflexivity|]. cbn [filter map]. rewrite qsum_cons. destruct (P a); cbn [map]; rewrite ?qsum_cons, IH; qring. Qed.
Lemma sum_zeros {A : Type} (f : A -> num) l : (forall i, In i l -> f i = 0%num) -> Num.qsum (map f l) = 0%num.
Proof. induction l as [|a l IH]; intro H; [reflexivity|]. cbn [map]. rewrite qsum_cons, (H a (or_introl eq_refl)), IH by (intros i Hi; apply H; now right). qring. Qed.
Lemma sum_extend (f : nat -> num) n m : n <= m -> (forall i, n <= i < m -> f i = 0%num) -> Num.qsum (map f (seq 0 n)) = Num.qsum (map f (seq 0 m)).
Proof.
  intros L H. replace m with (n + (m - n)) by lia. rewrite seq_app, map_app, nsum_app. cbn [Nat.add]. rewrite (sum_zeros f (seq n (m - n))). { qring. } intros i Hi. apply in_seq in Hi. apply H. lia.
Qed.
Lemma nths_over (l : list num) i : length l <= i -> nths l i = 0%num.
Proof. intro H. now apply nth_overflow. Qed.
Lemma mul_zero_l a : (0 * a = 0)%num. Proof. qring. Qed.
Lemma mul_zero_r a : (a * 0 = 0)%num. Proof. qring. Qed.
Lemma conv_term ya yb k : Num.qsum (map (fun i => nths ya i * nths yb (k - i))%num (filter (fun i => (Nat.leb i k && Nat.ltb (k - i) (length yb))%bool) (seq 0 (length ya)))) = product_term ya yb k.
Proof.
  rewrite sum_filter. unfold product_term, sum_between. rewrite Nat.sub_0_r. set (M := Nat.max (length ya) (S k)).
  rewrite (sum_extend _ (length ya) M); [|unfold M; lia|intros i Hi; rewrite (nths_over ya i) by lia; destruct (_ && _)%bool; [apply mul_zero_l|reflexivity]].
  assert (E : Num.qsum (map (fun i => nths ya i * nths yb (k - i))%num (seq 0 (S k))) = Num.qsum (map (fun i => if Nat.leb i k then nths ya i * nths yb (k - i) else 0)%num (seq 0 (S k)))).
  { f_equal. apply map_ext_in. intros i Hi. apply in_seq in Hi. now rewrite (proj2 (Nat.leb_le i k)) by lia. }
  rewrite E. rewrite (sum_extend _ (S k) M); [|unfold M; lia|intros i Hi; now rewrite (proj2 (Nat.leb_gt i k)) by lia].
  f_equal. apply map_ext. intro i. destruct (Nat.leb i k); [|reflexivity]. cbn [andb]. destruct (Nat.ltb_spec (k - i) (length yb)) as [Q|Q]; [reflexivity|]. rewrite (nths_over yb) by exact Q. symmetry. apply mul_zero_r.
Qed.
Lemma conv_full_some ya yb : conv_full (map Some ya) (map Some yb) = map Some (map (product_term ya yb) (seq 0 (length ya + length yb - 1))).
Proof.
  unfold conv_full. rewrite !map_length, map_map. apply map_ext. intro k. rewrite <- conv_term, <- osum_some, map_map. f_equal. apply map_ext_in. intros i Hi. apply filter_In in Hi. destruct Hi as [Hi1 Hi2]. apply in_seq in Hi1. apply andb_true_iff in Hi2. destruct Hi2 as [Hi2 Hi3]. apply Nat.ltb_lt in Hi3.
  rewrite !nth_some by lia. reflexivity.
Qed.
Lemma spaced_diffs xs h d : spaced xs h -> In d (diffs xs) -> d = h.
Proof. intros S H. apply diffs_in in H. destruct H as (j & L & <-). now apply S. Qed.
Lemma mean_pos xs h : spaced xs h -> (0 < h)%num -> 2 <= length xs -> (0 <= nths xs 0)%num -> (0 < mean xs)%num.
Proof.
  intros S P L X. unfold mean. apply qdiv_pos; [|apply qn_0lt; lia]. assert (A : forall x, In x xs -> (0 <= x)%num). { intros x Hx. destruct (In_nth _ _ (qz 0) Hx) as (i & Li & <-). rewrite (spaced_at xs h i S Li). assert (0 <= qn i * h)%num by (apply qmul_nonneg; [apply qn_ge0|qlra]). qlra. }
  assert (X1 : (0 < nths xs 1)%num) by (assert (I := spaced_incr _ _ S P); assert (nths xs 0 < nths xs 1)%num by (apply I; lia); qlra).
  destruct xs as [|a [|b r]]; cbn in L; try lia. cbn in X1. rewrite !qsum_cons. assert (0 <= a)%num by (apply A; now left). assert (0 <= Num.qsum r)%num by (apply sum_nonneg; intros v Hv; apply A; right; now right). qlra.
Qed.
Lemma convolution_lemma p q ya yb h : prof_ok p -> prof_ok q -> holds p ya -> holds q yb -> pux p = pux q -> 2 <= length ya -> 2 <= length yb ->
  (0 < h)%num -> spaced (px p) h -> spaced (px q) h -> (0 <= nths (px p) 0)%num -> (0 <= nths (px q) 0)%num ->
  exists c cs, get_convolution p q MFull = Ok c /\ prof_ok c /\ pux c = pux p /\ puy c = unit_mul (puy p) (puy q) /\ holds c cs /\ length cs = length ya + length yb - 1 /\
    (forall k, k < length cs -> nths cs k = product_term ya yb k) /\ (forall k, k < length cs -> nths (px c) k = (qn k * h)%num).
Proof.
  intros OKp OKq HA HB UX La Lb HP SP SQ X0 Z0. destruct (holds_raw p ya OKp HA) as [YA _]. destruct (holds_raw q yb OKq HB) as [YB _]. assert (LA := holds_len _ _ HA). assert (LB := holds_len _ _ HB).
  unfold get_convolution. assert (Nat.ltb (length (px p)) 2 = false) as -> by (apply Nat.ltb_ge; lia). assert (Nat.ltb (length (px q)) 2 = false) as -> by (apply Nat.ltb_ge; lia). cbn [orb guard].
  assert (S1 : step0 (px p) = h) by (apply (SP 0); lia). assert (S2 : step0 (px q) = h) by (apply (SQ 0); lia).
  assert (LAST : (0 < last (px p) (qz 0))%num). { rewrite last_nths by (intro Q; rewrite Q in LA; cbn in LA; lia). assert (nths (px p) 0 < nths (px p) (length (px p) - 1))%num by (apply (spaced_incr _ _ SP HP); lia). qlra. }
  assert (forallb (fun d => qltb (d - step0 (px p)) (last (px p) (qz 0) * qq 1 10000000000))%num (diffs (px p)) = true) as ->.
  { apply forallb_forall. intros d Hd. rewrite (spaced_diffs _ _ _ SP Hd), S1. apply qltb_lt. replace (h - h)%num with 0%num by qring. apply qmul_pos; [exact LAST|reflexivity]. }
  cbn [negb guard]. assert (forallb (fun d => qltb (d - nths (px q) 1 - nths (px q) 0)%num (qq 1 1000000 * mean (px q))%num) (diffs (px q)) = true) as ->.
  { apply forallb_forall. intros d Hd. rewrite (spaced_diffs _ _ _ SQ Hd). apply qltb_lt. assert (M := mean_pos _ _ SQ HP ltac:(lia) Z0). assert (0 < qq 1 1000000 * mean (px q))%num by (apply qmul_pos; [reflexivity|exact M]). assert (S3 : (nths (px q) 1 - nths (px q) 0)%num = h) by (apply (SQ 0); lia). qlra. }
  cbn [negb guard]. rewrite S1, S2, qeqb_refl, UX, dim_eqb_refl, unit_eqb_refl. cbn [negb guard]. rewrite (proj2 (qeqb_neq _ _) (qgt_neq _ _ HP)). cbn [guard np_convolve]. rewrite YA, YB, conv_full_some.
  set (cs := map (product_term ya yb) (seq 0 (length ya + length yb - 1))). assert (LC : length cs = length ya + length yb - 1) by (unfold cs; now rewrite map_length, seq_length).
  destruct (new_regular cs h (pux q) (unit_mul (puy p) (puy q)) HP) as (c & E & OKc & U & W & PX & HC). rewrite map_length, E. exists c, cs. split; [reflexivity|]. split; [exact OKc|]. split; [exact U|]. split; [exact W|]. split; [exact HC|]. split; [exact LC|]. split.
  - intros k Hk. unfold cs. rewrite (nth_map' _ _ _ (qz 0) 0) by (rewrite seq_length; lia). rewrite seq_nth by lia. reflexivity.
  - intros k Hk. rewrite PX. rewrite (nth_map' _ _ _ (qz 0) 0) by (rewrite seq_length; lia). rewrite seq_nth by lia. reflexivity.
Qed.
Lemma sum_rev l : Num.qsum (rev l) = Num.qsum l.
Proof. induction l as [|a l IH]; [reflexivity|]. cbn [rev]. rewrite nsum_app, !qsum_cons, IH. change (Num.qsum []) with 0%num. qring. Qed.
Lemma rev_seq k : map (fun i => k - i) (seq 0 (S k)) = rev (seq 0 (S k)).
Proof.
  apply nth_error_ext'. intro i. destruct (Nat.lt_ge_cases i (S k)) as [Q|Q].
  - rewrite nth_error_map, nth_error_seq' by exact Q. cbn [option_map]. symmetry. rewrite (nth_error_nth' _ 0) by (rewrite rev_length, seq_length; exact Q). rewrite rev_nth by (rewrite seq_length; exact Q). rewrite seq_length, seq_nth by lia. reflexivity.
  - rewrite !(proj2 (nth_error_None _ i)); [reflexivity| |]; rewrite ?rev_length, ?map_length, seq_length; exact Q.
Qed.
Lemma product_comm a b k : product_term a b k = product_term b a k.
Proof.
  unfold product_term, sum_between. rewrite Nat.sub_0_r. rewrite <- sum_rev, <- map_rev, <- rev_seq, map_map. f_equal. apply map_ext_in. intros i Hi. apply in_seq in Hi. replace (k - (k - i)) with i by lia. qring.
Qed.
Lemma convolution_comm p q ya yb h : prof_ok p -> prof_ok q -> holds p ya -> holds q yb -> pux p = pux q -> 2 <= length ya -> 2 <= length yb ->
  (0 < h)%num -> spaced (px p) h -> spaced (px q) h -> (0 <= nths (px p) 0)%num -> (0 <= nths (px q) 0)%num ->
  exists c d, get_convolution p q MFull = Ok c /\ get_convolution q p MFull = Ok d /\ samples c = samples d.
Proof.
  intros OKp OKq HA HB UX La Lb HP SP SQ X0 Z0.
  destruct (convolution_lemma p q ya yb h OKp OKq HA HB UX La Lb HP SP SQ X0 Z0) as (c & cs & E1 & OK1 & _ & _ & H1 & L1 & V1 & X1). destruct (convolution_lemma q p yb ya h OKq OKp HB HA (eq_sym UX) Lb La HP SQ SP Z0 X0) as (d & ds & E2 & OK2 & _ & _ & H2 & L2 & V2 & X2).
  exists c, d. split; [exact E1|]. split; [exact E2|]. destruct H1 as [LX1 S1], H2 as [LX2 S2]. rewrite S1, S2, <- LX1, <- LX2, L1, L2. replace (length yb + length ya - 1) with (length ya + length yb - 1) by lia. apply map_ext_in. intros i Hi. apply in_seq in Hi. rewrite V1, V2, X1, X2 by lia. now rewrite product_comm.
Qed.
Lemma product_cons x a b k : product_term (x :: a) b k = match k with 0 => (x * nths b 0)%num | S k' => (x * nths b k + product_term a b k')%num end.
Proof.
  unfold product_term, sum_between. rewrite Nat.sub_0_r. destruct k as [|k].
  - cbn [seq map]. rewrite qsum_cons. change (Num.qsum []) with 0%num. cbn. qring.
  - rewrite Nat.sub_0_r. change (seq 0 (S (S k))) with (0 :: seq 1 (S k)). cbn [map]. rewrite qsum_cons. rewrite <- seq_shift, map_map. reflexivity.
Qed.
Lemma product_total a b N : length a + length b <= S N -> Num.qsum (map (product_term a b) (seq 0 N)) = (Num.qsum a * Num.qsum b)%num.
Proof.
  revert N. induction a as [|x a IH]; intros N L.
  - rewrite sum_zeros. { change (Num.qsum []) with 0%num. qring. } intros k _. unfold product_term, sum_between. apply sum_zeros. intros i _. rewrite nths_over by (cbn; lia). apply mul_zero_l.
  - cbn [length] in L. rewrite qsum_cons. destruct N as [|N].
    + assert (b = []) by (destruct b; [reflexivity|cbn in L; lia]). subst b. cbn [seq map]. change (Num.qsum []) with 0%num. qring.
    + change (seq 0 (S N)) with (0 :: seq 1 N). cbn [map]. rewrite qsum_cons, product_cons. rewrite <- seq_shift, map_map. rewrite (map_ext _ (fun k => x * nths b (S k) + product_term a b k)%num) by (intro k; now rewrite product_cons).
      assert (SP : forall (f g : nat -> num) l, Num.qsum (map (fun k => f k + g k)%num l) = (Num.qsum (map f l) + Num.qsum (map g l))%num). { intros f g l. induction l as [|c l IHl]; [cbn [map]; change (Num.qsum []) with 0%num; qring|]. cbn [map]. rewrite !qsum_cons, IHl. qring. }
      rewrite (SP (fun k => x * nths b (S k))%num (product_term a b)), IH by lia.
      assert (SC : forall l, Num.qsum (map (fun k => x * nths b (S k))%num l) = (x * Num.qsum (map (fun k => nths b (S k)) l))%num). { intro l. induction l as [|c l IHl]; [cbn [map]; change (Num.qsum []) with 0%num; qring|]. cbn [map]. rewrite !qsum_cons, IHl. qring. }
      rewrite SC. assert (SB : (nths b 0 + Num.qsum (map (fun k => nths b (S k)) (seq 0 N)) = Num.qsum b)%num).
      { assert (Q : Num.qsum (map (fun k => nths b k) (seq 0 (S N))) = Num.qsum b). { rewrite <- (sum_extend (fun k => nths b k) (length b) (S N)); [|lia|intros i Hi; apply nths_over; lia]. f_equal. apply nth_error_ext'. intro i. rewrite nth_error_map. destruct (Nat.lt_ge_cases i (length b)) as [Q|Q]; [rewrite nth_error_seq' by exact Q; cbn; symmetry; now apply nth_error_nth'|]. rewrite (proj2 (nth_error_None b i) Q), (proj2 (nth_error_None (seq 0 (length b)) i)) by (now rewrite seq_length). reflexivity. }
        rewrite <- Q. change (seq 0 (S N)) with (0 :: seq 1 N). cbn [map]. rewrite qsum_cons, <- seq_shift, map_map. reflexivity. }
      rewrite <- SB. qring.
Qed.
Lemma convolution_total p q ya yb h : prof_ok p -> prof_ok q -> holds p ya -> holds q yb -> pux p = pux q -> 2 <= length ya -> 2 <= length yb ->
  (0 < h)%num -> spaced (px p) h -> spaced (px q) h -> (0 <= nths (px p) 0)%num -> (0 <= nths (px q) 0)%num ->
  exists c cs, get_convolution p q MFull = Ok c /\ holds c cs /\ Num.qsum cs = (Num.qsum ya * Num.qsum yb)%num.
Proof.
  intros OKp OKq HA HB UX La Lb HP SP SQ X0 Z0. destruct (convolution_lemma p q ya yb h OKp OKq HA HB UX La Lb HP SP SQ X0 Z0) as (c & cs & E1 & OK1 & _ & _ & H1 & L1 & V1 & X1). exists c, cs. split; [exact E1|]. split; [exact H1|].
  rewrite <- (product_total ya yb (length cs)) by lia. f_equal. apply nth_error_ext'. intro i. rewrite nth_error_map. destruct (Nat.lt_ge_cases i (length cs)) as [Q|Q].
  - rewrite nth_error_seq' by exact Q. cbn [option_map]. rewrite <- V1 by exact Q. now apply nth_error_nth'.
  - rewrite (proj2 (nth_error_None cs i) Q), (proj2 (nth_error_None (seq 0 (length cs)) i)) by (now rewrite seq_length). reflexivity.
Qed.

(** ** C141 *)
Lemma gradient_lemma p h : prof_ok p -> prof_clean p -> 2 <= length (px p) -> (0 < h)%num -> spaced (px p) h ->
  exists p', get_gradient p = Ok p' /\ prof_ok p' /\ px p' = px p /\ pux p' = pux p /\ puy p' = unit_div (puy p) (pux p) /\
    forall i t a b, nth_error (samples p) i = Some t -> nth_error (samples p) (Nat.pred i) = Some a -> nth_error (samples p) (Nat.min (S i) (length (px p) - 1)) = Some b ->
      exists t', nth_error (samples p') i = Some t' /\ sx t' = sx t /\
        (forall u v, sy a = Some u -> sy b = Some v -> smask t' = false /\ exists g, sy t' = Some g /\ (g * (sx b - sx a) = v - u)%num) /\
        (smask a = true \/ smask b = true -> sy t' = None /\ smask t' = true).
Proof.
  intros OK CL L HP SP. destruct (samples_fst p OK) as (X & Y & M). destruct (ok_lengths p OK) as (L1 & L2 & SO). assert (SL := samples_length p OK).
  assert (S0 : step0 (px p) = h) by (apply (SP 0); lia). assert (IX := spaced_incr _ _ SP HP).
  unfold get_gradient. assert (Nat.ltb (length (px p)) 2 = false) as -> by (apply Nat.ltb_ge; exact L). cbn [guard].
  assert (EV : evenly (px p) = true). { apply evenly_iff; [exact L|]. intros i Li. exists 0. split; [lia|]. rewrite (SP i Li), (SP 0 ltac:(lia)). replace (h - h)%num with 0%num by qring. change (qabs 0) with 0%num. apply qmul_pos; [reflexivity|exact HP]. }
  rewrite EV, (aligned_ok p OK). cbn [negb guard]. rewrite S0, L1. set (n := length (px p)) in *.
  set (g := map _ (seq 0 n)). assert (LG : length g = n) by (unfold g; now rewrite map_length, seq_length).
  destruct (set_y_spec p g) as (q & EQ & PX & PY & PM & YV & U & W). rewrite EQ. cbn [fst]. eexists. split; [reflexivity|]. set (p' := mkprof _ _ _ _ _).
  assert (OK' : prof_ok p'). { unfold prof_ok, p'. cbn. rewrite PX, PY, PM, map_length, LG. fold n. split; [reflexivity|]. split; [reflexivity|]. split; [exact SO|]. first [exact YV | apply nan_at_isnan | exact (eq_trans YV (eq_sym PY))]. }
  split; [exact OK'|]. split; [exact PX|]. split; [exact U|]. split; [unfold p'; cbn [puy]; now rewrite U, W|].
  intros i t a b Ht Ha Hb. assert (Li : i < n) by (rewrite <- SL; apply nth_error_Some; congruence).
  assert (NS : forall j s, nth_error (samples p) j = Some s -> s = (nths (px p) j, nth j (yv p) None, nth j (pm p) false)). { intros j s Hj. rewrite <- (samples_nth p j OK). symmetry. now apply nth_error_nth. }
  assert (E' : nth_error (samples p') i = Some (nths (px p) i, nth i g None, isnan (nth i g None))).
  { rewrite (nth_error_nth' _ (qz 0, None, false)) by (rewrite (samples_length p' OK'); cbn; rewrite PX; exact Li). rewrite samples_nth by exact OK'. f_equal. change (px p') with (px q). rewrite PX. f_equal; [f_equal|].
    - change (yv p') with (yv q). now rewrite YV.
    - change (pm p') with (pm q). rewrite PM. rewrite (nth_map' _ _ _ false None) by lia. reflexivity. }
  exists (nths (px p) i, nth i g None, isnan (nth i g None)). split; [exact E'|]. cbn [sx sy smask fst snd]. rewrite (NS _ _ Ht), (NS _ _ Ha), (NS _ _ Hb). cbn [sx sy smask fst snd]. split; [reflexivity|].
  assert (GI : nth i g None = odiv (osub (nth (Nat.min (S i) (n - 1)) (yv p) None) (nth (Nat.pred i) (yv p) None)) (Some (nths (px p) (Nat.min (S i) (n - 1)) - nths (px p) (Nat.pred i))%num)).
  { unfold g. rewrite (nth_map' _ _ _ None 0) by (rewrite seq_length; exact Li). rewrite seq_nth by exact Li. cbn [Nat.add]. unfold gpair, gstep. destruct (Nat.eqb_spec i 0) as [E0|E0].
    - subst i. cbn [orb Nat.pred]. replace (Nat.min 1 (n - 1)) with 1 by lia. now rewrite (SP 0) by lia.
    - cbn [orb]. destruct (Nat.eqb_spec (S i) n) as [E1|E1].
      + replace (Nat.min (S i) (n - 1)) with i by lia. replace (Nat.pred i) with (i - 1) by lia. assert (Q := SP (i - 1) ltac:(fold n; lia)). replace (S (i - 1)) with i in Q by lia. now rewrite Q.
      + replace (Nat.min (S i) (n - 1)) with (i + 1) by lia. replace (Nat.pred i) with (i - 1) by lia. assert (Q := SP (i - 1) ltac:(fold n; lia)). replace (S (i - 1)) with i in Q by lia. assert (Q2 := SP i ltac:(fold n; lia)). replace (S i) with (i + 1) in Q2 by lia.
        assert (E2 : (nths (px p) (i + 1) - nths (px p) (i - 1) = 2 * h)%num) by qlra. now rewrite E2. }
  assert (DP : (nths (px p) (Nat.min (S i) (n - 1)) - nths (px p) (Nat.pred i))%num <> 0%num). { apply qgt_neq. assert (nths (px p) (Nat.pred i) < nths (px p) (Nat.min (S i) (n - 1)))%num by (apply IX; fold n; lia). qlra. }
  rewrite GI. split.
  - intros u v Hu Hv. rewrite Hu, Hv. cbn [osub lift2]. rewrite odiv_some by exact DP. cbn [isnan]. split; [reflexivity|]. eexists. split; [reflexivity|]. now apply qdiv_mul.
  - assert (NM : forall j, nth j (pm p) false = true -> nth j (yv p) None = None).
    { intros j Hj. destruct (Nat.lt_ge_cases j n) as [Q|Q]; [|apply nth_overflow; lia]. apply (samples_masked p (nths (px p) j, nth j (yv p) None, nth j (pm p) false)); [|exact Hj]. rewrite <- samples_nth by exact OK. apply nth_In. lia. }
    intros [H|H]; apply NM in H; rewrite H; [destruct (nth (Nat.min (S i) (n - 1)) (yv p) None)|]; cbn; auto.
Qed.
Lemma gradient_line p h a b : prof_ok p -> 2 <= length (px p) -> (0 < h)%num -> spaced (px p) h -> (forall t, In t (samples p) -> smask t = false /\ sy t = Some (a * sx t + b)%num) ->
  exists p', get_gradient p = Ok p' /\ px p' = px p /\ forall t', In t' (samples p') -> smask t' = false /\ sy t' = Some a.
Proof.
  intros OK L HP SP LN. assert (CL : prof_clean p) by (intros t Ht; destruct (LN t Ht) as [A B]; now rewrite A, B).
  destruct (gradient_lemma p h OK CL L HP SP) as (p' & E & OK' & PX & U & W & G). exists p'. split; [exact E|]. split; [exact PX|]. intros t' Ht'. apply In_nth_error in Ht'. destruct Ht' as (i & Hi).
  assert (SL := samples_length p OK). assert (Li : i < length (px p)) by (rewrite <- PX, <- (samples_length p' OK'); apply nth_error_Some; congruence).
  assert (EX : forall j, j < length (px p) -> exists t, nth_error (samples p) j = Some t /\ sx t = nths (px p) j). { intros j Hj. eexists. split; [apply (nth_error_nth' _ (qz 0, None, false)); lia|]. rewrite samples_nth by exact OK. reflexivity. }
  destruct (EX i Li) as (t & Ht & _). destruct (EX (Nat.pred i) ltac:(lia)) as (ta & Ha & Xa). destruct (EX (Nat.min (S i) (length (px p) - 1)) ltac:(lia)) as (tb & Hb & Xb).
  destruct (G i t ta tb Ht Ha Hb) as (t'' & E'' & _ & G1 & _). rewrite E'' in Hi. injection Hi as ->. destruct (LN ta (nth_error_In _ _ Ha)) as [_ Ya]. destruct (LN tb (nth_error_In _ _ Hb)) as [_ Yb]. destruct (G1 _ _ Ya Yb) as (M & g & Yg & Eg). split; [exact M|]. rewrite Yg. f_equal.
  assert (D : (0 < sx tb - sx ta)%num). { rewrite Xa, Xb. assert (nths (px p) (Nat.pred i) < nths (px p) (Nat.min (S i) (length (px p) - 1)))%num by (apply (spaced_incr _ _ SP HP); lia). qlra. }
  apply (mul_inj _ _ _ D). rewrite Eg. qring.
Qed.
Lemma gradient_uneven p : 2 <= length (px p) -> ~ even_steps (px p) -> get_gradient p = Err GenericErr.
Proof. intros L N. unfold get_gradient. assert (Nat.ltb (length (px p)) 2 = false) as -> by (apply Nat.ltb_ge; exact L). cbn [guard]. destruct (evenly (px p)) eqn:E; [apply evenly_iff in E; [contradiction|exact L]|reflexivity]. Qed.
