From Coq Require Import Lia Permutation Sorted.
From Verif Require Import Num Res ListLib SortLib Arr FieldModel ScalarFieldModel FieldSpec FieldProofs FieldProofs2 GradModel ProfileModel ProfileSpec ProfileProofs ProfileProofs2 ProfileProofs3 ProfileProofs4 ProfileProofs5
  PodProofs PodProofs2 PointsProofs5 TemporalProofs CritProofs6 UtilsProofs3 AsciiModel AsciiProofs AsciiProofs2 AsciiProofs3 AsciiProofs4 BlProofs Prof2Model Prof2Spec Prof2Proofs Prof2Proofs2 Prof2Proofs3 Prof2Proofs4 Prof2Proofs5.

(** ** C138 *)
Lemma spaced_at xs h i : spaced xs h -> i < length xs -> nths xs i = (nths xs 0 + qn i * h)%num.
Proof.
  intros S. induction i as [|i IH]; intro L; [change (qn 0) with (qz 0); qring|]. specialize (S i L). specialize (IH ltac:(lia)). rewrite qn_S. assert (nths xs (Datatypes.S i) = nths xs i + h)%num by qlra. rewrite H, IH. qring.
Qed.
Lemma hidden_values p : prof_ok p -> nothing_hidden p -> exists ys, length ys = length (px p) /\ yv p = map Some ys /\ pm p = repeat false (length (px p)) /\ samples p = map (fun i => (nths (px p) i, Some (nths ys i), false)) (seq 0 (length (px p))).
Proof.
  intros OK NH. destruct (samples_fst p OK) as (X & Y & M). assert (L := samples_length p OK). unfold nothing_hidden in NH. exists (valid_values (samples p)).
  assert (G : forall l, (forall t, In t l -> smask t = false /\ sy t <> None) -> length (valid_values l) = length l /\ map sy l = map Some (valid_values l) /\ map smask l = repeat false (length l) /\ forall i, i < length l -> nth i l (qz 0, None, false) = (nths (map sx l) i, Some (nths (valid_values l) i), false)).
  { clear. induction l as [|[[x y] m] l IH]; intro H; [repeat split; intros i Hi; cbn in Hi; lia|]. destruct (H _ (or_introl eq_refl)) as [H1 H2]. cbn in H1, H2. subst m. destruct y as [v|]; [|congruence]. destruct (IH (fun t Ht => H t (or_intror Ht))) as (A & B & C & D). cbn. rewrite A, B, C. repeat split. intros [|i] Hi; [reflexivity|]. apply D. lia. }
  destruct (G _ NH) as (A & B & C & D). rewrite L in A, C. rewrite <- Y, <- M. split; [exact A|]. split; [exact B|]. split; [exact C|].
  apply nth_error_ext'. intro i. destruct (Nat.lt_ge_cases i (length (samples p))) as [Li|Li].
  - rewrite nth_error_map, nth_error_seq' by lia. cbn [option_map]. rewrite (nth_error_nth' _ (qz 0, None, false) Li), (D i Li), X. reflexivity.
  - rewrite (proj2 (nth_error_None _ _) Li). symmetry. apply nth_error_None. rewrite map_length, seq_length. lia.
Qed.
Lemma at_x_index xs ys i v : increasing xs -> i < length xs -> at_x (map (fun i => (nths xs i, Some (nths ys i), false)) (seq 0 (length xs))) (nths xs i) v -> v = nths ys i.
Proof.
  intros I L [(t & Ht & E & Y)|[N _]].
  - apply in_map_iff in Ht. destruct Ht as (j & <- & Hj). apply in_seq in Hj. cbn in E, Y. apply increasing_inj in E; [|exact I|lia|exact L]. subst j. congruence.
  - exfalso. refine (N (nths xs i, Some (nths ys i), false) _ eq_refl). apply in_map_iff. exists i. split; [reflexivity|]. apply in_seq. lia.
Qed.
Lemma at_x_here xs ys i : i < length xs -> at_x (map (fun i => (nths xs i, Some (nths ys i), false)) (seq 0 (length xs))) (nths xs i) (nths ys i).
Proof. intro L. left. exists (nths xs i, Some (nths ys i), false). split; [|split; reflexivity]. apply in_map_iff. exists i. split; [reflexivity|]. apply in_seq. lia. Qed.
Lemma at_x_sample xs ys x v : at_x (map (fun i => (nths xs i, Some (nths ys i), false)) (seq 0 (length xs))) x v -> v <> 0%num -> exists i, i < length xs /\ nths xs i = x /\ nths ys i = v.
Proof.
  intros [(t & Ht & E & Y)|[_ Z]] NZ; [|contradiction]. apply in_map_iff in Ht. destruct Ht as (i & <- & Hi). apply in_seq in Hi. cbn in E, Y. exists i. split; [lia|]. split; [exact E|congruence].
Qed.
(** the zero-extended values, indexed by the shift *)
Definition ext (n : nat) (ys : list num) (j : nat) : num := if (Nat.leb (n - 1) j && Nat.ltb j (length ys + n - 1))%bool then nths ys (j - (n - 1)) else 0%num.
Lemma elongated_ext n ys j : elongated n (combine (map Some ys) (repeat false (length ys))) j = (Some (ext n ys j), false).
Proof.
  unfold elongated, ext. rewrite combine_length, map_length, repeat_length, Nat.min_id. destruct (Nat.leb_spec (n - 1) j) as [A|A]; [|reflexivity]. destruct (Nat.ltb_spec j (length ys + n - 1)) as [B|B]; [|reflexivity]. cbn [andb].
  rewrite combine_nth by (rewrite map_length, repeat_length; reflexivity).
  rewrite (nth_map' _ _ _ None (qz 0)) by lia. rewrite (nth_indep _ true false) by (rewrite repeat_length; lia). now rewrite nth_repeat.
Qed.
Lemma flat_single {A B : Type} (F : A -> list B) (g : A -> B) l : (forall k, In k l -> F k = [g k]) -> flat_map F l = map g l.
Proof. induction l as [|a l IH]; intro H; [reflexivity|]. cbn. rewrite (H a (or_introl eq_refl)), IH by (intros k Hk; apply H; now right). reflexivity. Qed.
Lemma pairs_ext yp yq i : shift_pairs (combine (map Some yp) (repeat false (length yp))) (combine (map Some yq) (repeat false (length yq))) i =
  map (fun k => (Some (ext (length yp) yq (i + k)), Some (nths yp k))) (seq 0 (length yp)).
Proof.
  unfold shift_pairs. rewrite combine_length, map_length, repeat_length, Nat.min_id. apply flat_single. intros k Hk. apply in_seq in Hk. rewrite elongated_ext.
  rewrite combine_nth by (rewrite map_length, repeat_length; reflexivity). rewrite (nth_map' _ _ _ None (qz 0)) by lia. rewrite (nth_indep _ true false) by (rewrite repeat_length; lia). rewrite nth_repeat. reflexivity.
Qed.
Definition sdiff (yp yq : list num) (i : nat) : num := Num.qsum (map (fun k => qabs (ext (length yp) yq (i + k) - nths yp k))%num (seq 0 (length yp))).
Definition snorm (yp yq : list num) (i : nat) : num := Num.qsum (map (fun k => qabs (ext (length yp) yq (i + k)))%num (seq 0 (length yp))).
Lemma odiv_some a b : b <> 0%num -> odiv (Some a) (Some b) = Some (a / b)%num.
Proof. intro N. unfold odiv. now rewrite (proj2 (qeqb_neq _ _) N). Qed.
Lemma shift_value yp yq i : 0 < length yp -> shift_diff (combine (map Some yp) (repeat false (length yp))) (combine (map Some yq) (repeat false (length yq))) i =
  if qeqb (snorm yp yq i) 0%num then None else Some (sdiff yp yq i / snorm yp yq i)%num.
Proof.
  intro P. unfold shift_diff. rewrite pairs_ext. destruct (map (fun k => (Some (ext (length yp) yq (i + k)), Some (nths yp k))) (seq 0 (length yp))) as [|a r] eqn:E. { apply (f_equal (@length _)) in E. rewrite map_length, seq_length in E. cbn in E. lia. }
  rewrite <- E. rewrite !map_map, map_length, seq_length. cbn [fst snd oabs option_map].
  assert (X1 : osum (map (fun x => Some (qabs (ext (length yp) yq (i + x) - nths yp x))) (seq 0 (length yp))) = Some (sdiff yp yq i)) by (rewrite <- (map_map _ Some); apply osum_some).
  assert (X2 : osum (map (fun x => Some (qabs (ext (length yp) yq (i + x)))) (seq 0 (length yp))) = Some (snorm yp yq i)) by (rewrite <- (map_map _ Some); apply osum_some).
  assert (NZ : qn (length yp) <> 0%num) by (apply qgt_neq; now apply qn_0lt).
  match goal with |- match odiv (osum ?a) _ with _ => _ end = _ => change a with (map (fun x => Some (qabs (ext (length yp) yq (i + x)))) (seq 0 (length yp))) end.
  match goal with |- match _ with Some r => if _ then _ else odiv (odiv (osum ?a) _) _ | None => _ end = _ => change a with (map (fun x => Some (qabs (ext (length yp) yq (i + x) - nths yp x))%num) (seq 0 (length yp))) end.
  rewrite X1, X2. rewrite !odiv_some by exact NZ.
  destruct (qeqb_spec (snorm yp yq i) 0) as [Z|Z].
  - rewrite Z. replace (0 / qn (length yp))%num with 0%num by (qfield; exact NZ). now rewrite qeqb_refl.
  - assert (N2 : (snorm yp yq i / qn (length yp))%num <> 0%num). { intro Q. apply Z. rewrite <- (qdiv_mul (snorm yp yq i) (qn (length yp)) NZ), Q. qring. }
    rewrite (proj2 (qeqb_neq _ _) N2), odiv_some by exact N2. f_equal. qfield. split; assumption.
Qed.
Lemma sum_zero l : (forall v, In v l -> (0 <= v)%num) -> Num.qsum l = 0%num -> forall v, In v l -> v = 0%num.
Proof.
  induction l as [|a l IH]; intros H E v Hv; [contradiction|]. rewrite qsum_cons in E. assert (0 <= a)%num by (apply H; now left). assert (0 <= Num.qsum l)%num by (apply sum_nonneg; intros w Hw; apply H; now right).
  destruct Hv as [<-|Hv]; [qlra|]. apply IH; [intros w Hw; apply H; now right|qlra|exact Hv].
Qed.
Lemma abs_nonneg a : (0 <= qabs a)%num.
Proof. destruct (qabs_spec a) as [[? ->]|[? ->]]; qlra. Qed.
Lemma abs_zero a : qabs a = 0%num -> a = 0%num.
Proof. destruct (qabs_spec a) as [[? ->]|[? ->]]; intro; qlra. Qed.
Lemma sdiff_nonneg yp yq i : (0 <= sdiff yp yq i)%num.
Proof. apply sum_nonneg. intros v Hv. apply in_map_iff in Hv. destruct Hv as (k & <- & _). apply abs_nonneg. Qed.
Lemma snorm_nonneg yp yq i : (0 <= snorm yp yq i)%num.
Proof. apply sum_nonneg. intros v Hv. apply in_map_iff in Hv. destruct Hv as (k & <- & _). apply abs_nonneg. Qed.
Lemma sdiff_zero yp yq i : sdiff yp yq i = 0%num <-> forall k, k < length yp -> ext (length yp) yq (i + k) = nths yp k.
Proof.
  split.
  - intros H k Lk. assert (Z : qabs (ext (length yp) yq (i + k) - nths yp k)%num = 0%num). { eapply sum_zero; [|exact H|]. - intros v Hv. apply in_map_iff in Hv. destruct Hv as (j & <- & _). apply abs_nonneg. - apply in_map_iff. exists k. split; [reflexivity|]. apply in_seq. lia. }
    apply abs_zero in Z. qlra.
  - intro H. unfold sdiff. rewrite (map_ext_in _ (fun _ => 0%num)). { clear. induction (seq 0 (length yp)) as [|a l IH]; [reflexivity|]. cbn [map]. rewrite qsum_cons, IH. qring. }
    intros k Hk. apply in_seq in Hk. rewrite H by lia. replace (nths yp k - nths yp k)%num with 0%num by qring. reflexivity.
Qed.
Lemma snorm_pos yp yq i k : k < length yp -> ext (length yp) yq (i + k) <> 0%num -> (0 < snorm yp yq i)%num.
Proof.
  intros Lk N. assert (P := snorm_nonneg yp yq i). apply qle_lt_or_eq in P. destruct P as [P|P]; [exact P|]. exfalso. apply N. apply abs_zero. eapply sum_zero; [|exact (eq_sym P)|].
  - intros v Hv. apply in_map_iff in Hv. destruct Hv as (j & <- & _). apply abs_nonneg.
  - apply in_map_iff. exists k. split; [reflexivity|]. apply in_seq. lia.
Qed.
Lemma last_nonzero (ys : list num) k : nths ys k <> 0%num -> k < length ys -> exists m, m < length ys /\ nths ys m <> 0%num /\ forall j, m < j -> j < length ys -> nths ys j = 0%num.
Proof.
  intros N L. revert k N L. induction ys as [|y ys IH] using rev_ind; intros k N L; [cbn in L; lia|]. rewrite app_length in *. cbn [length] in *. destruct (Qc_eq_dec y 0%num) as [E|E].
  - destruct (Nat.eq_dec k (length ys)) as [Ek|Ek]. { exfalso. apply N. rewrite Ek, app_nth2, Nat.sub_diag by lia. exact E. }
    rewrite app_nth1 in N by lia. destruct (IH k N ltac:(lia)) as (m & Lm & Nm & H). exists m. split; [lia|]. rewrite app_nth1 by lia. split; [exact Nm|]. intros j Hj Lj. destruct (Nat.eq_dec j (length ys)) as [Ej|Ej]; [rewrite Ej, app_nth2, Nat.sub_diag by lia; exact E|]. rewrite app_nth1 by lia. apply H; lia.
  - exists (length ys). split; [lia|]. rewrite app_nth2, Nat.sub_diag by lia. split; [exact E|]. intros j Hj Lj. lia.
Qed.
Lemma first_nonzero (ys : list num) k : nths ys k <> 0%num -> k < length ys -> exists m, m < length ys /\ nths ys m <> 0%num /\ forall j, j < m -> nths ys j = 0%num.
Proof.
  revert k. induction ys as [|y ys IH]; intros k N L; [cbn in L; lia|]. destruct (Qc_eq_dec y 0%num) as [E|E].
  - destruct k as [|k]; [contradiction|]. destruct (IH k N ltac:(cbn in L; lia)) as (m & Lm & Nm & H). exists (S m). cbn [length nth]. split; [lia|]. split; [exact Nm|]. intros [|j] Hj; [exact E|]. apply H. lia.
  - exists 0. cbn [length nth]. split; [lia|]. split; [exact E|]. intros j Hj. lia.
Qed.
Lemma spaced_incr xs h : spaced xs h -> (0 < h)%num -> increasing xs.
Proof.
  intros S P i j Hij Hj. rewrite (spaced_at xs h i S), (spaced_at xs h j S) by lia. assert (qn i * h < qn j * h)%num by (apply qmul_lt_r; [exact P|now apply qn_lt]). qlra.
Qed.
Lemma qn_sum a b : qn (a + b) = (qn a + qn b)%num.
Proof. unfold qn. rewrite Nat2Z.inj_add. apply qz_add. Qed.
Lemma mul_inj a b h : (0 < h)%num -> (a * h = b * h)%num -> a = b.
Proof. intros P E. destruct (Qc_eq_dec a b) as [|N]; [assumption|]. exfalso. assert (Z : ((a - b) * h = 0)%num) by (transitivity (a * h - b * h)%num; [qring|]; rewrite E; qring). apply Qcmult_integral in Z. change (Q2Qc 0) with (qz 0) in Z. destruct Z as [Z|Z]; [apply N; qlra|qlra]. Qed.
Lemma qn_inj a b : qn a = qn b -> a = b.
Proof. intro E. unfold qn in E. apply qz_inj in E. lia. Qed.
Lemma dephasage_lemma p q h d : prof_ok p -> prof_ok q -> nothing_hidden p -> nothing_hidden q -> pux p = pux q -> puy p = puy q ->
  1 <= length (px p) -> 2 <= length (px q) -> (0 < h)%num -> spaced (px p) h -> spaced (px q) h ->
  (exists t v, In t (samples p) /\ sy t = Some v /\ v <> 0%num) -> moved (samples p) (samples q) d ->
  get_dephasage p q = Ok (Some d).
Proof.
  intros OKp OKq NHp NHq UX UY Lp Lq HP SP SQ NZ MV.
  destruct (hidden_values p OKp NHp) as (yp & Lyp & YVp & PMp & Sp). destruct (hidden_values q OKq NHq) as (yq & Lyq & YVq & PMq & Sq).
  assert (IP := spaced_incr _ _ SP HP). assert (IQ := spaced_incr _ _ SQ HP). rewrite Sp, Sq in MV. set (xp := px p) in *. set (xq := px q) in *.
  (* the shift d is a whole number of steps *)
  assert (NZ' : exists k0, k0 < length xp /\ nths yp k0 <> 0%num). { destruct NZ as (t & v & Ht & Hy & Hv). rewrite Sp in Ht. apply in_map_iff in Ht. destruct Ht as (k & <- & Hk). apply in_seq in Hk. cbn in Hy. exists k. split; [lia|congruence]. }
  clear NZ. destruct NZ' as (k0 & Lk0 & NZ).
  assert (EJ : exists j0, j0 < length xq /\ (nths xq j0 = nths xp k0 + d)%num).
  { assert (Q : at_x (map (fun i => (nths xq i, Some (nths yq i), false)) (seq 0 (length xq))) (nths xp k0 + d)%num (nths yp k0)). { apply MV. replace (nths xp k0 + d - d)%num with (nths xp k0) by qring. now apply at_x_here. }
    destruct (at_x_sample _ _ _ _ Q NZ) as (j & Lj & E & _). now exists j. }
  destruct EJ as (j0 & Lj0 & EJ). rewrite (spaced_at xq h j0 SQ Lj0), (spaced_at xp h k0 SP Lk0) in EJ.
  set (n := length xp) in *. set (m := length xq) in *. set (I0 := n - 1 + j0 - k0).
  (* what the elongated profile holds *)
  assert (EXT : forall i k v, k < n -> ext n yq (i + k) = v -> v <> 0%num -> n - 1 <= i + k /\ i + k - (n - 1) < m /\ nths yq (i + k - (n - 1)) = v).
  { intros i k v Lk E NV. unfold ext in E. rewrite Lyq in E. destruct (Nat.leb_spec (n - 1) (i + k)); [|exfalso; apply NV; symmetry; exact E]. destruct (Nat.ltb_spec (i + k) (m + n - 1)); [|exfalso; apply NV; symmetry; exact E]. cbn [andb] in E. split; [assumption|]. split; [lia|exact E]. }
  (* the position of a sample of q and its image in p *)
  assert (POS : forall J K, J < m -> (qn J * h = qn j0 * h + qn K * h - qn k0 * h)%num -> (nths xq J - d = nths xp 0 + qn K * h)%num).
  { intros J K LJ E. rewrite (spaced_at xq h J SQ LJ). rewrite E. assert (d = nths xq 0 + qn j0 * h - nths xp 0 - qn k0 * h)%num by qlra. rewrite H. qring. }
  assert (D0 : sdiff yp yq I0 = 0%num).
  { apply sdiff_zero. rewrite Lyp. intros k Lk. fold n. unfold ext. rewrite Lyq.
    destruct (Nat.leb_spec (n - 1) (I0 + k)) as [A|A]; [destruct (Nat.ltb_spec (I0 + k) (m + n - 1)) as [B|B]|]; cbn [andb].
    - set (J := I0 + k - (n - 1)). assert (LJ : J < m) by (unfold J; lia). assert (EJk : J + k0 = j0 + k) by (unfold J, I0; lia).
      assert (P := POS J k LJ ltac:(assert (qn J + qn k0 = qn j0 + qn k)%num by (rewrite <- !qn_sum; now rewrite EJk); transitivity ((qn J + qn k0) * h - qn k0 * h)%num; [qring|]; rewrite H; qring)).
      rewrite <- (spaced_at xp h k SP Lk) in P. assert (Q := at_x_here xq yq J LJ). apply MV in Q. rewrite P in Q. now apply at_x_index in Q.
    - assert (Q : at_x (map (fun i => (nths xp i, Some (nths yp i), false)) (seq 0 (length xp))) (nths xp k + d - d)%num (nths yp k)) by (replace (nths xp k + d - d)%num with (nths xp k) by qring; now apply at_x_here).
      apply MV in Q. destruct (Qc_eq_dec (nths yp k) 0%num) as [E|E]; [symmetry; exact E|]. destruct (at_x_sample _ _ _ _ Q E) as (J & LJ & EX & _). exfalso. rewrite (spaced_at xq h J SQ LJ), (spaced_at xp h k SP Lk) in EX.
      assert (K : (qn (J + k0) * h = qn (j0 + k) * h)%num) by (rewrite !qn_sum; transitivity (qn J * h + qn k0 * h)%num; [qring|]; transitivity (qn j0 * h + qn k * h)%num; [qlra|qring]). apply mul_inj in K; [|exact HP]. apply qn_inj in K. fold m in LJ. unfold I0 in B. lia.
    - assert (Q : at_x (map (fun i => (nths xp i, Some (nths yp i), false)) (seq 0 (length xp))) (nths xp k + d - d)%num (nths yp k)) by (replace (nths xp k + d - d)%num with (nths xp k) by qring; now apply at_x_here).
      apply MV in Q. destruct (Qc_eq_dec (nths yp k) 0%num) as [E|E]; [symmetry; exact E|]. destruct (at_x_sample _ _ _ _ Q E) as (J & LJ & EX & _). exfalso. rewrite (spaced_at xq h J SQ LJ), (spaced_at xp h k SP Lk) in EX.
      assert (K : (qn (J + k0) * h = qn (j0 + k) * h)%num) by (rewrite !qn_sum; transitivity (qn J * h + qn k0 * h)%num; [qring|]; transitivity (qn j0 * h + qn k * h)%num; [qlra|qring]). apply mul_inj in K; [|exact HP]. apply qn_inj in K. unfold I0 in A. lia. }
  assert (N0 : (0 < snorm yp yq I0)%num). { apply (snorm_pos yp yq I0 k0); [now rewrite Lyp|]. rewrite (proj1 (sdiff_zero yp yq I0) D0 k0) by (now rewrite Lyp). exact NZ. }
  assert (UNI : forall i, i <> I0 -> sdiff yp yq i = 0%num -> False).
  { intros i Ni Z. rewrite sdiff_zero, Lyp in Z. fold n in Z.
    assert (STEP : forall k, k < n -> nths yp k <> 0%num -> exists K, K + I0 = k + i /\ K < n /\ nths yp K <> 0%num).
    { intros k Lk Nk. destruct (EXT i k (nths yp k) Lk (Z k Lk) Nk) as (A & B & C). set (J := i + k - (n - 1)) in *.
      assert (Q := at_x_here xq yq J B). apply MV in Q. rewrite C in Q. destruct (at_x_sample _ _ _ _ Q Nk) as (K & LK & EX & EY). exists K. fold n in LK. split; [|split; [exact LK|congruence]].
      rewrite (spaced_at xq h J SQ B), (spaced_at xp h K SP LK) in EX. assert (QK : (qn (J + k0) * h = qn (j0 + K) * h)%num) by (rewrite !qn_sum; transitivity (qn J * h + qn k0 * h)%num; [qring|]; transitivity (qn j0 * h + qn K * h)%num; [qlra|qring]).
      apply mul_inj in QK; [|exact HP]. apply qn_inj in QK. unfold J in QK. unfold I0. lia. }
    destruct (Nat.lt_ge_cases i I0) as [C|C].
    - destruct (first_nonzero yp k0 NZ ltac:(now rewrite Lyp)) as (k & Lk & Nk & H). rewrite Lyp in Lk. destruct (STEP k Lk Nk) as (K & EK & LK & NK). apply NK. apply H. lia.
    - destruct (last_nonzero yp k0 NZ ltac:(now rewrite Lyp)) as (k & Lk & Nk & H). rewrite Lyp in Lk. destruct (STEP k Lk Nk) as (K & EK & LK & NK). apply NK. apply H; [lia|]. now rewrite Lyp. }
  (* the profile of differences *)
  unfold get_dephasage, diff_convolution. cbv zeta. rewrite UX, UY, !dim_eqb_refl, !unit_eqb_refl, (aligned_ok p OKp), (aligned_ok q OKq). cbn [negb andb guard].
  fold xp xq n m. assert (Nat.ltb m 2 = false) as -> by (apply Nat.ltb_ge; exact Lq). assert (Nat.eqb n 0 = false) as -> by (apply Nat.eqb_neq; lia). cbn [orb guard].
  assert (ST : step0 xq = h). { unfold step0. apply (SQ 0). unfold m in Lq. lia. } rewrite ST. rewrite (proj2 (qeqb_neq _ _) (qgt_neq _ _ HP)). cbn [guard].
  rewrite YVp, YVq, PMp, PMq. fold n m. fold n in Lyp. fold m in Lyq.
  assert (EDS : map (shift_diff (combine (map Some yp) (repeat false n)) (combine (map Some yq) (repeat false m))) (seq 0 (m + n - 1)) = map (fun i => if qeqb (snorm yp yq i) 0%num then None else Some (sdiff yp yq i / snorm yp yq i)%num) (seq 0 (m + n - 1))).
  { apply map_ext. intro i. assert (K := shift_value yp yq i). rewrite Lyp, Lyq in K. apply K. exact Lp. }
  rewrite EDS. set (N := m + n - 1) in *. match goal with |- context [prof_new ?a ?b _ _ _] => set (nx := a); set (ds := b) end. assert (LI0 : I0 < N) by (unfold I0, N; lia).
  assert (LL : length nx = length ds) by (unfold nx, ds; now rewrite !map_length).
  destruct (new_lemma nx ds (Some (map isnan ds)) (pux q) (puy q) LL (eq_trans (map_length isnan ds) (eq_sym LL))) as (c & EC & OKc & _ & _ & _ & SC). rewrite EC. cbn [bind].
  assert (INX : nondecreasing nx).
  { intros i j Hij Hj. unfold nx in *. rewrite map_length, seq_length in Hj. rewrite !(nth_map' _ _ _ (qz 0) 0%nat) by (rewrite seq_length; lia). rewrite !seq_nth by lia. cbn [Nat.add]. assert (qn i * h <= qn j * h)%num by (apply qmul_le_r; [qlra|now apply qn_le]). qlra. }
  specialize (SC INX). destruct SC as [_ SC].
  assert (XI : nths nx I0 = d).
  { unfold nx. rewrite (nth_map' _ _ _ (qz 0) 0%nat) by (rewrite seq_length; lia). rewrite seq_nth by exact LI0. cbn [Nat.add].
    rewrite (last_nths xq) by (intro Q; unfold m in Lq; rewrite Q in Lq; cbn in Lq; lia). rewrite (last_nths xp) by (intro Q; unfold n in Lp; rewrite Q in Lp; cbn in Lp; lia). fold m n. rewrite (spaced_at xq h (m - 1) SQ), (spaced_at xp h (n - 1) SP) by (fold m n; lia).
    assert (E1 : (qn I0 + qn k0 = qn (n - 1) + qn j0)%num) by (rewrite <- !qn_sum; f_equal; unfold I0; lia). assert (E2 : (qn (N - 1) = qn (m - 1) + qn (n - 1))%num) by (rewrite <- qn_sum; f_equal; unfold N; lia).
    assert (E3 : (d = nths xq 0 + qn j0 * h - nths xp 0 - qn k0 * h)%num) by qlra. rewrite E3, E2. assert (E4 : (qn j0 = qn I0 + qn k0 - qn (n - 1))%num) by qlra. rewrite E4.  qfield. discriminate. }
  assert (NT : forall i, i < N -> nth_error (samples c) i = Some (nths nx i, nth i ds None, isnan (nth i ds None))).
  { intros i Li. rewrite SC, nth_error_map. unfold zip3. assert (L1 : length nx = N) by (unfold nx; now rewrite map_length, seq_length). assert (L2 : length ds = N) by congruence.
    rewrite (nth_error_combine' _ _ i (nths nx i, nth i ds None) (isnan (nth i ds None))).
    - cbn [option_map sx sy smask fst snd]. f_equal. destruct (nth i ds None); reflexivity.
    - apply nth_error_combine'; apply nth_error_nth'; lia.
    - rewrite nth_error_map. now rewrite (nth_error_nth' ds None) by lia. }
  assert (DN : forall i, i < N -> nth i ds None = if qeqb (snorm yp yq i) 0%num then None else Some (sdiff yp yq i / snorm yp yq i)%num). { intros i Li. unfold ds. rewrite (nth_map' _ _ _ None 0%nat) by (rewrite seq_length; lia). rewrite seq_nth by exact Li. reflexivity. }
  assert (D0' : nth I0 ds None = Some 0%num). { rewrite DN by exact LI0. rewrite (proj2 (qeqb_neq _ _) (qgt_neq _ _ N0)), D0. f_equal. qfield. now apply qgt_neq. }
  assert (LSC : length (samples c) = N). { rewrite SC, map_length. unfold zip3. rewrite !combine_length, map_length, <- LL. unfold nx. rewrite map_length, seq_length. lia. }
  assert (VAL : forall t v, In t (samples c) -> sy t = Some v -> (0 <= v)%num /\ (v = 0%num -> sx t = d)).
  { intros t v Ht Hv. apply In_nth_error in Ht. destruct Ht as (i & Hi). assert (Li : i < N) by (rewrite <- LSC; apply nth_error_Some; congruence). rewrite NT in Hi by exact Li. injection Hi as <-. cbn [sy sx fst snd] in *. rewrite DN in Hv by exact Li.
    destruct (qeqb_spec (snorm yp yq i) 0) as [Z|Z]; [discriminate|]. injection Hv as <-. assert (PN : (0 < snorm yp yq i)%num) by (assert (K := snorm_nonneg yp yq i); apply qle_lt_or_eq in K; destruct K as [K|K]; [exact K|congruence]).
    split; [apply qdiv_nonneg; [apply sdiff_nonneg|exact PN]|]. intro E. assert (sdiff yp yq i = 0%num). { rewrite <- (qdiv_mul (sdiff yp yq i) (snorm yp yq i) Z), E. qring. }
    destruct (Nat.eq_dec i I0) as [->|Q]; [exact XI|]. exfalso. exact (UNI i Q H). }
  assert (IN0 : In (d, Some 0%num, false) (samples c)). { apply (nth_error_In _ I0). rewrite NT, D0', XI by exact LI0. reflexivity. }
  assert (PM0 : prof_min c = Some 0%num).
  { unfold prof_min. change (valid_pts c) with (vpts (samples c)). rewrite valid_snd. assert (I0V : In 0%num (valid_values (samples c))). { clear - IN0. induction (samples c) as [|[[x y] b] l IH]; [contradiction|]. cbn [valid_values]. destruct IN0 as [E|H]; [injection E as -> -> ->; now left|]. destruct y as [v|]; [destruct b|]; auto. right. auto. }
    assert (AV : forall v, In v (valid_values (samples c)) -> (0 <= v)%num). { intros v Hv. assert (exists t, In t (samples c) /\ sy t = Some v). { clear - Hv. induction (samples c) as [|[[x y] b] l IH]; [contradiction|]. cbn [valid_values] in Hv. destruct y as [w|]; [destruct b|]; [| |]; try (destruct (IH Hv) as (t & A & B); exists t; split; [now right|exact B]). destruct Hv as [<-|Hv]; [eexists; split; [now left|reflexivity]|]. destruct (IH Hv) as (t & A & B). exists t. split; [now right|exact B]. } destruct H as (t & Ht & Hy). now apply (VAL t v). }
    destruct (valid_values (samples c)) as [|a l] eqn:EVV; [contradiction|]. f_equal. rewrite <- EVV in *. apply Qcle_antisym; [now apply lmin_le|]. apply AV. apply lmin_in. congruence. }
  rewrite PM0. apply in_split in IN0. destruct IN0 as (A & B & ES).
  assert (FIRST : exists A' t B', samples c = A' ++ t :: B' /\ (forall s, In s A' -> sy s <> Some 0%num) /\ sy t = Some 0%num).
  { rewrite ES. clear. induction A as [|a A IH]; [exists [], (d, Some 0%num, false), B; repeat split; intros s []|]. destruct IH as (A' & t & B' & E & H & T). destruct (sy a) as [v|] eqn:Y.
    - destruct (Qc_eq_dec v 0%num) as [Q|Q]; [exists [], a, (A ++ (d, Some 0%num, false) :: B); split; [reflexivity|]; split; [intros s []|congruence]|]. exists (a :: A'), t, B'. cbn [app]. rewrite E. split; [reflexivity|]. split; [|exact T]. intros s [<-|Hs]; [congruence|auto].
    - exists (a :: A'), t, B'. cbn [app]. rewrite E. split; [reflexivity|]. split; [|exact T]. intros s [<-|Hs]; [congruence|auto]. }
  destruct FIRST as (A' & t & B' & EF & NF & YT). destruct (position_node_lemma c 0%num A' t B' OKc EF NF YT) as [PV _]. rewrite PV. cbn [bind].
  f_equal. f_equal. refine (proj2 (VAL t 0%num _ YT) eq_refl). rewrite EF. apply in_or_app. right. now left.
Qed.
