From Coq Require Import Lia Permutation Sorted.
From Verif Require Import Num Res ListLib SortLib Arr FieldModel ScalarFieldModel FieldSpec FieldProofs FieldProofs2 GradModel ProfileModel ProfileSpec ProfileProofs ProfileProofs2 ProfileProofs3 ProfileProofs4 ProfileProofs5
  PodProofs UtilsProofs3 AsciiModel AsciiProofs AsciiProofs2 BlProofs Prof2Model Prof2Spec Prof2Proofs Prof2Proofs2 Prof2Proofs3.

Lemma neq_or (x y : num) : x <> y \/ x = y.
Proof. destruct (Qc_eq_dec x y); auto. Qed.
(** ** Linear interpolation between sorted points *)
Lemma interp_ends x0 x1 a b v : (x0 < x1)%num -> (x0 <= v <= x1)%num -> interpolates x0 a x1 b v ((b - a) / (x1 - x0) * (v - x0) + a)%num.
Proof.
  intros L [H1 H2]. assert (N : (x1 - x0)%num <> 0%num) by (apply qgt_neq; qlra).
  replace ((b - a) / (x1 - x0) * (v - x0) + a)%num with ((a * (x1 - v) + b * (v - x0)) / (x1 - x0))%num by (qfield; exact N).
  destruct (neq_or x0 v) as [E|E]; [destruct (neq_or v x1) as [E1|E1]|].
  - apply interp_bound. split; [|]; apply qle_lt_or_eq in H1, H2; destruct H1, H2; try assumption; congruence.
  - subst v. replace ((a * (x1 - x1) + b * (x1 - x0)) / (x1 - x0))%num with b by (qfield; exact N). split; [unfold on_line; qring|]. destruct (qmin_spec a b) as [[? ->]|[? ->]], (qmax_spec a b) as [[? ->]|[? ->]]; split; qlra.
  - subst v. replace ((a * (x1 - x0) + b * (x0 - x0)) / (x1 - x0))%num with a by (qfield; exact N). split; [unfold on_line; qring|]. destruct (qmin_spec a b) as [[? ->]|[? ->]], (qmax_spec a b) as [[? ->]|[? ->]]; split; qlra.
Qed.
Lemma interp1d_at xs ys v i : increasing xs -> length ys = length xs -> S i < length xs -> (nths xs i <= v <= nths xs (S i))%num ->
  interpolates (nths xs i) (nths ys i) (nths xs (S i)) (nths ys (S i)) v (interp1d xs ys v).
Proof.
  intros I L LI [V1 V2]. destruct (searchsorted_spec xs v (increasing_nondecreasing _ I)) as (S1 & S2 & S3). unfold interp1d. set (s := searchsorted xs v) in *.
  assert (II : (nths xs i < nths xs (S i))%num) by (apply I; lia).
  destruct (neq_or (nths xs i) v) as [E|E].
  - assert (V1' : (nths xs i < v)%num) by (apply qle_lt_or_eq in V1; destruct V1; [assumption|contradiction]).
    assert (s = S i) as ->. { destruct (Nat.lt_trichotomy s (S i)) as [C|[C|C]]; [|exact C|]; exfalso; [specialize (S3 i ltac:(lia) ltac:(lia)); qlra|specialize (S2 (S i) C); qlra]. }
    replace (Nat.min (Nat.max (S i) 1) (length xs - 1)) with (S i) by lia. replace (S i - 1) with i by lia. now apply interp_ends.
  - subst v. assert (s = i) as ->. { destruct (Nat.lt_trichotomy s i) as [C|[C|C]]; [|exact C|]; exfalso; [specialize (S3 s ltac:(lia) ltac:(lia)); assert (nths xs s < nths xs i)%num by (apply I; lia); qlra|specialize (S2 i C); qlra]. }
    destruct i as [|i].
    + replace (Nat.min (Nat.max 0 1) (length xs - 1)) with 1 by lia. cbn [Nat.sub]. now apply interp_ends.
    + replace (Nat.min (Nat.max (S i) 1) (length xs - 1)) with (S i) by lia. replace (S i - 1) with i by lia.
      assert (J : (nths xs i < nths xs (S i))%num) by (apply I; lia).
      replace ((nths ys (S i) - nths ys i) / (nths xs (S i) - nths xs i) * (nths xs (S i) - nths xs i) + nths ys i)%num with (nths ys (S i)).
      * assert (K := interp_ends _ _ (nths ys (S i)) (nths ys (S (S i))) (nths xs (S i)) II ltac:(split; qlra)). replace ((nths ys (S (S i)) - nths ys (S i)) / (nths xs (S (S i)) - nths xs (S i)) * (nths xs (S i) - nths xs (S i)) + nths ys (S i))%num with (nths ys (S i)) in K; [exact K|].
        qfield. apply qgt_neq. qlra.
      * qfield. apply qgt_neq. qlra.
Qed.
Lemma bracket xs v : increasing xs -> 2 <= length xs -> (nths xs 0 <= v <= last xs (qz 0))%num -> exists i, S i < length xs /\ (nths xs i <= v <= nths xs (S i))%num.
Proof.
  intros I L [V1 V2]. rewrite last_nths in V2 by (intro Q; subst xs; cbn in L; lia).
  assert (G : forall m, m < length xs -> (v <= nths xs m)%num -> exists i, S i < length xs /\ (nths xs i <= v <= nths xs (S i))%num).
  { induction m as [|m IH]; intros Lm H; [exists 0; split; [lia|]; assert (nths xs 0 < nths xs 1)%num by (apply I; lia); split; qlra|].
    destruct (qleb_spec v (nths xs m)) as [Q|Q]; [apply IH; [lia|exact Q]|]. exists m. split; [exact Lm|]. split; [qlra|exact H]. }
  apply (G (length xs - 1)); [lia|exact V2].
Qed.
Lemma polyline_index (l : list (num * num)) i x y : S i < length l -> (fst (nth i l (qz 0, qz 0)) <= x <= fst (nth (S i) l (qz 0, qz 0)))%num ->
  interpolates (fst (nth i l (qz 0, qz 0))) (snd (nth i l (qz 0, qz 0))) (fst (nth (S i) l (qz 0, qz 0))) (snd (nth (S i) l (qz 0, qz 0))) x y -> on_polyline l x y.
Proof.
  intros L B I. exists (firstn i l). destruct (nth i l (qz 0, qz 0)) as [x0 y0] eqn:E0. destruct (nth (S i) l (qz 0, qz 0)) as [x1 y1] eqn:E1. exists x0, y0, x1, y1, (skipn (S (S i)) l). split; [|split; assumption].
  clear B I. revert i L E0 E1. induction l as [|a l IH]; intros i L E0 E1; [cbn in L; lia|]. destruct i as [|i].
  - destruct l as [|b l]; [cbn in L; lia|]. cbn in *. now subst.
  - cbn [firstn skipn app]. f_equal. apply IH; [cbn in L; lia|exact E0|exact E1].
Qed.
Lemma nths_map_fst (l : list (num * num)) i : nths (map fst l) i = fst (nth i l (qz 0, qz 0)).
Proof. change (qz 0) with (fst (qz 0, qz 0)) at 1. apply map_nth. Qed.
Lemma nths_map_snd (l : list (num * num)) i : nths (map snd l) i = snd (nth i l (qz 0, qz 0)).
Proof. change (qz 0) with (snd (qz 0, qz 0)) at 1. apply map_nth. Qed.
Lemma interp_polyline l x : increasing (map fst l) -> 2 <= length l -> (nths (map fst l) 0 <= x <= last (map fst l) (qz 0))%num -> on_polyline l x (interp1d (map fst l) (map snd l) x).
Proof.
  intros I L B. destruct (bracket _ _ I ltac:(now rewrite map_length) B) as (i & Li & Bi). assert (H := interp1d_at (map fst l) (map snd l) x i I ltac:(now rewrite !map_length) Li Bi).
  rewrite map_length in Li. rewrite !nths_map_fst, !nths_map_snd in H. rewrite !nths_map_fst in Bi. exact (polyline_index l i x _ Li Bi H).
Qed.
Lemma node_polyline l i : increasing (map fst l) -> 2 <= length l -> i < length l -> on_polyline l (fst (nth i l (qz 0, qz 0))) (snd (nth i l (qz 0, qz 0))).
Proof.
  intros I L Li. rewrite <- !nths_map_fst, <- !nths_map_snd. assert (IL : length (map fst l) = length l) by apply map_length.
  assert (HM : forall a b, (qmin a b <= a)%num /\ (a <= qmax a b)%num /\ (qmin a b <= b)%num /\ (b <= qmax a b)%num). { intros a b. destruct (qmin_spec a b) as [[? ->]|[? ->]], (qmax_spec a b) as [[? ->]|[? ->]]; repeat split; qlra. }
  destruct (Nat.eq_dec (S i) (length l)) as [E|E].
  - destruct i as [|i]; [lia|]. assert (K : (nths (map fst l) i < nths (map fst l) (S i))%num) by (apply I; lia). apply (polyline_index l i); [lia| |]; rewrite <- !nths_map_fst, <- ?nths_map_snd.
    + split; qlra.
    + split; [unfold on_line; qring|]. destruct (HM (nths (map snd l) i) (nths (map snd l) (S i))) as (? & ? & ? & ?). split; assumption.
  - assert (K : (nths (map fst l) i < nths (map fst l) (S i))%num) by (apply I; lia). apply (polyline_index l i); [lia| |]; rewrite <- !nths_map_fst, <- ?nths_map_snd.
    + split; qlra.
    + split; [unfold on_line; qring|]. destruct (HM (nths (map snd l) i) (nths (map snd l) (S i))) as (? & ? & ? & ?). split; assumption.
Qed.

(** ** C136 *)
Lemma diffs_in xs d : In d (diffs xs) <-> exists j, S j < length xs /\ (nths xs (S j) - nths xs j)%num = d.
Proof.
  unfold diffs. rewrite in_map_iff. split.
  - intros (j & E & Hj). apply in_seq in Hj. exists j. split; [lia|exact E].
  - intros (j & Lj & E). exists j. split; [exact E|]. apply in_seq. lia.
Qed.
Lemma fold_max d l : (forall x, In x l -> (x <= fold_right qmax d l)%num) /\ (d <= fold_right qmax d l)%num /\ (fold_right qmax d l = d \/ In (fold_right qmax d l) l).
Proof.
  induction l as [|a l (A & B & C)]; cbn [fold_right]; [split; [intros x []|]; split; [apply qle_refl|now left]|].
  set (m := fold_right qmax d l) in *. clearbody m. destruct (qmax_spec a m) as [[Q ->]|[Q ->]].
  - split; [intros x [<-|H]; [qlra|auto]|]. split; [exact B|]. destruct C; [now left|right; now right].
  - split; [intros x [<-|H]; [apply qle_refl|specialize (A x H); qlra]|]. split; [qlra|]. right. now left.
Qed.

Lemma lmax_attained l : l <> [] -> In (lmax l) l /\ forall x, In x l -> (x <= lmax l)%num.
Proof.
  intro N. unfold lmax. destruct (fold_max (nths l 0) l) as (A & B & C). split; [|exact A]. destruct C as [C|C]; [|exact C]. rewrite C. destruct l; [congruence|now left].
Qed.
Lemma evenly_iff xs : 2 <= length xs -> evenly xs = true <-> even_steps xs.
Proof.
  intro L. unfold evenly, even_steps. rewrite forallb_forall. assert (N : diffs xs <> []). { intro Q. assert (H : In (nths xs 1 - nths xs 0)%num (diffs xs)) by (apply diffs_in; exists 0; split; [lia|reflexivity]). rewrite Q in H. contradiction. }
  destruct (lmax_attained _ N) as [A B]. split.
  - intros H i Li. specialize (H (nths xs (S i) - nths xs i)%num (proj2 (diffs_in xs _) (ex_intro _ i (conj Li eq_refl)))). apply qltb_lt in H. apply diffs_in in A. destruct A as (j & Lj & E). exists j. split; [exact Lj|]. rewrite E. exact H.
  - intros H d Hd. apply diffs_in in Hd. destruct Hd as (i & Li & <-). destruct (H i Li) as (j & Lj & Q). apply qltb_lt. assert (K : (nths xs (S j) - nths xs j <= lmax (diffs xs))%num) by (apply B; apply diffs_in; now exists j).
    assert (K2 : (qq 1 1000000 * (nths xs (S j) - nths xs j) <= qq 1 1000000 * lmax (diffs xs))%num) by (apply qmul_le_l; [discriminate|exact K]). unfold step0. qlra.
Qed.
Lemma nsum_app a b : (Num.qsum (a ++ b) = Num.qsum a + Num.qsum b)%num.
Proof. induction a as [|x a IH]; [cbn [app]; change (Num.qsum []) with 0%num; qring|]. cbn [app]. rewrite !qsum_cons, IH. qring. Qed.
Lemma telescope xs n : S n <= length xs -> (Num.qsum (map (fun i => nths xs (S i) - nths xs i) (seq 0 n)) = nths xs n - nths xs 0)%num.
Proof.
  induction n as [|n IH]; intro L; [cbn; qring|]. rewrite seq_S, map_app, nsum_app, IH by lia. cbn [Nat.add map]. rewrite qsum_cons. cbn [Num.qsum fold_right]. qring.
Qed.
Lemma mean_diffs xs : 2 <= length xs -> (mean (diffs xs) * qn (length xs - 1) = last xs (qz 0) - nths xs 0)%num.
Proof.
  intro L. unfold mean. unfold diffs at 2. rewrite map_length, seq_length. rewrite qdiv_mul by (apply qgt_neq; apply qn_0lt; lia). unfold diffs. rewrite telescope by lia. now rewrite last_nths by (intro Q; subst xs; cbn in L; lia).
Qed.
Lemma linspace_nth a b n i : i <= n -> nths (linspace a b n) i = (a + qn i * ((b - a) / qn n))%num.
Proof. intro L. unfold linspace. rewrite (nth_map' _ _ i (qz 0) 0) by (rewrite seq_length; lia). rewrite seq_nth by lia. reflexivity. Qed.
Lemma linspace_regular a b n : 0 < n -> regular_axis (linspace a b n) a b n.
Proof.
  intro P. split; [unfold linspace; rewrite map_length, seq_length; reflexivity|]. intros i Li. rewrite linspace_nth by exact Li.
  assert (E := qdiv_mul (b - a) (qn n) (qgt_neq _ _ (qn_0lt n P))). assert (X : qn n = (qn (n - i) + qn i)%num). { unfold qn. rewrite <- qz_add. f_equal. lia. }
  transitivity (a * qn n + qn i * ((b - a) / qn n * qn n))%num; [qring|]. rewrite E, X. qring.
Qed.
Lemma linspace_incr a b n : 0 < n -> (a < b)%num -> increasing (linspace a b n).
Proof.
  intros P L i j Hij Hj. unfold linspace in Hj. rewrite map_length, seq_length in Hj. rewrite !linspace_nth by lia.
  assert (S : (0 < (b - a) / qn n)%num) by (apply qdiv_pos; [qlra|now apply qn_0lt]). assert (Q := qn_lt i j Hij). assert (qn i * ((b - a) / qn n) < qn j * ((b - a) / qn n))%num by (apply qmul_lt_r; assumption). qlra.
Qed.

Lemma combine_self {A B : Type} (g : A -> B) l : combine l (map g l) = map (fun z => (z, g z)) l.
Proof. induction l as [|a l IH]; [reflexivity|]. cbn. now rewrite IH. Qed.
Lemma valid_split l : (forall t, In t l -> smask t = isnan (sy t)) -> nondecreasing (map sx l) -> 2 <= length l -> smask (hd (qz 0, None, true) l) = false -> smask (last l (qz 0, None, true)) = false ->
  hd_error (valid_points l) = match l with t :: _ => match sy t with Some v => Some (sx t, v) | None => None end | [] => None end /\
  exists t v A, l = A ++ [t] /\ sy t = Some v /\ smask t = false /\ valid_points l = valid_points A ++ [(sx t, v)] /\ A <> [].
Proof.
  intros CL ND L H0 H1. destruct l as [|t0 l] using rev_ind; [cbn in L; lia|]. clear IHl. rewrite last_last in H1.
  assert (VA : forall a b, valid_points (a ++ b) = valid_points a ++ valid_points b). { intros a b. induction a as [|[[x y] m] a IH]; [reflexivity|]. cbn [app valid_points]. destruct y; [destruct m|]; cbn [app]; now rewrite ?IH. }
  assert (NE : l <> []) by (intro Q; subst l; cbn in L; lia).
  split.
  - destruct l as [|[[x y] m] l]; [congruence|]. cbn [app hd] in *. cbn in H0. assert (C := CL _ (or_introl eq_refl)). cbn in C. subst m. destruct y as [v|]; [|discriminate]. reflexivity.
  - assert (C := CL t0 ltac:(apply in_or_app; right; now left)). destruct (sy t0) as [v|] eqn:Y; [|rewrite C in H1; discriminate]. exists t0, v, l. split; [reflexivity|]. split; [exact Y|]. split; [exact H1|]. split; [|exact NE].
    rewrite VA. f_equal. destruct t0 as [[x y] m]. cbn in *. now subst.
Qed.
Lemma valid_incr l : increasing (map sx l) -> increasing (map fst (valid_points l)).
Proof.
  induction l as [|[[x y] m] l IH]; intro I; [exact I|]. cbn [map] in I. apply increasing_cons_iff in I. destruct I as [I1 I2]. cbn [valid_points]. destruct y as [v|]; [|auto]. destruct m; [auto|].
  cbn [map fst]. apply increasing_cons_iff. split; [auto|]. intros z Hz. apply I2. rewrite <- valid_both in Hz. now apply vpts_in in Hz.
Qed.
Lemma nth_of_error {A} (l : list A) i x d : nth_error l i = Some x -> nth i l d = x.
Proof. intro H. now apply nth_error_nth. Qed.
Lemma evenly_space_lemma p dx f l : prof_ok p -> prof_clean p -> increasing (px p) -> 2 <= length (px p) -> ~ even_steps (px p) ->
  hd_error (samples p) = Some f -> hd_error (rev (samples p)) = Some l -> smask f = false -> smask l = false ->
  match dx with None => True | Some d => (0 < d <= sx l - sx f)%num end ->
  exists p' n, evenly_space p dx = Ok p' /\ prof_ok p' /\ pux p' = pux p /\ puy p' = puy p /\ nothing_hidden p' /\ regular_axis (px p') (sx f) (sx l) n /\
    match dx with None => S n = length (px p) | Some d => (qn n * d <= sx l - sx f < qn (S n) * d)%num end /\
    forall t', In t' (samples p') -> exists v, sy t' = Some v /\ on_polyline (valid_points (samples p)) (sx t') v.
Proof.
  intros OK CL IX L2 NE HF HL MF ML HD.
  destruct (samples_fst p OK) as (X & Y & M). destruct (ok_lengths p OK) as (L1 & LM & SO).
  assert (SL := samples_length p OK). unfold prof_clean in CL. set (ls := samples p) in *.
  assert (FX : sx f = nths (px p) 0). { rewrite <- X. destruct ls as [|f' r]; [discriminate|]. injection HF as ->. reflexivity. }
  assert (EL : last ls (qz 0, None, true) = l). { rewrite <- (rev_involutive ls). destruct (rev ls) as [|l' r]; [discriminate|]. injection HL as ->. cbn. now rewrite last_last. }
  assert (LX : sx l = last (px p) (qz 0)). { rewrite <- X. rewrite <- EL. rewrite <- (rev_involutive ls). destruct (rev ls) as [|l' r]; [discriminate|]. cbn [rev]. rewrite map_app. cbn. now rewrite !last_last. }
  assert (LN : last (px p) (qz 0) = nths (px p) (length (px p) - 1)) by (apply last_nths; intro Q; rewrite Q in L2; cbn in L2; lia).
  assert (FL : (sx f < sx l)%num). { rewrite FX, LX, LN. apply IX; lia. }
  destruct (valid_split ls CL ltac:(rewrite X; exact SO) ltac:(lia)) as (VH & tl & vl & A & EA & YL & _ & VL & AN). { destruct ls as [|f' r]; [discriminate|]. injection HF as ->. exact MF. } { now rewrite EL. }
  assert (tl = l). { rewrite EA, last_last in EL. exact EL. } subst tl.
  unfold evenly_space. assert (Nat.ltb (length (px p)) 2 = false) as -> by (apply Nat.ltb_ge; exact L2). cbn [guard].
  destruct (evenly (px p)) eqn:EV. { apply evenly_iff in EV; [contradiction|exact L2]. } rewrite (aligned_ok p OK). cbn [negb guard].
  assert (PN : px p <> []) by (intro Q; rewrite Q in L2; cbn in L2; lia). rewrite (lmax_last _ IX PN), (lmin_first _ IX PN), <- FX, <- LX.
  set (step := match dx with None => mean (diffs (px p)) | Some d => d end).
  assert (KS : (0 < step)%num /\ exists n, 0 < n /\ qfloor ((sx l - sx f) / step)%num = Z.of_nat n /\ match dx with None => S n = length (px p) | Some d => (qn n * d <= sx l - sx f < qn (S n) * d)%num end).
  { unfold step. destruct dx as [d|].
    - destruct HD as [D1 D2]. split; [exact D1|]. set (q := ((sx l - sx f) / d)%num). assert (Q : (q * d = sx l - sx f)%num) by (apply qdiv_mul; now apply qgt_neq).
      assert (F1 := qfloor_le q). assert (F2 := qfloor_lt q). assert (Z1 : (1 <= qfloor q)%Z). { apply qfloor_iff. change (qz 1) with 1%num. destruct (qleb_spec 1 q) as [|C]; [assumption|]. assert (q * d < 1 * d)%num by (apply qmul_lt_r; assumption). assert (1 * d = d)%num by qring. exfalso. qlra. }
      exists (Z.to_nat (qfloor q)). split; [lia|]. split; [lia|]. unfold qn. rewrite Nat2Z.inj_succ, Z2Nat.id by lia. split; rewrite <- Q; [apply qmul_le_r; [qlra|exact F1]|apply qmul_lt_r; [exact D1|]]. exact F2.
    - assert (MD := mean_diffs (px p) L2). rewrite <- FX, <- LX in MD. set (mu := mean (diffs (px p))) in *. assert (P : (0 < qn (length (px p) - 1))%num) by (apply qn_0lt; lia).
      assert (MP : (0 < mu)%num). { destruct (qltb_spec 0 mu) as [|C]; [assumption|]. exfalso. assert (mu * qn (length (px p) - 1) <= 0 * qn (length (px p) - 1))%num by (apply qmul_le_r; [qlra|exact C]). assert (0 * qn (length (px p) - 1) = 0)%num by qring. qlra. }
      split; [exact MP|]. exists (length (px p) - 1). split; [lia|]. split; [|lia]. rewrite <- MD. replace (mu * qn (length (px p) - 1) / mu)%num with (qn (length (px p) - 1)) by (qfield; now apply qgt_neq). apply qfloor_qz. }
  destruct KS as (SP & n & NP & FQ & ND). assert (qeqb step 0%num = false) as -> by (apply qeqb_neq; now apply qgt_neq). cbn [guard]. rewrite FQ.
  assert ((Z.of_nat n <? 1)%Z = false) as -> by (apply Z.ltb_ge; lia). cbn [guard]. rewrite Nat2Z.id. change (valid_pts p) with (vpts ls). rewrite valid_both. set (V := valid_points ls) in *.
  assert (ELS : exists ls', ls = f :: ls') by (destruct ls as [|f' ls']; [discriminate|]; injection HF as ->; eauto). destruct ELS as (ls' & ELS).
  assert (CF := CL f ltac:(rewrite ELS; now left)). rewrite MF in CF. destruct (sy f) as [vf|] eqn:YF; [|discriminate].
  assert (HV : exists V', V = (sx f, vf) :: V'). { rewrite ELS in VH. rewrite YF in VH.  destruct V as [|a V']; [discriminate|]. injection VH as ->. eauto. }
  assert (LV : 2 <= length V). { rewrite VL, app_length. cbn [length]. destruct A as [|a A]; [congruence|]. assert (a = f). { rewrite ELS in EA. now injection EA. } subst a. cbn [valid_points]. destruct f as [[xf yf] mf]. cbn in YF, MF. subst. cbn. lia. }
  assert (Nat.ltb (length V) 2 = false) as -> by (apply Nat.ltb_ge; exact LV). cbn [guard].
  assert (IV : increasing (map fst V)). { apply valid_incr. rewrite X. exact IX. }
  assert (V0 : nths (map fst V) 0 = sx f) by (destruct HV as (V' & ->); reflexivity). assert (VL' : last (map fst V) (qz 0) = sx l) by (rewrite VL, map_app; cbn; apply last_last).
  set (nx := linspace (sx f) (sx l) n). assert (RX := linspace_regular (sx f) (sx l) n NP). fold nx in RX. assert (INX := linspace_incr (sx f) (sx l) n NP FL). fold nx in INX.
  destruct RX as [RL RX]. assert (BX : forall x, In x nx -> (sx f <= x <= sx l)%num).
  { intros x Hx. destruct (In_nth _ _ (qz 0) Hx) as (i & Li & <-). assert (X0 : nths nx 0 = sx f). { unfold nx. rewrite linspace_nth by lia. change (qn 0) with (qz 0). qring. }
    assert (XN : nths nx n = sx l). { assert (Q := qdiv_mul (sx l - sx f) (qn n) (qgt_neq _ _ (qn_0lt n NP))). unfold nx. rewrite linspace_nth by lia. rewrite Qcmult_comm, Q. qring. }
    rewrite <- X0, <- XN. split; apply (increasing_nondecreasing _ INX); lia. }
  set (inner := slice 1 (length nx - 1) nx). assert (ENX : exists x0 x1, nx = x0 :: inner ++ [x1] /\ x0 = sx f /\ x1 = sx l).
  { assert (X0 : nths nx 0 = sx f). { unfold nx. rewrite linspace_nth by lia. change (qn 0) with (qz 0). qring. }
    assert (XN : last nx (qz 0) = sx l). { rewrite last_nths by (intro Q; rewrite Q in RL; discriminate). rewrite RL. replace (S n - 1) with n by lia. assert (Q := qdiv_mul (sx l - sx f) (qn n) (qgt_neq _ _ (qn_0lt n NP))). unfold nx. rewrite linspace_nth by lia. rewrite Qcmult_comm, Q. qring. }
    destruct nx as [|x0 nx'] eqn:Q; [discriminate|]. destruct nx' as [|x1 nx''] using rev_ind; [cbn in RL; lia|]. clear IHnx''. exists x0, x1. split.
    - f_equal. unfold inner. f_equal. unfold slice. cbn [skipn length]. rewrite app_length. cbn [length]. replace (S (length nx'' + 1) - 1 - 1) with (length nx'') by lia. rewrite firstn_app, Nat.sub_diag, firstn_all, firstn_O. now rewrite app_nil_r.
    - split; [exact X0|]. rewrite app_comm_cons, last_last in XN. exact XN. }
  destruct ENX as (x0 & x1 & ENX & EX0 & EX1).
  assert (forallb (in_range (map fst V)) inner = true) as ->.
  { apply forallb_forall. intros x Hx. unfold in_range. rewrite V0, VL'. destruct (BX x) as [B1 B2]. { rewrite ENX. right. apply in_or_app. now left. } apply andb_true_iff. split; now apply qleb_le. }
  cbn [negb guard]. set (ny := hd None (yv p) :: map (fun x => Some (interp1d (map fst V) (map snd V) x)) inner ++ [last (yv p) None]).
  assert (Y0 : hd None (yv p) = Some vf). { rewrite <- Y, ELS. cbn. exact YF. } assert (YN : last (yv p) None = Some vl). { rewrite <- Y, EA, map_app. cbn. rewrite last_last. exact YL. }
  assert (LL : length nx = length ny). { unfold ny. rewrite ENX at 1. cbn [length]. rewrite !app_length, map_length. reflexivity. }
  destruct (new_lemma nx ny None (pux p) (puy p) LL I) as (p' & EP & OK' & U & W & _ & SS). specialize (SS (increasing_nondecreasing _ INX)). destruct SS as [PX SS].
  assert (ST : forall t', In t' (samples p') -> exists v, sy t' = Some v /\ smask t' = false /\ on_polyline V (sx t') v).
  { intros t' Ht. rewrite SS in Ht. apply in_map_iff in Ht. destruct Ht as ([[x y] m] & <- & Ht). cbn [sx sy smask fst snd].
    assert (K : m = false /\ exists v, y = Some v /\ on_polyline V x v).
    { unfold zip3 in Ht. assert (Hm : m = false) by (apply in_combine_r in Ht; now apply repeat_spec in Ht). split; [exact Hm|]. apply in_combine_l in Ht. rewrite ENX in Ht. unfold ny in Ht. rewrite Y0, YN in Ht. cbn [combine] in Ht. destruct Ht as [Ht|Ht].
      - injection Ht as <- <-. exists vf. split; [reflexivity|]. destruct HV as (V' & EV'). assert (NP0 := node_polyline V 0 IV LV ltac:(lia)). rewrite EV' in NP0 at 2 3. cbn in NP0. now rewrite EX0.
      - rewrite SortLib.combine_app' in Ht by now rewrite map_length. apply in_app_or in Ht. destruct Ht as [Ht|[Ht|[]]].
        + rewrite combine_self in Ht. apply in_map_iff in Ht. destruct Ht as (z & Ez & Hz). injection Ez as <- <-. eexists. split; [reflexivity|]. apply interp_polyline; [exact IV|exact LV|]. rewrite V0, VL'. apply BX. rewrite ENX. right. apply in_or_app. now left.
        + injection Ht as <- <-. exists vl. split; [reflexivity|]. assert (NP0 := node_polyline V (length V - 1) IV LV ltac:(lia)). rewrite VL in NP0 at 2 4. rewrite VL, app_length in NP0. cbn [length] in NP0. replace (length (valid_points A) + 1 - 1) with (length (valid_points A)) in NP0 by lia. rewrite app_nth2, Nat.sub_diag in NP0 by lia. cbn in NP0. rewrite <- VL in NP0. now rewrite EX1. }
    destruct K as (-> & v & -> & K). exists v. auto. }
  exists p', n. split; [exact EP|]. split; [exact OK'|]. split; [exact U|]. split; [exact W|]. split; [intros t Ht; destruct (ST t Ht) as (v & E & E2 & _); split; [exact E2|congruence]|].
  split; [rewrite PX; now split|]. split; [exact ND|]. intros t Ht. destruct (ST t Ht) as (v & E & _ & E2). eauto.
Qed.
Lemma evenly_space_even p dx : 2 <= length (px p) -> even_steps (px p) -> evenly_space p dx = Ok p.
Proof. intros L E. unfold evenly_space. assert (Nat.ltb (length (px p)) 2 = false) as -> by (apply Nat.ltb_ge; exact L). cbn [guard]. now rewrite (proj2 (evenly_iff _ L) E). Qed.
