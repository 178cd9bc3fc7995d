From Coq Require Import Lia Permutation Sorted.
From Verif Require Import Num Res ListLib SortLib Arr FieldModel ScalarFieldModel FieldSpec FieldProofs FieldProofs2 GradModel ProfileModel ProfileSpec ProfileProofs ProfileProofs2 ProfileProofs3 ProfileProofs4 ProfileProofs5
  PodProofs UtilsProofs3 AsciiModel AsciiProofs AsciiProofs2 AsciiProofs3 AsciiProofs4 BlProofs Prof2Model Prof2Spec Prof2Proofs Prof2Proofs2 Prof2Proofs3 Prof2Proofs4.

(** ** C137: the unmasked samples with the index they get *)
Fixpoint vidx (k i : nat) (l : list sample) : list (num * num * num) :=
  match l with [] => [] | (x, Some v, false) :: r => (qn (i * k), x, v) :: vidx k (S i) r | _ :: r => vidx k (S i) r end.
Notation i1 := (fun t : num * num * num => fst (fst t)).
Notation i2 := (fun t : num * num * num => snd (fst t)).
Notation i3 := (fun t : num * num * num => snd t).
Lemma vidx_app k i a b : vidx k i (a ++ b) = vidx k i a ++ vidx k (i + length a) b.
Proof.
  revert i. induction a as [|[[x y] m] a IH]; intro i; cbn [app vidx length]; [now rewrite Nat.add_0_r|].
  replace (i + S (length a)) with (S i + length a) by lia. destruct y as [v|]; [destruct m|]; cbn [app]; now rewrite IH.
Qed.
Lemma vidx_masked k i l : all_masked l -> vidx k i l = [].
Proof.
  revert i. induction l as [|[[x y] m] l IH]; intros i H; [reflexivity|]. assert (E := H _ (or_introl eq_refl)). cbn in E. subst m. cbn [vidx]. destruct y; apply IH; intros t Ht; apply H; now right.
Qed.
Lemma vidx_points k i l : map (fun t => (i2 t, i3 t)) (vidx k i l) = valid_points l.
Proof. revert i. induction l as [|[[x y] m] l IH]; intro i; [reflexivity|]. cbn [vidx valid_points]. destruct y as [v|]; [destruct m|]; cbn; now rewrite ?IH. Qed.
Lemma vidx_fst k i l : map i2 (vidx k i l) = map fst (valid_points l).
Proof. rewrite <- (vidx_points k i l), map_map. reflexivity. Qed.
Lemma vidx_snd k i l : map i3 (vidx k i l) = map snd (valid_points l).
Proof. rewrite <- (vidx_points k i l), map_map. reflexivity. Qed.
Lemma vidx_keep k l : (forall t, In t l -> smask t = isnan (sy t)) -> forall i, keep (map negb (map smask l)) (map (fun i => qn (i * k)) (seq i (length l))) = map i1 (vidx k i l).
Proof.
  induction l as [|[[x y] m] l IH]; intros CL i; [reflexivity|]. assert (C := CL _ (or_introl eq_refl)). cbn in C. subst m. cbn [length seq map keep vidx smask snd].
  assert (IH' := fun i => IH (fun t H => CL t (or_intror H)) i). destruct y as [v|]; cbn [isnan negb keep map fst]; now rewrite IH'.
Qed.
Lemma vidx_ge k i l t : In t (vidx k i l) -> exists j, i <= j /\ i1 t = qn (j * k).
Proof.
  revert i. induction l as [|[[x y] m] l IH]; intros i H; [contradiction|]. cbn [vidx] in H. assert (G : In t (vidx k (S i) l) -> exists j, i <= j /\ i1 t = qn (j * k)) by (intro Q; destruct (IH _ Q) as (j & L & E); exists j; split; [lia|exact E]).
  destruct y as [v|]; [destruct m|]; auto. destruct H as [<-|H]; [exists i; split; [lia|reflexivity]|auto].
Qed.
Lemma vidx_incr k i l : 0 < k -> increasing (map i1 (vidx k i l)).
Proof.
  intro P. revert i. induction l as [|[[x y] m] l IH]; intro i; [intros a b _ H; cbn in H; lia|]. cbn [vidx]. destruct y as [v|]; [destruct m|]; auto. cbn [map fst]. apply increasing_cons_iff. split; [auto|].
  intros z Hz. apply in_map_iff in Hz. destruct Hz as (t & <- & Ht). destruct (vidx_ge _ _ _ _ Ht) as (j & L & ->). apply qn_lt. apply Nat.mul_lt_mono_pos_r; lia.
Qed.
Lemma nths_mid {B} (g : B -> num) A s t R : nths (map g (A ++ s :: t :: R)) (length A) = g s /\ nths (map g (A ++ s :: t :: R)) (S (length A)) = g t.
Proof.
  rewrite map_app. cbn [map]. rewrite !app_nth2; rewrite map_length; [|lia|lia]. rewrite Nat.sub_diag. replace (S (length A) - length A) with 1 by lia. split; reflexivity.
Qed.
(** between two consecutive unmasked samples *)
Lemma vidx_interp k mid A1 s M t B1 j : 0 < k -> mid = A1 ++ s :: M ++ t :: B1 -> smask s = false -> smask t = false -> all_masked M -> j <= k * S (length M) ->
  (forall t, In t mid -> smask t = isnan (sy t)) ->
  exists ys yt, sy s = Some ys /\ sy t = Some yt /\
    let V := vidx k 0 mid in let m := qn (k * length A1 + j) in
    let x := interp1d (map i1 V) (map i2 V) m in let y := interp1d (map i1 V) (map i3 V) m in
    on_line 0 (qn (k * S (length M))) (qn j) (sx s) (sx t) x /\ (qmin (sx s) (sx t) <= x <= qmax (sx s) (sx t))%num /\
    on_line 0 (qn (k * S (length M))) (qn j) ys yt y /\ (qmin ys yt <= y <= qmax ys yt)%num.
Proof.
  intros P E Ms Mt MM Lj CL. destruct s as [[xs ys'] ms], t as [[xt yt'] mt]. cbn in Ms, Mt. subst ms mt.
  assert (Cs := CL (xs, ys', false) ltac:(rewrite E; apply in_or_app; right; now left)). assert (Ct := CL (xt, yt', false) ltac:(rewrite E; apply in_or_app; right; right; apply in_or_app; right; now left)). cbn in Cs, Ct.
  destruct ys' as [ys|]; [|discriminate]. destruct yt' as [yt|]; [|discriminate]. exists ys, yt. split; [reflexivity|]. split; [reflexivity|]. intros V m.
  set (a := length A1 * k). set (b := (length A1 + S (length M)) * k).
  assert (EV : V = vidx k 0 A1 ++ (qn a, xs, ys) :: (qn b, xt, yt) :: vidx k (length A1 + S (S (length M))) B1).
  { unfold V. rewrite E, vidx_app. cbn [Nat.add]. f_equal. cbn [vidx]. f_equal. rewrite vidx_app, (vidx_masked _ _ M MM). cbn [app vidx]. unfold b. replace (S (length A1) + length M) with (length A1 + S (length M)) by lia. do 2 f_equal. lia. }
  set (i := length (vidx k 0 A1)). assert (LV : S i < length V) by (rewrite EV, app_length; cbn; unfold i; lia).
  assert (N1 := nths_mid i1 (vidx k 0 A1) (qn a, xs, ys) (qn b, xt, yt) (vidx k (length A1 + S (S (length M))) B1)). assert (N2 := nths_mid i2 (vidx k 0 A1) (qn a, xs, ys) (qn b, xt, yt) (vidx k (length A1 + S (S (length M))) B1)). assert (N3 := nths_mid i3 (vidx k 0 A1) (qn a, xs, ys) (qn b, xt, yt) (vidx k (length A1 + S (S (length M))) B1)).
  rewrite <- EV in N1, N2, N3. fold i in N1, N2, N3. cbn [fst snd] in N1, N2, N3. destruct N1 as [N1 N1'], N2 as [N2 N2'], N3 as [N3 N3'].
  assert (BB : (qn a <= m <= qn b)%num) by (unfold m, a, b; split; apply qn_le; nia).
  assert (I := vidx_incr k 0 mid P). fold V in I.
  assert (H2 := interp1d_at (map i1 V) (map i2 V) m i I ltac:(now rewrite !map_length) ltac:(now rewrite map_length) ltac:(rewrite N1, N1'; exact BB)).
  assert (H3 := interp1d_at (map i1 V) (map i3 V) m i I ltac:(now rewrite !map_length) ltac:(now rewrite map_length) ltac:(rewrite N1, N1'; exact BB)).
  rewrite N1, N1', N2, N2' in H2. rewrite N1, N1', N3, N3' in H3. cbn [sx fst snd].
  assert (Q1 : (qn b - qn a = qn (k * S (length M)) - 0)%num). { unfold a, b, qn. rewrite <- !qz_sub. f_equal. lia. }
  assert (Q2 : (qn b - m = qn (k * S (length M)) - qn j)%num). { unfold m, b, qn. rewrite <- !qz_sub. f_equal. lia. }
  assert (Q3 : (m - qn a = qn j - 0)%num). { unfold m, a, qn. change 0%num with (qz 0). rewrite <- !qz_sub. f_equal. lia. }
  destruct H2 as [H2 H2'], H3 as [H3 H3']. unfold on_line in *. rewrite Q1, Q2, Q3 in *. auto.
Qed.
Lemma interp_between_le k mid A1 s M t B1 : 0 < k -> mid = A1 ++ s :: M ++ t :: B1 -> smask s = false -> smask t = false -> all_masked M -> (forall t, In t mid -> smask t = isnan (sy t)) -> nondecreasing (map sx mid) ->
  forall j, j < k * S (length M) -> let V := vidx k 0 mid in
  (interp1d (map i1 V) (map i2 V) (qn (k * length A1 + j)) <= interp1d (map i1 V) (map i2 V) (qn (k * length A1 + S j)))%num.
Proof.
  intros P E Ms Mt MM CL ND j Lj V. destruct (vidx_interp k mid A1 s M t B1 j P E Ms Mt MM ltac:(lia) CL) as (ys & yt & _ & _ & H1 & _). destruct (vidx_interp k mid A1 s M t B1 (S j) P E Ms Mt MM ltac:(lia) CL) as (ys' & yt' & _ & _ & H2 & _).
  fold V in H1, H2. set (u := interp1d (map i1 V) (map i2 V) (qn (k * length A1 + j))) in *. set (w := interp1d (map i1 V) (map i2 V) (qn (k * length A1 + S j))) in *. clearbody u w. set (D := qn (k * S (length M))) in *.
  assert (DP : (0 < D)%num) by (apply qn_0lt; nia). unfold on_line in *.
  assert (ST : (sx s <= sx t)%num). { assert (K := ND (length A1) (length A1 + S (length M)) ltac:(lia)). rewrite map_length in K. rewrite E in K. rewrite map_app in K. cbn [map] in K. rewrite map_app in K. cbn [map] in K. rewrite !app_nth2 in K by (rewrite map_length; lia). rewrite map_length in K. rewrite Nat.sub_diag in K. replace (length A1 + S (length M) - length A1) with (S (length M)) in K by lia. cbn [nth] in K. rewrite app_nth2 in K by (rewrite map_length; lia). rewrite map_length, Nat.sub_diag in K. apply K. rewrite app_length. cbn. rewrite app_length. cbn. lia. }
  assert (QJ : qn (S j) = (qn j + 1)%num) by (unfold qn; rewrite Nat2Z.inj_succ; rewrite <- Z.add_1_r, qz_add; reflexivity).
  assert (DU : ((w - u) * D = sx t - sx s)%num). { assert (X1 : (u * D = u * (D - 0))%num) by qring. assert (X2 : (w * D = w * (D - 0))%num) by qring. transitivity (w * D - u * D)%num; [qring|]. rewrite X1, X2, H1, H2, QJ. qring. }
  destruct (qleb_spec u w) as [|C]; [assumption|]. exfalso. assert ((w - u) * D < 0 * D)%num by (apply qmul_lt_r; [exact DP|qlra]). assert (0 * D = 0)%num by qring. qlra.
Qed.
(** every index lies between two consecutive unmasked samples *)
Lemma split_first_valid l : smask (hd (qz 0, None, false) (rev l)) = false -> l <> [] -> exists M t B, l = M ++ t :: B /\ all_masked M /\ smask t = false.
Proof.
  induction l as [|a l IH]; intros H N; [congruence|]. destruct (smask a) eqn:Ea.
  - destruct l as [|b l]; [cbn in H; congruence|]. destruct IH as (M & t & B & E & MM & Mt); [|congruence|].
    + change (rev (a :: b :: l)) with (rev (b :: l) ++ [a]) in H. destruct (rev (b :: l)) as [|c r] eqn:Q; [assert (QQ : length (rev (b :: l)) = 0) by (now rewrite Q); rewrite rev_length in QQ; discriminate|]. exact H.
    + exists (a :: M), t, B. rewrite E. split; [reflexivity|]. split; [|exact Mt]. intros u [<-|Hu]; auto.
  - exists [], a, l. split; [reflexivity|]. split; [intros u []|exact Ea].
Qed.
Lemma cover mid n : smask (hd (qz 0, None, true) mid) = false -> smask (hd (qz 0, None, false) (rev mid)) = false -> S n < length mid ->
  exists A1 s M t B1, mid = A1 ++ s :: M ++ t :: B1 /\ smask s = false /\ smask t = false /\ all_masked M /\ length A1 <= n < length A1 + S (length M).
Proof.
  intros H0 H1. induction n as [|n IH]; intro L.
  - destruct mid as [|s r]; [cbn in L; lia|]. destruct (split_first_valid r) as (M & t & B & E & MM & Mt).
    + destruct r as [|b r]; [cbn in L; lia|]. change (rev (s :: b :: r)) with (rev (b :: r) ++ [s]) in H1. destruct (rev (b :: r)) eqn:Q; [assert (QQ : length (rev (b :: r)) = 0) by (now rewrite Q); rewrite rev_length in QQ; discriminate|]. exact H1.
    + intro Q. subst r. cbn in L. lia.
    + exists [], s, M, t, B. cbn. rewrite E. split; [reflexivity|]. split; [exact H0|]. split; [exact Mt|]. split; [exact MM|]. lia.
  - destruct (IH ltac:(lia)) as (A1 & s & M & t & B1 & E & Ms & Mt & MM & LL). destruct (Nat.lt_ge_cases (S n) (length A1 + S (length M))) as [C|C]; [exists A1, s, M, t, B1; repeat (split; [assumption|]); lia|].
    assert (NB : B1 <> []). { intro Q. subst B1. rewrite E, app_length in L. cbn in L. rewrite app_length in L. cbn in L. lia. }
    destruct (split_first_valid B1) as (M' & t' & B' & E' & MM' & Mt').
    + rewrite E, rev_app_distr in H1. cbn in H1. rewrite rev_app_distr in H1. cbn in H1. destruct (rev B1) eqn:Q; [assert (QQ : length (rev B1) = 0) by (now rewrite Q); rewrite rev_length in QQ; destruct B1; [congruence|discriminate]|]. exact H1.
    + exact NB.
    + exists (A1 ++ s :: M), t, M', t', B'. rewrite E, E'. split; [now rewrite <- app_assoc|]. split; [exact Mt|]. split; [exact Mt'|]. split; [exact MM'|]. rewrite app_length. cbn. lia.
Qed.
Lemma incr_step (f : nat -> num) n : (forall i, i < n -> (f i <= f (S i))%num) -> nondecreasing (map f (seq 0 (S n))).
Proof.
  intros H i j Hij Hj. rewrite map_length, seq_length in Hj. rewrite !(nth_map' _ _ _ (qz 0) 0) by (rewrite seq_length; lia). rewrite !seq_nth by lia. cbn [Nat.add].
  assert (G : forall d, i + d <= n -> (f i <= f (i + d)%nat)%num). { induction d as [|d IH]; intro L; [rewrite Nat.add_0_r; apply qle_refl|]. specialize (IH ltac:(lia)). specialize (H (i + d) ltac:(lia)). replace (i + S d) with (S (i + d)) by lia. qlra. }
  specialize (G (j - i) ltac:(lia)). now replace (i + (j - i)) with j in G by lia.
Qed.
Lemma valid_len l : (forall t, In t l -> smask t = isnan (sy t)) -> smask (hd (qz 0, None, true) l) = false -> smask (hd (qz 0, None, false) (rev l)) = false -> 2 <= length l -> 2 <= length (valid_points l).
Proof.
  intros CL H0 H1 L. destruct (cover l 0 H0 H1 L) as (A1 & s & M & t & B1 & E & Ms & Mt & MM & LL). destruct s as [[xs ys] ms], t as [[xt yt] mt]. cbn in Ms, Mt. subst ms mt.
  assert (Cs := CL (xs, ys, false) ltac:(rewrite E; apply in_or_app; right; now left)). assert (Ct := CL (xt, yt, false) ltac:(rewrite E; apply in_or_app; right; right; apply in_or_app; right; now left)). cbn in Cs, Ct.
  destruct ys as [ys|]; [|discriminate]. destruct yt as [yt|]; [|discriminate].
  assert (VA : forall a b, valid_points (a ++ b) = valid_points a ++ valid_points b). { intros a b. induction a as [|[[x y] m] a IH]; [reflexivity|]. cbn [app valid_points]. destruct y; [destruct m|]; cbn [app]; now rewrite ?IH. }
  rewrite E, VA. cbn [valid_points]. rewrite VA. cbn [valid_points]. rewrite !app_length. cbn. rewrite app_length. cbn. lia.
Qed.
Lemma augment_lemma p fact : prof_ok p -> prof_clean p -> (1 <= fact)%Z -> 2 <= length (valid_points (samples p)) ->
  exists p' A mid B, augment_resolution p fact = (p', None) /\ prof_ok p' /\ pux p' = pux p /\ puy p' = puy p /\ nothing_hidden p' /\
    samples p = A ++ mid ++ B /\ all_masked A /\ all_masked B /\
    (exists f l, hd_error mid = Some f /\ smask f = false /\ hd_error (rev mid) = Some l /\ smask l = false) /\ length (samples p') = S ((length mid - 1) * Z.to_nat fact) /\
    forall A1 s M t B1 j, mid = A1 ++ s :: M ++ t :: B1 -> smask s = false -> smask t = false -> all_masked M -> j <= Z.to_nat fact * S (length M) ->
      exists x y ys yt, nth_error (samples p') (Z.to_nat fact * length A1 + j) = Some (x, Some y, false) /\ sy s = Some ys /\ sy t = Some yt /\
        on_line 0 (qn (Z.to_nat fact * S (length M))) (qn j) (sx s) (sx t) x /\ on_line 0 (qn (Z.to_nat fact * S (length M))) (qn j) ys yt y.
Proof.
  intros OK CL FP LV.
  assert (NM : ~ all_masked (samples p)). { intro AM. rewrite <- valid_both, (vpts_masked _ AM) in LV. cbn in LV. lia. }
  destruct (crop_masked_lemma p OK NM) as (q & EQ & OKQ & U & W & A & B & f & l & ES & AM & BM & HF & MF & HL & ML).
  unfold augment_resolution. assert ((fact <=? 0)%Z = false) as -> by (apply Z.leb_gt; lia). set (k := Z.to_nat fact). assert (KP : 0 < k) by lia.
  unfold prof_crop_masked in EQ. destruct (crop_masked_in p) as [q0 [e|]]; [discriminate|]. cbn in EQ. injection EQ as ->. cbn [thenp].
  set (mid := samples q) in *. assert (CLQ : forall t, In t mid -> smask t = isnan (sy t)). { intros t Ht. apply CL. rewrite ES. apply in_or_app. right. apply in_or_app. now left. }
  destruct (samples_fst q OKQ) as (X & Y & MQ). fold mid in X, Y, MQ. assert (SL := samples_length q OKQ). fold mid in SL. destruct (ok_lengths q OKQ) as (_ & _ & SO).
  assert (VA : forall a b, valid_points (a ++ b) = valid_points a ++ valid_points b). { intros a b. induction a as [|[[x y] m] a IH]; [reflexivity|]. cbn [app valid_points]. destruct y; [destruct m|]; cbn [app]; now rewrite ?IH. }
  assert (EV : valid_points (samples p) = valid_points mid). { rewrite ES, !VA, <- !valid_both, (vpts_masked A AM), (vpts_masked B BM). cbn. now rewrite app_nil_r. }
  assert (H0 : smask (hd (qz 0, None, true) mid) = false) by (destruct mid; [discriminate|]; injection HF as ->; exact MF). assert (H1 : smask (hd (qz 0, None, false) (rev mid)) = false) by (destruct (rev mid); [discriminate|]; injection HL as ->; exact ML).
  assert (L2 : 2 <= length mid). { rewrite EV in LV. destruct mid as [|[[x y] m] [|b r]]; [cbn in LV; lia| |cbn; lia]. exfalso. cbn [valid_points] in LV. destruct y as [v|]; [destruct m|]; cbn in LV; lia. }
  change (valid_pts q) with (vpts mid). rewrite valid_both. assert (Nat.ltb (length (valid_points mid)) 2 = false) as -> by (apply Nat.ltb_ge; now apply valid_len).
  rewrite <- MQ. rewrite <- SL. rewrite (vidx_keep k mid CLQ 0). rewrite <- (vidx_fst k 0 mid), <- (vidx_snd k 0 mid). set (V := vidx k 0 mid).
  set (N := (length mid - 1) * k). rewrite !map_map. set (nx := map (fun i => interp1d (map i1 V) (map i2 V) (qn i)) (seq 0 (S N))). set (ny := map (fun i => Some (interp1d (map i1 V) (map i3 V) (qn i))) (seq 0 (S N))).
  assert (LN : length nx = length ny) by (unfold nx, ny; now rewrite !map_length). assert (LX : length nx = S N) by (unfold nx; now rewrite map_length, seq_length).
  assert (DIV : forall i, i < N -> exists A1 s M t B1 j, mid = A1 ++ s :: M ++ t :: B1 /\ smask s = false /\ smask t = false /\ all_masked M /\ i = k * length A1 + j /\ j < k * S (length M)).
  { intros i Li. assert (D := Nat.div_mod i k ltac:(lia)). assert (DM := Nat.mod_upper_bound i k ltac:(lia)). assert (LD : i / k < length mid - 1) by (apply Nat.div_lt_upper_bound; [lia|]; unfold N in Li; lia).
    destruct (cover mid (i / k) H0 H1 ltac:(lia)) as (A1 & s & M & t & B1 & E & Ms & Mt & MM & LL). exists A1, s, M, t, B1, (i - k * length A1). repeat (split; [assumption|]). nia. }
  assert (INX : nondecreasing nx). { apply incr_step. intros i Li. destruct (DIV i Li) as (A1 & s & M & t & B1 & j & E & Ms & Mt & MM & EI & LJ). assert (K := interp_between_le k mid A1 s M t B1 KP E Ms Mt MM CLQ ltac:(rewrite X; exact SO) j LJ). cbv zeta in K. fold V in K. rewrite <- EI in K. replace (k * length A1 + S j) with (S i) in K by lia. exact K. }
  destruct (replace_spec q nx ny LN) as (q2 & E2 & OK2 & _ & SS & U2 & W2). specialize (SS INX).
  assert (FF : map isnan ny = repeat false (S N)). { unfold ny. rewrite map_map. cbn [isnan]. clear. generalize 0. induction (S N) as [|n IH]; intro a; [reflexivity|]. cbn. now rewrite IH. }
  assert (NA : forall y, length y = S N -> nan_at (repeat false (S N)) y = y). { intros y. generalize (S N). intro n. revert y. induction n as [|n IH]; intros [|a y] H; try discriminate; [reflexivity|]. unfold nan_at in *. cbn. f_equal. apply IH. cbn in H. lia. }
  destruct (zip3_fst nx ny (map isnan ny) LN ltac:(now rewrite map_length)) as (Z1 & Z2 & Z3). rewrite <- SS in Z1, Z2, Z3. destruct (samples_fst q2 OK2) as (X2 & Y2 & M2).
  assert (PX2 : px q2 = nx) by congruence. assert (PM2 : pm q2 = repeat false (S N)) by congruence. assert (YV2 : yv q2 = ny) by congruence.
  assert (LPY : length (py q2) = length (px q2)) by (destruct OK2 as (O1 & _); exact O1).
  assert (PY2 : py q2 = ny). { rewrite <- YV2. unfold yv. rewrite PM2. symmetry. apply NA. rewrite LPY, PX2. exact LX. }
  assert (TH : thenp (set_y q ny) (fun q1 => thenp (set_x q1 nx) (fun q2 => set_pmask q2 (repeat false (length nx)))) = thenp (thenp (set_y q ny) (fun q1 => set_x q1 nx)) (fun q2 => set_pmask q2 (repeat false (length nx)))). { destruct (set_y q ny) as [qq [e|]]; reflexivity. }
  rewrite TH, E2. cbn [thenp]. destruct (ok_lengths q2 OK2) as (_ & _ & SO2).
  destruct (set_pmask_spec q2 (repeat false (length nx))) as (p' & E3 & OK3 & SS3 & U3 & W3). { rewrite repeat_length, LPY, PX2. reflexivity. } { exact LPY. } { exact SO2. }
  rewrite LX in SS3. rewrite PX2, PY2, NA in SS3 by congruence.
  assert (NT : forall i, i <= N -> nth_error (samples p') i = Some (interp1d (map i1 V) (map i2 V) (qn i), Some (interp1d (map i1 V) (map i3 V) (qn i)), false)).
  { intros i Li. rewrite SS3. unfold zip3, nx, ny. rewrite (nth_error_combine' _ _ i (interp1d (map i1 V) (map i2 V) (qn i), Some (interp1d (map i1 V) (map i3 V) (qn i))) false). { reflexivity. }
    - rewrite (nth_error_combine' _ _ i (interp1d (map i1 V) (map i2 V) (qn i)) (Some (interp1d (map i1 V) (map i3 V) (qn i)))); [reflexivity| |]; rewrite nth_error_map, nth_error_seq' by lia; reflexivity.
    - apply nth_error_repeat. lia. }
  assert (LS : length (samples p') = S N) by (rewrite SS3; unfold zip3; rewrite !combine_length, repeat_length, <- LN, LX; lia).
  exists p', A, mid, B. split; [exact E3|]. split; [exact OK3|]. split; [congruence|]. split; [congruence|]. split.
  { intros t Ht. apply In_nth_error in Ht. destruct Ht as (i & Hi). assert (Li : i < S N) by (rewrite <- LS; apply nth_error_Some; congruence). rewrite NT in Hi by lia. injection Hi as <-. split; [reflexivity|discriminate]. }
  split; [exact ES|]. split; [exact AM|]. split; [exact BM|]. split; [eauto 6|]. split; [exact LS|].
  intros A1 s M t B1 j E Ms Mt MM Lj. destruct (vidx_interp k mid A1 s M t B1 j KP E Ms Mt MM Lj CLQ) as (ys & yt & Hy1 & Hy2 & P1 & _ & P2 & _). fold V in P1, P2.
  do 2 eexists. exists ys, yt. split; [apply NT|]; [|split; [exact Hy1|]; split; [exact Hy2|]; split; [exact P1|exact P2]].
  unfold N. rewrite E, app_length. cbn [length]. rewrite app_length. cbn [length]. nia.
Qed.
