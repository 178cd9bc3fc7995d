(** * BlProofs2: the boundary layer thickness of a profile *)
From Verif Require Import Num Res ListLib SortLib Arr FieldModel ScalarFieldModel FieldSpec PointsSpec FieldProofs ScalarProofs ProfileModel ProfileSpec ProfileProofs ProfileProofs2 ProfileProofs3 ProfileProofs4 BlModel BlSpec BlProofs.

Lemma curve_parts p l : curve p l -> px p = map fst l /\ yv p = map (fun t => Some (snd t)) l /\ pm p = map (fun _ => false) l.
Proof.
  intros [OK E]. destruct (samples_fst p OK) as (X & Y & M). rewrite E in X, Y, M. rewrite map_map in X, Y, M.
  repeat split; symmetry; [exact X|exact Y|exact M].
Qed.
Lemma keep_true {A B} (l : list A) (r : list B) : length r = length l -> keep (map (fun _ => true) l) r = r.
Proof. intro L. apply keep_all; [now rewrite map_length|]. apply forallb_forall. intros b Hb. apply in_map_iff in Hb. now destruct Hb as (? & <- & _). Qed.
Lemma lmax_greatest l m : In m l -> (forall x, In x l -> (x <= m)%num) -> lmax l = m.
Proof.
  intros Hm H. apply Qcle_antisym.
  - destruct (qleb_spec (lmax l) m) as [|C]; [assumption|exfalso]. assert (D : (nths l 0 <= m)%num) by (destruct l; [contradiction|apply H; now left]).
    clear Hm. revert D C. unfold lmax. generalize (nths l 0) as d. induction l as [|y l IH]; intros d D C; simpl in C; [qlra|].
    destruct (qmax_spec y (fold_right qmax d l)) as [[E F]|[E F]]; rewrite F in C.
    + eapply IH; [|exact D|exact C]. intros x Hx. apply H. now right.
    + pose proof (H y (or_introl eq_refl)). qlra.
  - destruct (qleb_spec m (lmax l)) as [|C]; [assumption|exfalso]. pose proof (lmax_spec l _ C _ Hm). qlra.
Qed.
Lemma curve_max p l m : curve p l -> greatest l m -> prof_max p = Some (Some m).
Proof.
  intros C [(x & Hx) G]. destruct (curve_parts p l C) as (_ & Y & M). unfold prof_max. rewrite Y, M.
  assert (forallb (fun b => b) (map (fun _ : num * num => false) l) = false) as -> by (destruct l; [contradiction|reflexivity]).
  rewrite map_map. cbn [negb]. rewrite keep_true by (now rewrite map_length).
  assert (existsb isnan (map (fun t : num * num => Some (snd t)) l) = false) as ->.
  { apply not_true_iff_false. rewrite existsb_exists. intros (o & Ho & E). apply in_map_iff in Ho. destruct Ho as (t & <- & _). discriminate. }
  f_equal. f_equal. rewrite map_map. apply lmax_greatest.
  - apply in_map_iff. exists (x, m). now split.
  - intros u Hu. apply in_map_iff in Hu. destruct Hu as ([x' u'] & <- & H). exact (G _ _ H).
Qed.
Lemma curve_nth p l i : curve p l -> i < length l -> nth i (yv p) None = Some (snd (nth i l (0, 0)%num)) /\ nths (px p) i = fst (nth i l (0, 0)%num).
Proof.
  intros C H. destruct (curve_parts p l C) as (X & Y & _). rewrite X, Y. split.
  - rewrite (nth_map' (fun t : num * num => Some (snd t)) l i None (0, 0)%num) by exact H. reflexivity.
  - rewrite (nth_map' fst l i (qz 0) (0, 0)%num) by exact H. reflexivity.
Qed.
Lemma curve_lengths p l : curve p l -> length (px p) = length l /\ length (yv p) = length l.
Proof. intro C. destruct (curve_parts p l C) as (X & Y & _). now rewrite X, Y, !map_length. Qed.
Lemma head_filter f n k r : filter f (seq 0 n) = k :: r -> k < n /\ f k = true /\ forall j, j < k -> f j = false.
Proof.
  enough (G : forall a, filter f (seq a n) = k :: r -> a <= k < a + n /\ f k = true /\ forall j, a <= j < k -> f j = false).
  { intro H. destruct (G 0 H) as (A & B & C). repeat split; [lia|exact B|]. intros j Hj. apply C. lia. }
  induction n as [|n IH]; intros a H; [discriminate|]. cbn [seq filter] in H. destruct (f a) eqn:E.
  - injection H as -> _. repeat split; [lia|lia|exact E|]. intros j Hj. lia.
  - destruct (IH (S a) H) as (A & B & C). repeat split; [lia|lia|exact B|]. intros j Hj. destruct (Nat.eq_dec j a) as [->|]; [exact E|]. apply C. lia.
Qed.

(** the thickness is the position of the first crossing, when no sample has exactly the value sought; otherwise the first such sample *)
Lemma thickness_lemma p l m perc x0 u0 r : curve p l -> increasing (map fst l) -> greatest l m -> l = (x0, u0) :: r ->
  (u0 < m * perc <= m)%num ->
  exists d, bl_thickness p perc = Ok (Some d) /\ (x0 < d)%num /\ (exists x u, In (x, u) l /\ (d <= x)%num) /\ on_polyline l d (m * perc)%num /\
    ((exists x, In (x, m * perc)%num l) -> In (d, m * perc)%num l /\ forall x, In (x, m * perc)%num l -> (d <= x)%num) /\
    ((forall x, ~ In (x, m * perc)%num l) -> forall x u, In (x, u) l -> (x <= d)%num -> (u < m * perc)%num).
Proof.
  intros C I G EL [V0 V1]. unfold bl_thickness. rewrite (curve_max p l m C G). set (v := (m * perc)%num) in *.
  assert (clearv : True) by exact Logic.I. clearbody v. pose proof C as [OK ES]. destruct (curve_parts p l C) as (X & Y & _). destruct (curve_lengths p l C) as [LX LY].
  assert (IP : increasing (px p)) by (now rewrite X).
  assert (NTH : forall i, i < length l -> In (nths (px p) i, snd (nth i l (0, 0)%num)) l).
  { intros i Hi. destruct (curve_nth p l i C Hi) as [_ ->]. rewrite <- surjective_pairing. now apply nth_In. }
  assert (IDX : forall x u, In (x, u) l -> exists i, i < length l /\ nth i l (0, 0)%num = (x, u) /\ nths (px p) i = x).
  { intros x u H. apply In_nth with (d := (0, 0)%num) in H. destruct H as (i & Hi & E). exists i. repeat split; auto. destruct (curve_nth p l i C Hi) as [_ ->]. now rewrite E. }
  assert (X0 : nths (px p) 0 = x0) by (rewrite X, EL; reflexivity).
  destruct (existsb (fun a => oeqv a v) (yv p)) eqn:EX.
  - (* an exact sample *)
    assert (HE : exists t, In t (samples p) /\ sy t = Some v).
    { apply existsb_exists in EX. destruct EX as (o & Ho & E). rewrite Y in Ho. apply in_map_iff in Ho. destruct Ho as (t & <- & Ht). cbn [oeqv] in E. apply qeqb_eq in E.
      exists (fst t, Some (snd t), false). split; [rewrite ES; apply in_map_iff; now exists t|]. unfold sy. cbn. now rewrite E. }
    rewrite (inverse_exact p v OK HE). rewrite ES.
    set (P := fun t : sample => match sy t with Some w => qeqb w v | None => false end).
    assert (FE : map sx (filter P (map (fun t => (fst t, Some (snd t), false)) l)) = map fst (filter (fun t => qeqb (snd t) v) l)).
    { clear. induction l as [|t l IH]; [reflexivity|]. cbn [map filter]. unfold P at 1. unfold sy. cbn [fst snd]. destruct (qeqb (snd t) v); cbn [map]; rewrite IH; reflexivity. }
    rewrite FE.
    assert (FN : forall t, In t (filter (fun t => qeqb (snd t) v) l) <-> In t l /\ snd t = v).
    { intro t. rewrite filter_In. split; intros (A & B); (split; [exact A|]); [now apply qeqb_eq in B|rewrite B; apply qeqb_refl]. }
    destruct (filter (fun t => qeqb (snd t) v) l) as [|[d w] fr] eqn:FL.
    { exfalso. destruct HE as (t & Ht & E). rewrite ES in Ht. apply in_map_iff in Ht. destruct Ht as ([x u] & <- & Ht). unfold sy in E. cbn in E. injection E as E. destruct (proj2 (FN (x, u)) (conj Ht E)). }
    cbn [map fst]. exists d. split; [reflexivity|].
    destruct (proj1 (FN (d, w)) (or_introl eq_refl)) as [HD EW]. cbn [snd] in EW. subst w.
    assert (MIN : forall x, In (x, v) l -> (d <= x)%num).
    { intros x Hx. assert (Q : In (x, v) ((d, v) :: fr)) by (apply FN; now split). destruct Q as [Q|Q]; [injection Q as ->; apply qle_refl|].
      assert (NP : forall k (l : list (num * num)), increasing (map fst l) -> filter (fun t => qeqb (snd t) v) l = k :: fr -> forall t, In t fr -> (fst k <= fst t)%num).
      { clear. intros k l. induction l as [|t l IH]; intros I E s Hs; [discriminate|]. cbn [filter map] in *. destruct (qeqb (snd t) v).
        - injection E as <- <-. assert (In s l) as Hl by (apply filter_In in Hs; tauto). apply In_nth with (d := (0, 0)%num) in Hl. destruct Hl as (i & Hi & <-).
          pose proof (I 0 (S i) ltac:(lia) ltac:(cbn; rewrite map_length; lia)) as Q. cbn [nth] in Q. rewrite (nth_map' fst l i (qz 0) (0, 0)%num) in Q by exact Hi. now apply Qclt_le_weak.
        - eapply IH; eauto. intros i j Hij Hj. specialize (I (S i) (S j) ltac:(lia) ltac:(cbn; lia)). exact I. }
      exact (NP (d, v) l I FL (x, v) Q). }
    assert (ND : d <> x0 -> (x0 < d)%num).
    { intro N. destruct (IDX d v HD) as (i & Hi & E & E'). destruct i as [|i]; [congruence|]. rewrite <- E', <- X0. apply IP; lia. }
    split; [|split; [exists d, v; split; [exact HD|apply qle_refl]|split; [now left|split; [intros _; now split|]]]].
    + apply ND. intros ->. destruct (IDX x0 v HD) as (i & Hi & E & E'). destruct i as [|i]; [rewrite EL in E; cbn in E; injection E as E; qlra|].
      pose proof (IP 0 (S i) ltac:(lia) ltac:(lia)) as Q. rewrite X0, E' in Q. qlra.
    + intros N. destruct (N d HD).
  - (* no exact sample *)
    assert (NV : forall i, i < length l -> snd (nth i l (0, 0)%num) <> v).
    { intros i Hi E. apply not_true_iff_false in EX. apply EX. apply existsb_exists. exists (Some v). split; [|cbn; apply qeqb_refl].
      rewrite Y. apply in_map_iff. exists (nth i l (0, 0)%num). split; [now rewrite E|now apply nth_In]. }
    unfold interp_y, interp_list. rewrite EX. rewrite LY.
    assert (CR : forall i, S i < length l -> cross (yv p) v i = false -> (snd (nth i l (0, 0)%num) < v)%num -> (snd (nth (S i) l (0, 0)%num) < v)%num).
    { intros i Hi Hc Hl. unfold cross in Hc. destruct (curve_nth p l i C ltac:(lia)) as [A _]. destruct (curve_nth p l (S i) C Hi) as [B _]. rewrite A, B in Hc. cbn [oge ogt ole olt] in Hc.
      apply orb_false_iff in Hc. destruct Hc as [_ Hc]. apply andb_false_iff in Hc. destruct Hc as [Hc|Hc]; [apply qleb_gt in Hc; qlra|]. apply qltb_ge in Hc.
      apply qle_lt_or_eq in Hc. destruct Hc as [Hc|Hc]; [exact Hc|]. destruct (NV (S i) Hi Hc). }
    assert (U0 : (snd (nth 0 l (0, 0)%num) < v)%num) by (rewrite EL; exact V0).
    destruct (filter (cross (yv p) v) (seq 0 (length l - 1))) as [|k fr] eqn:FL.
    { exfalso. assert (ALL : forall i, i < length l -> (snd (nth i l (0, 0)%num) < v)%num).
      { induction i as [|i IH]; intro Hi; [exact U0|]. apply CR; [exact Hi| |apply IH; lia].
        destruct (cross (yv p) v i) eqn:E; [|reflexivity]. assert (In i (filter (cross (yv p) v) (seq 0 (length l - 1)))) as Q by (apply filter_In; split; [apply in_seq; lia|exact E]). rewrite FL in Q. contradiction. }
      destruct G as [(x & Hx) _]. destruct (IDX x m Hx) as (i & Hi & E & _). specialize (ALL i Hi). rewrite E in ALL. cbn in ALL. qlra. }
    destruct (head_filter _ _ _ _ FL) as (K & CK & BEF).
    assert (LOW : forall i, i <= k -> (snd (nth i l (0, 0)%num) < v)%num).
    { induction i as [|i IH]; intro Hi; [exact U0|]. apply CR; [lia|apply BEF; lia|apply IH; lia]. }
    destruct (curve_nth p l k C ltac:(lia)) as [A1 A2]. destruct (curve_nth p l (S k) C ltac:(lia)) as [B1 B2].
    pose proof (LOW k (le_n k)) as LK.
    assert (HK : (v < snd (nth (S k) l (0, 0)%num))%num).
    { unfold cross in CK. rewrite A1, B1 in CK. cbn [oge ogt ole olt] in CK. apply orb_true_iff in CK. destruct CK as [CK|CK]; apply andb_true_iff in CK; destruct CK as [Q1 Q2].
      - apply qleb_le in Q1. qlra.
      - now apply qltb_lt in Q2. }
    cbn [map]. unfold between. rewrite A1, B1, X. rewrite (nth_some (map fst l) k), (nth_some (map fst l) (S k)) by (rewrite map_length; lia). rewrite <- X, A2, B2.
    pose proof (IP k (S k) ltac:(lia) ltac:(lia)) as LT. rewrite A2, B2 in LT.
    assert (EN1 : nth_error l k = Some (nth k l (0, 0)%num)) by (apply nth_error_nth'; lia).
    assert (EN2 : nth_error l (S k) = Some (nth (S k) l (0, 0)%num)) by (apply nth_error_nth'; lia).
    destruct (nth k l (0, 0)%num) as [xa ua] eqn:EA. destruct (nth (S k) l (0, 0)%num) as [xb ub] eqn:EB. cbn [fst snd] in *.
    assert (E1 : qabs (ub - v)%num = (ub - v)%num) by (destruct (qabs_spec (ub - v)%num) as [[? ->]|[? ->]]; qlra).
    assert (E2 : qabs (ua - v)%num = (v - ua)%num) by (destruct (qabs_spec (ua - v)%num) as [[? ->]|[? ->]]; qlra).
    assert (E3 : qabs (ua - ub)%num = (ub - ua)%num) by (destruct (qabs_spec (ua - ub)%num) as [[? ->]|[? ->]]; qlra).
    rewrite E1, E2, E3. set (d := ((xa * (ub - v) + xb * (v - ua)) / (ub - ua))%num). exists d. split; [reflexivity|].
    assert (ED : (d * (ub - ua) = xa * (ub - v) + xb * (v - ua))%num) by (apply qdiv_mul, qgt_neq; qlra). clearbody d.
    assert (D1 : (xa < d)%num).
    { destruct (qltb_spec xa d) as [Q|Q]; [exact Q|exfalso]. assert (0 < (xb - xa) * (v - ua))%num by (apply qmul_pos; qlra). assert (0 <= (xa - d) * (ub - ua))%num by (apply qmul_nonneg; qlra). qlra. }
    assert (D2 : (d < xb)%num).
    { destruct (qltb_spec d xb) as [Q|Q]; [exact Q|exfalso]. assert (0 < (xb - xa) * (ub - v))%num by (apply qmul_pos; qlra). assert (0 <= (d - xb) * (ub - ua))%num by (apply qmul_nonneg; qlra). qlra. }
    assert (NX : forall x, ~ In (x, v) l).
    { intros x Hx. destruct (IDX x v Hx) as (i & Hi & E & _). apply (NV i Hi). now rewrite E. }
    split; [|split; [exists xb, ub; split; [apply (nth_error_In _ _ EN2)|now apply Qclt_le_weak]|split; [|split]]].
    + assert (x0 <= xa)%num; [|qlra]. rewrite <- X0, <- A2. apply increasing_nondecreasing; auto; lia.
    + right. exists k, xa, ua, xb, ub. split; [exact EN1|]. split; [exact EN2|]. split; [now split|]. unfold on_line. qlra.
    + intros (x & Hx). destruct (NX x Hx).
    + intros _ x u Hx Hle. destruct (IDX x u Hx) as (i & Hi & E & E').
      assert (Hik : i <= k). { destruct (Nat.le_gt_cases i k) as [|Q]; [assumption|exfalso]. pose proof (increasing_nondecreasing _ IP (S k) i ltac:(lia) ltac:(lia)) as Q'. rewrite B2, E' in Q'. qlra. }
      specialize (LOW i Hik). now rewrite E in LOW.
Qed.

(** when the velocity never decreases: everything before is below, everything after is not *)
Lemma thickness_monotone p l m perc x0 u0 r : curve p l -> increasing (map fst l) -> greatest l m -> l = (x0, u0) :: r -> monotone l ->
  (u0 < m * perc <= m)%num ->
  exists d, bl_thickness p perc = Ok (Some d) /\ on_polyline l d (m * perc)%num /\
    forall x u, In (x, u) l -> ((x < d)%num -> (u < m * perc)%num) /\ ((d <= x)%num -> (m * perc <= u)%num).
Proof.
  intros C I G EL MO V. destruct (thickness_lemma p l m perc x0 u0 r C I G EL V) as (d & E & _ & _ & PO & EXA & NEX). exists d. split; [exact E|]. split; [exact PO|].
  set (v := (m * perc)%num) in *. clearbody v. intros x u H. destruct PO as [HN|(i & xa & ua & xb & ub & E1 & E2 & [D1 D2] & ON)].
  - destruct (EXA (ex_intro _ d HN)) as [_ MIN]. split; intro Q.
    + pose proof (MO x u d v H HN (Qclt_le_weak _ _ Q)) as Le. apply qle_lt_or_eq in Le. destruct Le as [Le|Le]; [exact Le|]. subst u. specialize (MIN x H). qlra.
    + exact (MO d v x u HN H Q).
  - pose proof (nth_error_In _ _ E1) as H1. pose proof (nth_error_In _ _ E2) as H2. pose proof (MO xa ua xb ub H1 H2 ltac:(qlra)) as AB. unfold on_line in ON.
    assert (NE : (exists x, In (x, v) l) -> False).
    { intros (y & Hy). destruct (EXA (ex_intro _ y Hy)) as [HD _]. apply In_nth_error in HD. destruct HD as (j & Hj).
      assert (F : forall k a b, nth_error l k = Some (a, b) -> nths (map fst l) k = a) by (intros k a b Hk; apply nth_error_nths; now rewrite nth_error_map, Hk).
      assert (LN : forall k t, nth_error l k = Some t -> k < length (map fst l)) by (intros k t Hk; rewrite map_length; apply nth_error_Some; congruence).
      pose proof (F _ _ _ Hj) as F1. pose proof (F _ _ _ E1) as F2. pose proof (F _ _ _ E2) as F3.
      rewrite <- F1, <- F2 in D1. rewrite <- F1, <- F3 in D2.
      apply increasing_lt_inv in D1; [|exact I|eapply LN; eauto|eapply LN; eauto]. apply increasing_lt_inv in D2; [|exact I|eapply LN; eauto|eapply LN; eauto]. lia. }
    assert (NX : forall x, ~ In (x, v) l) by (intros y Hy; apply NE; now exists y).
    split; intro Q.
    + apply (NEX NX x u H). now apply Qclt_le_weak.
    + assert (HB : (v <= ub)%num).
      { destruct (qleb_spec v ub) as [|CC]; [assumption|exfalso]. assert (0 < (v - ub) * (xb - xa))%num by (apply qmul_pos; qlra). assert (0 <= (ub - ua) * (xb - d))%num by (apply qmul_nonneg; qlra). qlra. }
      apply In_nth_error in H. destruct H as (j & Hj).
      assert (F : forall k a b, nth_error l k = Some (a, b) -> nths (map fst l) k = a) by (intros k a b Hk; apply nth_error_nths; now rewrite nth_error_map, Hk).
      assert (LN : forall k t, nth_error l k = Some t -> k < length (map fst l)) by (intros k t Hk; rewrite map_length; apply nth_error_Some; congruence).
      assert (Hle : (xb <= x)%num).
      { destruct (Nat.le_gt_cases (S i) j) as [Lij|Lij].
        - rewrite <- (F _ _ _ E2), <- (F _ _ _ Hj). apply increasing_nondecreasing; auto. eapply LN; eauto.
        - exfalso. assert (x <= xa)%num; [|qlra]. rewrite <- (F _ _ _ E1), <- (F _ _ _ Hj). apply increasing_nondecreasing; auto; [lia|]. eapply LN; eauto. }
      pose proof (MO xb ub x u H2 (nth_error_In _ _ Hj) Hle). qlra.
Qed.
