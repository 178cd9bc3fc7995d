From Coq Require Import Lia Permutation Sorted.
From Verif Require Import Num Res ListLib SortLib Arr FieldModel ScalarFieldModel FieldSpec FieldProofs FieldProofs2 ProfileModel ProfileSpec ProfileProofs ProfileProofs2 ProfileProofs3 ProfileProofs4 ProfileProofs5
  PodProofs AsciiModel AsciiProofs AsciiProofs2 Prof2Model Prof2Spec Prof2Proofs Prof2Proofs2.

(** ** C134 *)
Lemma valid_snd l : map snd (vpts l) = valid_values l.
Proof. induction l as [|[[x y] m] l IH]; [reflexivity|]. cbn [flat_map valid_values]. destruct y as [y|]; [|exact IH]. destruct m; [exact IH|]. cbn. now f_equal. Qed.
Lemma valid_both l : vpts l = valid_points l.
Proof. induction l as [|[[x y] m] l IH]; [reflexivity|]. cbn [flat_map valid_points]. destruct y as [y|]; [|exact IH]. destruct m; [exact IH|]. cbn. now f_equal. Qed.
Lemma variance_eq l : pvariance l (mean l) = variance l.
Proof. unfold pvariance, variance, average, mean. now rewrite map_length. Qed.
Lemma qn_0lt n : 0 < n -> (0 < qn n)%num.
Proof. intro H. apply (qn_lt 0 n H). Qed.
Lemma qn_ge0 n : (0 <= qn n)%num.
Proof. unfold qn. apply (proj2 (qz_le 0 _)). lia. Qed.
Lemma sum_nonneg l : (forall v, In v l -> (0 <= v)%num) -> (0 <= Num.qsum l)%num.
Proof. induction l as [|a l IH]; intro H; [apply qle_refl|]. rewrite qsum_cons. assert (0 <= a)%num by (apply H; now left). assert (0 <= Num.qsum l)%num by (apply IH; intros v Hv; apply H; now right). qlra. Qed.
Lemma variance_nonneg l : (0 <= variance l)%num.
Proof.
  unfold variance. generalize (average l). intro mu. unfold average. destruct l as [|a l]; [apply qle_refl|].
  apply qdiv_nonneg; [|apply qn_0lt; cbn; lia]. apply sum_nonneg. intros v Hv. apply in_map_iff in Hv. destruct Hv as (w & <- & _). apply qsq_nonneg.
Qed.
Definition marginalb (fact : num) (l : list num) (v : num) : bool := qltb (fact * fact * variance l)%num ((v - average l) * (v - average l))%num.
Lemma beyond_both fact l v : (0 <= fact)%num ->
  orb (beyond (average l - v)%num fact (variance l)) (beyond (v - average l)%num fact (variance l)) = marginalb fact l v.
Proof.
  intro F. unfold beyond. rewrite (proj2 (qleb_le _ _) F). unfold marginalb. set (d := (v - average l)%num).
  replace ((average l - v) * (average l - v))%num with (d * d)%num by (unfold d; qring). replace (average l - v)%num with (- d)%num by (unfold d; qring).
  destruct (qltb_spec (fact * fact * variance l) (d * d)) as [Q|Q]; [|now rewrite !andb_false_r].
  rewrite !andb_true_r. assert (V := variance_nonneg l). assert (0 <= fact * fact * variance l)%num by (apply qmul_nonneg; [apply qsq_nonneg|exact V]).
  apply orb_true_iff. destruct (qltb_spec 0 d) as [D|D]; [now right|left]. apply qltb_lt. apply qle_lt_or_eq in D. destruct D as [D|D]; [qlra|]. rewrite D in Q. exfalso. qlra.
Qed.
Lemma marginal_iff fact l y : marginal fact l y <-> exists v, y = Some v /\ marginalb fact l v = true.
Proof.
  unfold marginal, marginalb. destruct y as [v|]; split.
  - intro H. exists v. split; [reflexivity|now apply qltb_lt].
  - intros (w & E & H). injection E as <-. now apply qltb_lt in H.
  - contradiction.
  - intros (w & E & _). discriminate.
Qed.
Lemma clean_no_nan p : prof_ok p -> prof_clean p -> existsb (fun t : onum * bool => (isnan (fst t) && negb (snd t))%bool) (combine (yv p) (pm p)) = false.
Proof.
  intros OK CL. apply not_true_iff_false. rewrite existsb_exists. intros ([y m] & H & E). cbn in E. destruct (In_nth _ _ (None, false) H) as (i & L & N).
  destruct (ok_lengths p OK) as (L1 & L2 & _). rewrite combine_length in L. rewrite combine_nth in N by congruence. injection N as N1 N2.
  assert (S : In (nth i (samples p) (qz 0, None, false)) (samples p)) by (apply nth_In; rewrite samples_length by exact OK; lia). apply CL in S. rewrite samples_nth in S by exact OK. cbn in S. rewrite N1, N2 in S.
  destruct y, m; discriminate.
Qed.
Definition mask_marginal (fact : num) (l : list num) (t : sample) : sample :=
  match sy t with Some v => if marginalb fact l v then (sx t, None, true) else t | None => t end.
Lemma marginal_samples p fact : prof_ok p -> prof_clean p -> ~ all_masked (samples p) -> (0 <= fact)%num ->
  exists p', remove_marginal p fact = Ok p' /\ px p' = px p /\ pux p' = pux p /\ puy p' = puy p /\
    samples p' = map (mask_marginal fact (valid_values (samples p))) (samples p).
Proof.
  intros OK CL NM F. unfold remove_marginal. rewrite (aligned_ok p OK). cbn [negb guard].
  destruct (forallb (fun b => b) (pm p)) eqn:E. { apply forallb_masked in E; [contradiction|exact OK]. } cbn [guard]. rewrite (clean_no_nan p OK CL).
  change (valid_pts p) with (vpts (samples p)). rewrite valid_snd. set (l := valid_values (samples p)). rewrite variance_eq. change (mean l) with (average l).
  eexists. split; [reflexivity|]. cbn [px pux puy]. split; [reflexivity|]. split; [reflexivity|]. split; [reflexivity|]. clearbody l.
  assert (MK := fun t H => samples_masked p t H). unfold samples in *. destruct (ok_lengths p OK) as (L1 & L2 & _). unfold prof_clean, samples in CL.
  cbn [px pm]. revert CL MK L1 L2. set (y := yv p). clearbody y. unfold yv. cbn [px py pm]. generalize (pm p) as m, (px p) as x. revert y. clear - F. intros y m x. revert y m. induction x as [|x0 x IH]; intros [|y0 y] [|m0 m] CL MK L1 L2; try discriminate; [reflexivity|].
  cbn [combine map zip3 nan_at fst snd]. unfold zip3. cbn [combine map]. f_equal.
  - assert (C0 := CL (x0, y0, m0) (or_introl eq_refl)). cbn in C0. unfold mask_marginal. cbn [sy sx fst snd]. destruct y0 as [v|]; cbn in C0; subst m0; cbn [orb]; [|reflexivity].
    rewrite <- (beyond_both fact l v F). destruct (beyond (average l - v) fact (variance l)); cbn [orb]; [reflexivity|]. destruct (beyond (v - average l) fact (variance l)); reflexivity.
  - apply IH.
    + intros t Ht. apply CL. now right.
    + intros t Ht. apply MK. now right.
    + cbn in L1. lia.
    + cbn in L2. lia.
Qed.
Lemma marginal_lemma p fact : prof_ok p -> prof_clean p -> ~ all_masked (samples p) -> (0 <= fact)%num ->
  exists p', remove_marginal p fact = Ok p' /\ px p' = px p /\ pux p' = pux p /\ puy p' = puy p /\
    Forall2 (fun t t' => (marginal fact (valid_values (samples p)) (sy t) -> t' = (sx t, None, true)) /\
                         (~ marginal fact (valid_values (samples p)) (sy t) -> t' = t)) (samples p) (samples p').
Proof.
  intros OK CL NM F. destruct (marginal_samples p fact OK CL NM F) as (p' & E & P & U & W & S). exists p'. repeat (split; [assumption|]). rewrite S.
  set (l := valid_values (samples p)). clearbody l. generalize (samples p). intro k. induction k as [|t k IH]; [constructor|]. cbn. constructor; [|exact IH].
  unfold mask_marginal. destruct (sy t) as [v|] eqn:Y.
  - split; intro H.
    + apply marginal_iff in H. destruct H as (w & E1 & E2). injection E1 as <-. now rewrite E2.
    + destruct (marginalb fact l v) eqn:Q; [|reflexivity]. exfalso. apply H. apply marginal_iff. now exists v.
  - split; [intros []|reflexivity].
Qed.
Lemma marginal_all p fact : prof_ok p -> all_masked (samples p) -> remove_marginal p fact = Err TypeErr.
Proof. intros OK H. unfold remove_marginal. rewrite (aligned_ok p OK). cbn [negb guard]. apply forallb_masked in H; [|exact OK]. now rewrite H. Qed.

(** counting: Chebyshev's inequality *)
Lemma count_sum {A} (P : A -> bool) (g : A -> num) c l : (forall v, (0 <= g v)%num) -> (forall v, P v = true -> (c < g v)%num) ->
  (qn (length (filter P l)) * c <= Num.qsum (map g l))%num /\ (0 < length (filter P l) -> (qn (length (filter P l)) * c < Num.qsum (map g l))%num).
Proof.
  intros G0 GP. induction l as [|a l [IH1 IH2]]; cbn [filter map length].
  - split; [|intro H; cbn in H; lia]. cbn. assert (qn 0 * c = 0)%num by (change (qn 0) with (qz 0); qring). rewrite H. apply qle_refl.
  - rewrite qsum_cons. destruct (P a) eqn:E.
    + cbn [length]. assert (K := GP a E). rewrite qn_S. assert (X : ((1 + qn (length (filter P l))) * c = c + qn (length (filter P l)) * c)%num) by qring.
      assert (X' : ((qn (length (filter P l)) + 1) * c = c + qn (length (filter P l)) * c)%num) by qring. split; [|intros _]; rewrite ?X, ?X'; qlra.
    + assert (K := G0 a). split; [qlra|]. intro H. specialize (IH2 H). qlra.
Qed.
Lemma sum_sq l : 0 < length l -> (qn (length l) * variance l)%num = Num.qsum (map (fun v => (v - average l) * (v - average l))%num l).
Proof.
  intro H. unfold variance. generalize (average l). intro mu. unfold average. rewrite map_length. rewrite Qcmult_comm. apply qdiv_mul. apply qgt_neq. now apply qn_0lt.
Qed.
Lemma chebyshev fact l : 0 < length l ->
  let k := length (filter (marginalb fact l) l) in
  (qn k * (fact * fact) <= qn (length l))%num /\ ((1 <= fact)%num -> k < length l).
Proof.
  intros L k. destruct (count_sum (marginalb fact l) (fun v => (v - average l) * (v - average l))%num (fact * fact * variance l)%num l) as [C1 C2].
  { intro v. apply qsq_nonneg. } { intros v H. now apply qltb_lt. }
  fold k in C1, C2. rewrite <- (sum_sq l L) in C1, C2. assert (V := variance_nonneg l). assert (F2 := qsq_nonneg fact). set (n := qn (length l)) in *.
  assert (Ln : (0 < n)%num) by (unfold n; now apply qn_0lt).
  destruct (Nat.eq_dec k 0) as [K|K].
  - rewrite K. split; [change (qn 0) with (qz 0)|lia]. assert (E : (qz 0 * (fact * fact) = 0)%num) by qring. rewrite E. qlra.
  - specialize (C2 ltac:(lia)). assert (X : (qn k * (fact * fact * variance l) = qn k * (fact * fact) * variance l)%num) by qring. rewrite X in C2.
    set (a := (qn k * (fact * fact))%num) in *. assert (VP : (0 < variance l)%num).
    { apply qle_lt_or_eq in V. destruct V as [V|V]; [exact V|]. rewrite <- V in C2. exfalso. assert (a * 0 = 0)%num by qring. assert (n * 0 = 0)%num by qring. qlra. }
    assert (AN : (a < n)%num). { destruct (qltb_spec a n) as [Q|Q]; [exact Q|]. assert (n * variance l <= a * variance l)%num by (apply qmul_le_r; qlra). qlra. }
    split; [qlra|]. intro F1. assert (F11 : (1 <= fact * fact)%num). { assert (0 <= (fact - 1) * fact)%num by (apply qmul_nonneg; qlra). assert (fact * fact = (fact - 1) * fact + fact)%num by qring. qlra. }
    assert (KA : (qn k <= a)%num). { unfold a. assert (qn k * 1 <= qn k * (fact * fact))%num by (apply qmul_le_l; [apply qn_ge0|exact F11]). assert (qn k * 1 = qn k)%num by qring. qlra. }
    destruct (Nat.lt_ge_cases k (length l)) as [Q|Q]; [exact Q|]. assert (n <= qn k)%num by (unfold n; now apply qn_le). exfalso. qlra.
Qed.
Lemma valid_marginal fact l k : (forall t, In t k -> smask t = isnan (sy t)) -> valid_values (map (mask_marginal fact l) k) = filter (fun v => negb (marginalb fact l v)) (valid_values k).
Proof.
  intro CL. induction k as [|[[x y] m] k IH]; [reflexivity|]. specialize (IH (fun t H => CL t (or_intror H))). assert (C := CL _ (or_introl eq_refl)). cbn in C. subst m.
  cbn [map]. unfold mask_marginal at 1. cbn [sy sx fst snd]. destruct y as [v|]; cbn [isnan valid_values]; [|exact IH]. cbn [filter].
  destruct (marginalb fact l v); cbn [negb valid_values]; [exact IH|now f_equal].
Qed.
Lemma filter_count {A} (P : A -> bool) l : length (filter P l) + length (filter (fun v => negb (P v)) l) = length l.
Proof. induction l as [|a l IH]; [reflexivity|]. cbn. destruct (P a); cbn; lia. Qed.
Lemma valid_nonempty p : prof_ok p -> prof_clean p -> ~ all_masked (samples p) -> 0 < length (valid_values (samples p)).
Proof.
  intros OK CL NM. unfold prof_clean in CL. revert CL NM. generalize (samples p). intro k. induction k as [|[[x y] m] k IH]; intros CL NM; [exfalso; apply NM; intros t []|].
  assert (C := CL _ (or_introl eq_refl)). cbn in C. subst m. cbn [valid_values]. destruct y as [v|]; cbn [isnan]; [cbn; lia|].
  apply IH; [intros t Ht; apply CL; now right|]. intro A. apply NM. intros t [<-|Ht]; [reflexivity|now apply A].
Qed.
Lemma marginal_count_lemma p fact : prof_ok p -> prof_clean p -> ~ all_masked (samples p) -> (0 <= fact)%num ->
  exists p' k, remove_marginal p fact = Ok p' /\ length (valid_values (samples p')) + k = length (valid_values (samples p)) /\
    (qn k * (fact * fact) <= qn (length (valid_values (samples p))))%num /\ ((1 <= fact)%num -> 0 < length (valid_values (samples p'))).
Proof.
  intros OK CL NM F. destruct (marginal_samples p fact OK CL NM F) as (p' & E & P & U & W & S). set (l := valid_values (samples p)) in *.
  exists p', (length (filter (marginalb fact l) l)). split; [exact E|]. rewrite S, valid_marginal by exact CL. fold l.
  assert (FC := filter_count (marginalb fact l) l). assert (NE := valid_nonempty p OK CL NM). fold l in NE. destruct (chebyshev fact l NE) as [C1 C2].
  split; [lia|]. split; [exact C1|]. intro F1. specialize (C2 F1). lia.
Qed.

(** ** C135 *)
Lemma osum_some l : osum (map Some l) = Some (Num.qsum l).
Proof. induction l as [|a l IH]; [reflexivity|]. cbn [map osum fold_right]. change (fold_right oadd (Some 0%num) (map Some l)) with (osum (map Some l)). rewrite IH. reflexivity. Qed.
Lemma osum_none l : In None l -> osum l = None.
Proof. induction l as [|a l IH]; intros []; cbn; [now subst a|]. change (fold_right oadd (Some 0%num) l) with (osum l). rewrite IH by assumption. destruct a; reflexivity. Qed.
Lemma group_values g : (forall t, In t g -> smask t = false /\ sy t <> None) -> map sy g = map Some (valid_values g).
Proof.
  induction g as [|[[x y] m] g IH]; intro H; [reflexivity|]. destruct (H _ (or_introl eq_refl)) as [M Y]. cbn in M, Y. subst m. cbn. destruct y as [v|]; [|congruence]. cbn. f_equal. apply IH. intros t Ht. apply H. now right.
Qed.
Lemma omin_some l : l <> [] -> exists v, omin_l (map Some l) = Some v /\ least l v.
Proof.
  intro N. destruct l as [|a l]; [congruence|]. unfold omin_l. cbn [map nth]. assert (G : forall k, exists v, fold_right (fun a b => match a, b with Some x, Some y => Some (qmin x y) | _, _ => None end) (Some a) (map Some k) = Some v /\ (v = a \/ In v k) /\ (v <= a)%num /\ forall w, In w k -> (v <= w)%num).
  { induction k as [|b k (v & E & I & L & M)]; [exists a; cbn; split; [reflexivity|]; split; [now left|]; split; [apply qle_refl|intros w []]|].
    cbn [map fold_right]. rewrite E. exists (qmin b v). split; [reflexivity|]. destruct (qmin_spec b v) as [[Q ->]|[Q ->]].
    - split; [right; now left|]. split; [qlra|]. intros w [<-|Hw]; [apply qle_refl|]. specialize (M w Hw). qlra.
    - split; [destruct I; [now left|right; now right]|]. split; [exact L|]. intros w [<-|Hw]; [qlra|auto]. }
  destruct (G (a :: l)) as (v & E & I & L & M). exists v. split; [exact E|]. split; [|exact M]. destruct I as [->|I]; [now left|exact I].
Qed.
Lemma omax_some l : l <> [] -> exists v, omax_l (map Some l) = Some v /\ greatest l v.
Proof.
  intro N. destruct l as [|a l]; [congruence|]. unfold omax_l. cbn [map nth]. assert (G : forall k, exists v, fold_right (fun a b => match a, b with Some x, Some y => Some (qmax x y) | _, _ => None end) (Some a) (map Some k) = Some v /\ (v = a \/ In v k) /\ (a <= v)%num /\ forall w, In w k -> (w <= v)%num).
  { induction k as [|b k (v & E & I & L & M)]; [exists a; cbn; split; [reflexivity|]; split; [now left|]; split; [apply qle_refl|intros w []]|].
    cbn [map fold_right]. rewrite E. exists (qmax b v). split; [reflexivity|]. destruct (qmax_spec b v) as [[Q ->]|[Q ->]].
    - split; [destruct I; [now left|right; now right]|]. split; [exact L|]. intros w [<-|Hw]; [qlra|auto].
    - split; [right; now left|]. split; [qlra|]. intros w [<-|Hw]; [apply qle_refl|]. specialize (M w Hw). qlra. }
  destruct (G (a :: l)) as (v & E & I & L & M). exists v. split; [exact E|]. split; [|exact M]. destruct I as [->|I]; [now left|exact I].
Qed.
Lemma omin_none l : In None l -> omin_l l = None.
Proof. unfold omin_l. generalize (nth 0 l None) as d. intro d. induction l as [|a l IH]; intros []; cbn; [now subst a|]. rewrite IH by assumption. destruct a; reflexivity. Qed.
Lemma omax_none l : In None l -> omax_l l = None.
Proof. unfold omax_l. generalize (nth 0 l None) as d. intro d. induction l as [|a l IH]; intros []; cbn; [now subst a|]. rewrite IH by assumption. destruct a; reflexivity. Qed.
Lemma merge_spec m g : m <> DOther -> g <> [] -> (forall t, In t g -> smask t = isnan (sy t)) ->
  exists r, merge m (map sy g) = Ok r /\ ((exists t, In t g /\ smask t = true) -> r = None) /\
    ((forall t, In t g -> smask t = false) -> exists v, r = Some v /\ merged m (valid_values g) v).
Proof.
  intros NO NE CL.
  assert (NN : (exists t, In t g /\ smask t = true) -> In None (map sy g)). { intros (t & Ht & M). rewrite (CL t Ht) in M. apply in_map_iff. exists t. destruct (sy t); [discriminate|auto]. }
  assert (AS : (forall t, In t g -> smask t = false) -> map sy g = map Some (valid_values g) /\ length (valid_values g) = length g /\ valid_values g <> []).
  { intro H. assert (E : map sy g = map Some (valid_values g)). { apply group_values. intros t Ht. split; [auto|]. specialize (H t Ht). rewrite (CL t Ht) in H. intro Q. rewrite Q in H. discriminate. }
    split; [exact E|]. assert (LL : length (valid_values g) = length g) by (rewrite <- (map_length Some), <- E; apply map_length). split; [exact LL|]. intro Q. rewrite Q in LL. destruct g; [congruence|discriminate]. }
  destruct m; [| | |congruence]; cbn [merge merged]; eexists; (split; [reflexivity|]); split; intro H.
  - rewrite osum_none by auto. reflexivity.
  - destruct (AS H) as (E & LL & N). rewrite E, osum_some, map_length. unfold odiv. assert (qeqb (qn (length (valid_values g))) 0%num = false) as ->.
    { apply qeqb_neq. apply qgt_neq. apply qn_0lt. destruct (valid_values g); [congruence|cbn; lia]. } eexists. split; reflexivity.
  - apply omin_none; auto.
  - destruct (AS H) as (E & LL & N). rewrite E. now apply omin_some.
  - apply omax_none; auto.
  - destruct (AS H) as (E & LL & N). rewrite E. now apply omax_some.
Qed.
Lemma group_eq rnd x p : prof_ok p -> map snd (filter (fun t : num * onum => qeqb (fst t) x) (combine (map rnd (px p)) (yv p))) = map sy (group rnd x (samples p)).
Proof.
  intro OK. destruct (ok_lengths p OK) as (L1 & L2 & _). unfold group, samples, zip3. revert L1 L2. generalize (yv p) as y, (pm p) as m, (px p) as x'. intros y m x'. revert y m. induction x' as [|a l IH]; intros [|y0 y] [|m0 m] L1 L2; try discriminate; [reflexivity|].
  cbn [map combine filter fst]. unfold sx at 1. cbn [fst snd]. cbn in L1, L2. destruct (qeqb (rnd a) x); cbn [map]; rewrite (IH y m) by lia; reflexivity.
Qed.
Lemma doublons_lemma rnd p m : prof_ok p -> prof_clean p -> (exists t, In t (samples p) /\ sx t <> 0%num) -> m <> DOther ->
  exists p', remove_doublons rnd p m = (p', None) /\ prof_ok p' /\ increasing (px p') /\ pux p' = pux p /\ puy p' = puy p /\
    (forall x, In x (px p') <-> exists t, In t (samples p) /\ rnd (sx t) = x) /\
    (forall t', In t' (samples p') ->
       ((exists t, In t (group rnd (sx t') (samples p)) /\ smask t = true) -> sy t' = None /\ smask t' = true) /\
       ((forall t, In t (group rnd (sx t') (samples p)) -> smask t = false) ->
          exists v, sy t' = Some v /\ smask t' = false /\ merged m (valid_values (group rnd (sx t') (samples p))) v)).
Proof.
  intros OK CL (t0 & Ht0 & Z) NO. unfold remove_doublons. destruct (samples_fst p OK) as (X & Y & M). destruct (ok_lengths p OK) as (L1 & L2 & SO).
  assert (IX : In (sx t0) (px p)) by (rewrite <- X; now apply in_map).
  destruct (Nat.eqb_spec (length (px p)) 0) as [E|E]. { destruct (px p); [contradiction|discriminate]. }
  destruct (forallb (fun x => qeqb x 0%num) (px p)) eqn:E0. { rewrite forallb_forall in E0. apply E0 in IX. apply qeqb_eq in IX. contradiction. }
  rewrite (aligned_ok p OK). cbn [negb]. set (nx := unique (map rnd (px p))).
  assert (INX : forall x, In x nx <-> exists t, In t (samples p) /\ rnd (sx t) = x).
  { intro x. unfold nx. rewrite unique_in, in_map_iff. rewrite <- X. split.
    - intros (a & <- & Ha). apply in_map_iff in Ha. destruct Ha as (t & <- & Ht). now exists t.
    - intros (t & Ht & <-). exists (sx t). split; [reflexivity|now apply in_map]. }
  assert (GC : forall x t, In t (group rnd x (samples p)) -> smask t = isnan (sy t)). { intros x t H. apply filter_In in H. apply CL. tauto. }
  assert (MM : exists ny, mapM (fun x => merge m (map snd (filter (fun t : num * onum => qeqb (fst t) x) (combine (map rnd (px p)) (yv p))))) nx = Ok ny /\
     Forall2 (fun x r => ((exists t, In t (group rnd x (samples p)) /\ smask t = true) -> r = None) /\
       ((forall t, In t (group rnd x (samples p)) -> smask t = false) -> exists v, r = Some v /\ merged m (valid_values (group rnd x (samples p))) v)) nx ny).
  { assert (G : forall x, In x nx -> group rnd x (samples p) <> []). { intros x Hx. apply INX in Hx. destruct Hx as (t & Ht & <-). intro Q. assert (I : In t (group rnd (rnd (sx t)) (samples p))) by (apply filter_In; split; [exact Ht|apply qeqb_refl]). rewrite Q in I. contradiction. }
    revert G. generalize nx. intro l. induction l as [|x l IH]; intro G; [exists []; split; [reflexivity|constructor]|].
    destruct (IH (fun y Hy => G y (or_intror Hy))) as (ny & E1 & F). destruct (merge_spec m (group rnd x (samples p)) NO (G x (or_introl eq_refl)) (GC x)) as (r & R & R1 & R2).
    exists (r :: ny). cbn [mapM]. rewrite (group_eq rnd x p OK), R. cbn [bind]. rewrite E1. split; [reflexivity|]. constructor; auto. }
  destruct MM as (ny & EM & FM). rewrite EM.
  destruct (replace_spec p nx ny) as (p' & ER & OK' & _ & SS & U & W). { now apply Forall2_len in FM. }
  assert (IN : increasing nx) by apply unique_incr. specialize (SS (increasing_nondecreasing _ IN)).
  assert (LN : length nx = length ny) by now apply Forall2_len in FM.
  destruct (zip3_fst nx ny (map isnan ny) LN ltac:(rewrite map_length; reflexivity)) as (Z1 & Z2 & Z3). rewrite <- SS in Z1.
  assert (PX : px p' = nx). { rewrite <- (proj1 (samples_fst p' OK')). exact Z1. }
  exists p'. split; [exact ER|]. split; [exact OK'|]. rewrite PX. split; [exact IN|]. split; [exact U|]. split; [exact W|]. split; [exact INX|].
  intros t' Ht'. rewrite SS in Ht'. clear - Ht' FM. unfold zip3 in Ht'.
  assert (K : (exists x r, t' = (x, r, isnan r) /\ ((exists t, In t (group rnd x (samples p)) /\ smask t = true) -> r = None) /\
       ((forall t, In t (group rnd x (samples p)) -> smask t = false) -> exists v, r = Some v /\ merged m (valid_values (group rnd x (samples p))) v))).
  { revert Ht'. induction FM as [|x r l k H F IH]; [intros []|]. cbn. intros [<-|H2]; [exists x, r; auto|auto]. }
  destruct K as (x & r & -> & K1 & K2). cbn [sx sy smask fst snd]. split.
  - intro H. rewrite (K1 H). auto.
  - intro H. destruct (K2 H) as (v & -> & V). exists v. auto.
Qed.
Lemma doublons_errors rnd p m : prof_ok p -> m = DOther \/ (forall t, In t (samples p) -> sx t = 0%num) -> exists e, remove_doublons rnd p m = (p, Some e).
Proof.
  intros OK H. unfold remove_doublons. destruct (Nat.eqb_spec (length (px p)) 0) as [E|E]; [eauto|]. destruct (forallb (fun x => qeqb x 0%num) (px p)) eqn:E0; [eauto|].
  destruct H as [->|H]; [|exfalso; apply not_true_iff_false in E0; apply E0; apply forallb_forall; intros x Hx; rewrite <- (proj1 (samples_fst p OK)) in Hx; apply in_map_iff in Hx; destruct Hx as (t & <- & Ht); apply qeqb_eq; auto].
  rewrite (aligned_ok p OK). cbn [negb]. destruct (unique (map rnd (px p))) as [|x nx] eqn:Q.
  - exfalso. destruct (px p) as [|a l]; [now apply E|]. assert (I : In (rnd a) (unique (map rnd (a :: l)))) by (apply unique_in; now left). rewrite Q in I. contradiction.
  - cbn. eauto.
Qed.
