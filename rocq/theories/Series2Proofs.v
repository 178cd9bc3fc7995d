(** * Series2Proofs: the background of a series (C142). *)
From Coq Require Import Lia.
From Verif Require Import Num Res ListLib SortLib Arr FieldModel ScalarFieldModel VectorFieldModel FieldSpec ProfileModel ProfileSpec Prof2Model Prof2Spec
  TemporalModel TemporalSpec AsciiModel FieldProofs2 FieldProofs3 GradProofs2 AsciiProofs2 AsciiProofs4 Prof2Proofs3 Prof2Proofs6 Prof2Proofs7 PodModel Series2Model Series2Spec.

Lemma mean_average l : mean l = average l.
Proof. reflexivity. Qed.
(** ** sums of squares *)
Definition ssq (m : num) (l : list num) : num := Num.qsum (map (fun v => (v - m) * (v - m))%num l).
Lemma ssq_var l : 0 < length l -> ssq (average l) l = (qn (length l) * variance l)%num.
Proof. intro H. symmetry. now apply sum_sq. Qed.
Lemma sum_dev m l : Num.qsum (map (fun v => v - m)%num l) = (Num.qsum l - qn (length l) * m)%num.
Proof.
  induction l as [|a l IH]; [cbn [map length]; change (Num.qsum []) with (qz 0); change (qn 0) with (qz 0); qring|]. cbn [map length]. rewrite !qsum_cons, IH.
  rewrite FieldProofs.qn_S. qring.
Qed.
Lemma average_sum l : 0 < length l -> (qn (length l) * average l = Num.qsum l)%num.
Proof.
  intro H. unfold average. assert (N := qn_0lt _ H). rewrite Qcmult_comm. apply qdiv_mul. now apply qgt_neq.
Qed.
Lemma ssq_shift m l : 0 < length l -> ssq m l = (ssq (average l) l + qn (length l) * ((average l - m) * (average l - m)))%num.
Proof.
  intro H. unfold ssq. set (a := average l).
  assert (G : forall k, Num.qsum (map (fun v => (v - m) * (v - m))%num k) = (Num.qsum (map (fun v => (v - a) * (v - a)) k) + 2 * (a - m) * Num.qsum (map (fun v => v - a) k) + qn (length k) * ((a - m) * (a - m)))%num).
  { induction k as [|b k IH]; [cbn [map length]; change (Num.qsum []) with (qz 0); change (qn 0) with (qz 0); qring|]. cbn [map length]. rewrite !qsum_cons, IH, FieldProofs.qn_S. qring. }
  rewrite G, sum_dev. subst a. rewrite (average_sum l H). qring.
Qed.
Lemma ssq_le m l : 0 < length l -> (qn (length l) * variance l <= ssq m l)%num.
Proof.
  intro H. rewrite <- ssq_var by exact H. rewrite (ssq_shift m l H). assert (Z := qn_ge0 (length l)). assert (S := qsq_nonneg (average l - m)%num).
  assert (P := qmul_nonneg _ _ Z S). qlra.
Qed.
Lemma ssq_lt_bound m c l : 0 < length l -> (forall v, In v l -> ((v - m) * (v - m) < c)%num) -> (ssq m l < qn (length l) * c)%num.
Proof.
  unfold ssq. induction l as [|a l IH]; intros H B; [cbn in H; lia|]. cbn [map length]. rewrite qsum_cons, FieldProofs.qn_S.
  assert (Ba := B a (or_introl eq_refl)). destruct l as [|b l].
  - change (qn (length (@nil num))) with (qz 0). cbn [map]. change (Num.qsum []) with (qz 0). qlra.
  - specialize (IH ltac:(cbn; lia) (fun v I => B v (or_intror I))). set (s := Num.qsum _) in *. set (k := qn _) in *. clearbody s k. qlra.
Qed.
Lemma ssq_ge_bound m c l : (forall v, In v l -> (c <= (v - m) * (v - m))%num) -> (qn (length l) * c <= ssq m l)%num.
Proof.
  unfold ssq. induction l as [|a l IH]; intro B.
  - change (qn (length (@nil num))) with (qz 0). cbn [map]. change (Num.qsum []) with (qz 0). qlra.
  - cbn [map length]. rewrite qsum_cons, FieldProofs.qn_S. assert (Ba := B a (or_introl eq_refl)). specialize (IH (fun v I => B v (or_intror I))).
    set (s := Num.qsum _) in *. set (k := qn _) in *. clearbody s k. qlra.
Qed.

(** ** one turn *)
Lemma clip_in mu var l v : In v (clip mu var l) <-> In v l /\ ((v - mu) * (v - mu) < var)%num.
Proof. unfold clip. rewrite filter_In, qltb_lt. reflexivity. Qed.
Lemma clip_shrinks l : 0 < length l -> length (clip (average l) (variance l) l) < length l.
Proof.
  intro H. destruct (Nat.lt_ge_cases (length (clip (average l) (variance l) l)) (length l)) as [|G]; [assumption|exfalso].
  assert (L := filter_count (fun v => qltb ((v - average l) * (v - average l)) (variance l))%num l). fold (clip (average l) (variance l) l) in L.
  assert (E : filter (fun v => negb (qltb ((v - average l) * (v - average l)) (variance l))%num) l = []) by (apply length_zero_iff_nil; lia).
  assert (B : forall v, In v l -> ((v - average l) * (v - average l) < variance l)%num).
  { intros v I. apply qltb_lt. destruct (qltb _ _) eqn:Q; [reflexivity|]. exfalso.
    assert (K : In v (filter (fun v => negb (qltb ((v - average l) * (v - average l)) (variance l))%num) l)) by (apply filter_In; split; [exact I|now rewrite Q]).
    rewrite E in K. exact K. }
  assert (X := ssq_lt_bound _ _ _ H B). rewrite ssq_var in X by exact H. now apply Qclt_not_eq in X.
Qed.
Lemma clip_variance l : let l' := clip (average l) (variance l) l in 0 < length l' -> (variance l' < variance l)%num.
Proof.
  cbv zeta. intro H. set (l' := clip _ _ _) in *.
  assert (B : forall v, In v l' -> ((v - average l) * (v - average l) < variance l)%num) by (intros v I; now apply clip_in in I).
  assert (X := ssq_lt_bound _ _ _ H B). assert (Y := ssq_le (average l) l' H). assert (N := qn_0lt _ H).
  destruct (Qclt_le_dec (variance l') (variance l)) as [|G]; [assumption|exfalso].
  assert (M := qmul_le_l _ _ _ (qn_ge0 (length l')) G). set (k := qn _) in *. clearbody k. qlra.
Qed.
Lemma ssq_eq_bound m c l : (forall v, In v l -> (c <= (v - m) * (v - m))%num) -> ssq m l = (qn (length l) * c)%num -> forall v, In v l -> ((v - m) * (v - m) = c)%num.
Proof.
  induction l as [|a l IH]; intros B E v I; [contradiction|].
  assert (G := ssq_ge_bound m c l (fun v I => B v (or_intror I))). assert (Ba := B a (or_introl eq_refl)).
  unfold ssq in E. cbn [map length] in E. rewrite qsum_cons, FieldProofs.qn_S in E. fold (ssq m l) in E.
  assert (E1 : ((a - m) * (a - m) = c)%num) by (set (s := ssq m l) in *; set (k := qn (length l)) in *; clearbody s k; qlra).
  destruct I as [<-|I]; [exact E1|]. apply IH; [intros w J; apply B; now right| |exact I].
  set (s := ssq m l) in *; set (k := qn (length l)) in *; clearbody s k; qlra.
Qed.
Lemma clip_empty l : 0 < length l -> length (clip (average l) (variance l) l) = 0 -> equidistant l.
Proof.
  intros H E. unfold equidistant. apply ssq_eq_bound; [|now apply ssq_var]. intros v I.
  destruct (Qclt_le_dec ((v - average l) * (v - average l))%num (variance l)) as [L|G]; [exfalso|exact G].
  assert (K : In v (clip (average l) (variance l) l)) by (apply clip_in; auto). apply length_zero_iff_nil in E. rewrite E in K. exact K.
Qed.
Lemma sq_lt_convex mu c : convex (fun v => qltb ((v - mu) * (v - mu)) c)%num.
Proof.
  intros a v b Ha Hb [L R]. apply qltb_lt in Ha, Hb. apply qltb_lt.
  destruct (Qclt_le_dec v mu) as [N|P].
  - assert (((v - mu) * (v - mu) <= (a - mu) * (a - mu))%num); [|qlra].
    assert (X := qmul_nonneg (v - a)%num (mu - v + (mu - a))%num ltac:(qlra) ltac:(qlra)). qlra.
  - assert (((v - mu) * (v - mu) <= (b - mu) * (b - mu))%num); [|qlra].
    assert (X := qmul_nonneg (b - v)%num (v - mu + (b - mu))%num ltac:(qlra) ltac:(qlra)). qlra.
Qed.
Lemma filter_filter {A} (P Q : A -> bool) l : filter Q (filter P l) = filter (fun v => (P v && Q v)%bool) l.
Proof. induction l as [|a l IH]; [reflexivity|]. cbn [filter]. destruct (P a) eqn:E; cbn [andb filter]; rewrite IH; destruct (Q a); reflexivity. Qed.

(** the values retained in the end *)
Definition settled (noise : num) (n : nat) (l : list num) : Prop := ((0 < noise)%num /\ (variance l < noise * noise)%num) \/ 10 * length l <= n.
Lemma bg_loop_lemma noise l0 : forall fuel keep, convex keep -> let l := filter keep l0 in 0 < length l -> length l < fuel ->
  exists r keep', bg_loop fuel (length l0) noise l (average l) (variance l) = Ok r /\ convex keep' /\ let k := filter keep' l0 in 0 < length k /\
    ((r = None /\ equidistant k) \/ (r = Some (average k) /\ settled noise (length l0) k)).
Proof.
  induction fuel as [|fuel IH]; intros keep C l H F; [lia|]. cbn [bg_loop].
  set (l' := clip (average l) (variance l) l). destruct (Nat.eqb_spec (length l') 0) as [Z|NZ].
  - exists None, keep. split; [reflexivity|]. split; [exact C|]. split; [exact H|]. left. split; [reflexivity|]. now apply clip_empty.
  - rewrite variance_eq, !mean_average. set (keep2 := fun v => (keep v && qltb ((v - average l) * (v - average l)) (variance l))%num%bool).
    assert (E2 : l' = filter keep2 l0) by (unfold l', clip, l; apply filter_filter).
    assert (C2 : convex keep2).
    { intros a v b Ha Hb R. unfold keep2 in *. apply andb_true_iff in Ha, Hb. apply andb_true_iff. split; [apply (C a v b); tauto|].
      apply (sq_lt_convex (average l) (variance l) a v b); tauto. }
    destruct (qltb 0%num noise && qltb (variance l') (noise * noise)%num || Nat.leb (10 * length l') (length l0) || qeqb (variance l) (variance l'))%bool eqn:T.
    + exists (Some (average l')), keep2. split; [reflexivity|]. split; [exact C2|]. cbv zeta. rewrite <- E2. split; [lia|]. right. split; [reflexivity|].
      rewrite !orb_true_iff, andb_true_iff, !qltb_lt, Nat.leb_le, qeqb_eq in T. destruct T as [[[T1 T2]|T]|T]; [left; auto|now right|exfalso].
      assert (V := clip_variance l ltac:(fold l'; lia)). cbv zeta in V. fold l' in V. rewrite T in V. now apply Qclt_not_eq in V.
    + rewrite E2. apply IH; [exact C2| |]; rewrite <- E2; [lia|]. assert (S := clip_shrinks l H). fold l' in S. lia.
Qed.
Lemma all_numbers_some l : all_numbers (map Some l) = Some l.
Proof. induction l as [|a l IH]; [reflexivity|]. cbn [map all_numbers]. rewrite IH. reflexivity. Qed.
Lemma filter_all {A} (l : list A) : filter (fun _ => true) l = l.
Proof. induction l as [|a l IH]; [reflexivity|]. cbn [filter]. now rewrite IH. Qed.
Lemma bg_pixel_lemma noise l : 0 < length l ->
  exists r keep, bg_pixel noise (map Some l) = Ok r /\ convex keep /\ 0 < length (filter keep l) /\
    ((r = None /\ equidistant (filter keep l)) \/ (r = Some (average (filter keep l)) /\ settled noise (length l) (filter keep l))).
Proof.
  intro H. unfold bg_pixel. rewrite all_numbers_some. destruct (Nat.eqb_spec (length l) 0) as [|_]; [lia|]. rewrite variance_eq, mean_average.
  assert (G := bg_loop_lemma noise l (S (length l)) (fun _ => true)). cbv zeta in G. rewrite filter_all in G.
  apply G; [intros a v b _ _ _; reflexivity|exact H|lia].
Qed.
Lemma all_numbers_none l : In None l -> all_numbers l = None.
Proof. induction l as [|[a|] l IH]; intros I; [contradiction| |reflexivity]. destruct I as [I|I]; [discriminate|]. cbn. now rewrite IH. Qed.
Lemma all_numbers_cases (l : list onum) : (exists k, l = map Some k) \/ In None l.
Proof. induction l as [|[a|] l [[k ->]|I]]; [left; now exists []|left; now exists (a :: k)|right; now right|right; now left|right; now left]. Qed.
Lemma bg_pixel_total noise l : exists r, bg_pixel noise l = Ok r.
Proof.
  destruct (all_numbers_cases l) as [[k ->]|I].
  - destruct k as [|a k]; [eexists; reflexivity|]. destruct (bg_pixel_lemma noise (a :: k)) as (r & _ & E & _); [cbn; lia|]. now exists r.
  - unfold bg_pixel. rewrite all_numbers_none by exact I. eexists; reflexivity.
Qed.
(** ** a value shown most of the time *)
Lemma sum_split c m l : let k := qn (times_shown c l) in let n := qn (length l) in let d := (c - m)%num in
  let X := (Num.qsum (map (fun v => v - m) l) - k * d)%num in let R := (ssq m l - k * (d * d))%num in
  (X * X <= (n - k) * R)%num /\ (0 <= n - k)%num /\ (0 <= R)%num.
Proof.
  cbv zeta. unfold times_shown, ssq. induction l as [|a l (IH & N & R)].
  - cbn. change (qn 0) with (qz 0). split; [|split]; qlra.
  - cbn [map length filter]. rewrite !qsum_cons, !FieldProofs.qn_S. destruct (qeqb a c) eqn:E.
    + apply qeqb_eq in E. subst a. cbn [length]. rewrite FieldProofs.qn_S. set (k := qn (length (filter _ l))) in *. set (n := qn (length l)) in *.
      set (s := Num.qsum (map (fun v => (v - m)%num) l)) in *. set (q := Num.qsum (map (fun v => ((v - m) * (v - m))%num) l)) in *. clearbody k n s q.
      split; [|split; qlra].
      replace (c - m + s - (k + 1) * (c - m))%num with (s - k * (c - m))%num by qring.
      replace ((n + 1 - (k + 1)) * ((c - m) * (c - m) + q - (k + 1) * ((c - m) * (c - m))))%num with ((n - k) * (q - k * ((c - m) * (c - m))))%num by qring. exact IH.
    + set (k := qn (length (filter _ l))) in *. set (n := qn (length l)) in *.
      set (s := Num.qsum (map (fun v => (v - m)%num) l)) in *. set (q := Num.qsum (map (fun v => ((v - m) * (v - m))%num) l)) in *.
      assert (S := qsq_nonneg (a - m)%num). clearbody k n s q. set (x := (a - m)%num) in *.
      replace (x + s - k * (c - m))%num with (s - k * (c - m) + x)%num by qring.
      replace ((n + 1 - k) * (x * x + q - k * ((c - m) * (c - m))))%num with ((n - k + 1) * (q - k * ((c - m) * (c - m)) + x * x))%num by qring.
      set (X := (s - k * (c - m))%num) in *. set (R0 := (q - k * ((c - m) * (c - m)))%num) in *.
      split; [|split; [qlra|subst R0; qlra]]. set (N0 := (n - k)%num) in *. clearbody X R0 N0 x.
      destruct (qle_lt_or_eq _ _ N) as [P|Z].
      * assert (G : (0 <= R0 + N0 * (x * x) - 2 * (X * x))%num).
        { destruct (Qclt_le_dec (R0 + N0 * (x * x) - 2 * (X * x))%num 0%num) as [B|B]; [exfalso|exact B].
          assert (M := qmul_lt_l _ _ N0 P B). assert (Q := qsq_nonneg (X - N0 * x)%num). qlra. }
        qlra.
      * subst N0. assert (X0 : (X * X = 0)%num) by (assert (Q := qsq_nonneg X); qlra). assert (X1 : X = 0%num) by (apply Qcmult_integral in X0; now destruct X0).
        rewrite X1. qlra.
Qed.
Lemma majority c l : 0 < length l -> (qn (times_shown c l) * ((c - average l) * (c - average l)) <= (qn (length l) - qn (times_shown c l)) * variance l)%num.
Proof.
  intro H. destruct (sum_split c (average l) l) as (A & N & R). cbv zeta in A, N, R. rewrite ssq_var in A, R by exact H.
  rewrite sum_dev, (average_sum l H) in A. set (k := qn (times_shown c l)) in *. assert (P := qn_0lt _ H). set (n := qn (length l)) in *.
  set (d := (c - average l)%num) in *. set (v := variance l) in *. clearbody k n d v.
  destruct (Qclt_le_dec ((n - k) * v)%num (k * (d * d))%num) as [L|G]; [exfalso|exact G].
  assert (M := qmul_lt_l _ _ n P L). qlra.
Qed.
Lemma shown_filter c keep l : keep c = true -> times_shown c (filter keep l) = times_shown c l.
Proof.
  intro K. unfold times_shown. induction l as [|a l IH]; [reflexivity|]. cbn [filter]. destruct (qeqb a c) eqn:E.
  - apply qeqb_eq in E. subst a. rewrite K. cbn [filter]. rewrite qeqb_refl. cbn [length]. now rewrite IH.
  - destruct (keep a); cbn [filter]; [rewrite E|]; exact IH.
Qed.
Lemma shown_le c l : times_shown c l <= length l.
Proof. unfold times_shown. induction l as [|a l IH]; [cbn; lia|]. cbn [filter]. destruct (qeqb a c); cbn [length]; lia. Qed.
Lemma shown_in c l : 0 < times_shown c l -> In c l.
Proof.
  unfold times_shown. intro H. destruct (filter (fun v => qeqb v c) l) as [|a k] eqn:E; [cbn in H; lia|].
  assert (I : In a (filter (fun v => qeqb v c) l)) by (rewrite E; now left). apply filter_In in I. destruct I as [I Q]. apply qeqb_eq in Q. now subst a.
Qed.
Lemma majority_near c l : length l < 2 * times_shown c l -> (0 < variance l)%num -> ((c - average l) * (c - average l) < variance l)%num.
Proof.
  intros H V. assert (LE := shown_le c l). assert (L : 0 < length l) by lia. assert (M := majority c l L).
  assert (K : (qn (length l) < qn (times_shown c l) + qn (times_shown c l))%num).
  { rewrite <- (FieldProofs2.qn_add (times_shown c l)). unfold qn. apply (proj2 (qz_lt _ _)). lia. }
  assert (P := qn_0lt (times_shown c l) ltac:(lia)).
  set (k := qn (times_shown c l)) in *. set (n := qn (length l)) in *. set (d := ((c - average l) * (c - average l))%num) in *. set (v := variance l) in *. clearbody k n d v.
  destruct (Qclt_le_dec d v) as [|G]; [assumption|exfalso]. assert (X := qmul_le_l _ _ _ (Qclt_le_weak _ _ P) G). assert (Y := qmul_lt_r (n - k)%num k v V ltac:(qlra)). qlra.
Qed.
Lemma majority_close c l : length l < 2 * times_shown c l -> ((c - average l) * (c - average l) <= variance l)%num.
Proof.
  intro H. assert (V := variance_nonneg l). destruct (qle_lt_or_eq _ _ V) as [P|Z]; [apply Qclt_le_weak; now apply majority_near|].
  assert (LE := shown_le c l). assert (L : 0 < length l) by lia. assert (M := majority c l L). rewrite <- Z in *.
  assert (P := qn_0lt (times_shown c l) ltac:(lia)). set (k := qn _) in *. set (d := ((c - average l) * (c - average l))%num) in *. clearbody k d.
  destruct (Qclt_le_dec 0%num d) as [G|G]; [exfalso|exact G]. assert (X := qmul_pos _ _ P G). qlra.
Qed.
Lemma bg_loop_majority noise c l0 : (0 < noise)%num -> length l0 < 2 * times_shown c l0 -> forall fuel keep, keep c = true -> let l := filter keep l0 in (0 < variance l)%num -> length l < fuel ->
  exists v, bg_loop fuel (length l0) noise l (average l) (variance l) = Ok (Some v) /\ ((v - c) * (v - c) < noise * noise)%num.
Proof.
  intros NP H. induction fuel as [|fuel IH]; intros keep K l V F; [lia|]. cbn [bg_loop].
  assert (S : times_shown c l = times_shown c l0) by (now apply shown_filter). assert (LE := shown_le c l).
  assert (LL : length l <= length l0) by (assert (Q := filter_count keep l0); fold l in Q; lia).
  assert (N := majority_near c l ltac:(lia) V). set (l' := clip (average l) (variance l) l).
  set (keep2 := fun v => (keep v && qltb ((v - average l) * (v - average l)) (variance l))%num%bool).
  assert (E2 : l' = filter keep2 l0) by (unfold l', clip, l; apply filter_filter).
  assert (K2 : keep2 c = true) by (unfold keep2; rewrite K; now apply qltb_lt).
  assert (S2 : times_shown c l' = times_shown c l0) by (rewrite E2; now apply shown_filter).
  assert (LE2 := shown_le c l'). destruct (Nat.eqb_spec (length l') 0) as [Z|NZ]; [lia|]. rewrite variance_eq, !mean_average.
  assert (SH := clip_shrinks l ltac:(lia)). fold l' in SH.
  assert (CL := majority_close c l' ltac:(lia)).
  destruct (qltb 0%num noise && qltb (variance l') (noise * noise)%num || Nat.leb (10 * length l') (length l0) || qeqb (variance l) (variance l'))%bool eqn:T.
  - exists (average l'). split; [reflexivity|]. rewrite !orb_true_iff, andb_true_iff, !qltb_lt, Nat.leb_le, qeqb_eq in T. destruct T as [[[T1 T2]|T]|T]; [qlra|lia|exfalso].
    assert (VV := clip_variance l ltac:(fold l'; lia)). cbv zeta in VV. fold l' in VV. rewrite T in VV. now apply Qclt_not_eq in VV.
  - rewrite E2. apply IH; [exact K2| |rewrite <- E2; lia]. rewrite <- E2. apply orb_false_iff in T. destruct T as [T _]. apply orb_false_iff in T. destruct T as [T _].
    apply andb_false_iff in T. destruct T as [T|T]; [apply qltb_ge in T; qlra|]. apply qltb_ge in T. assert (X := qmul_pos _ _ NP NP). qlra.
Qed.
Lemma var_pos c v l : In c l -> In v l -> v <> c -> (0 < variance l)%num.
Proof.
  intros Ic Iv D. assert (V := variance_nonneg l). destruct (qle_lt_or_eq _ _ V) as [P|Z]; [exact P|exfalso]. destruct l as [|a k]; [contradiction|].
  assert (E := ssq_var (a :: k) ltac:(cbn; lia)). rewrite <- Z in E.
  assert (Q : forall w, In w (a :: k) -> ((w - average (a :: k)) * (w - average (a :: k)) = 0)%num) by (apply ssq_eq_bound; [intros w _; apply qsq_nonneg|exact E]).
  assert (Q1 := Q c Ic). assert (Q2 := Q v Iv). set (m := average _) in *. clearbody m.
  apply Qcmult_integral in Q1. apply Qcmult_integral in Q2. assert (c - m = 0)%num by (now destruct Q1). assert (v - m = 0)%num by (now destruct Q2). apply D. qlra.
Qed.
Lemma bg_pixel_majority noise c l : (0 < noise)%num -> length l < 2 * times_shown c l -> (exists v, In v l /\ v <> c) ->
  exists v, bg_pixel noise (map Some l) = Ok (Some v) /\ ((v - c) * (v - c) < noise * noise)%num.
Proof.
  intros NP H (w & Iw & Dw). assert (LE := shown_le c l). unfold bg_pixel. rewrite all_numbers_some. destruct (Nat.eqb_spec (length l) 0) as [|_]; [lia|]. rewrite variance_eq, mean_average.
  assert (G := bg_loop_majority noise c l NP H (S (length l)) (fun _ => true)). cbv zeta in G. rewrite filter_all in G. apply G; [reflexivity| |lia].
  apply (var_pos c w); auto. apply shown_in. lia.
Qed.
Lemma constant_average c l : 0 < length l -> (forall v, In v l -> v = c) -> average l = c /\ variance l = 0%num.
Proof.
  intros H A. assert (S : forall k, (forall v, In v k -> v = c) -> Num.qsum k = (qn (length k) * c)%num).
  { induction k as [|a k IH]; intro B; [cbn [map length]; change (Num.qsum []) with (qz 0); change (qn 0) with (qz 0); qring|]. cbn [length]. rewrite qsum_cons, FieldProofs.qn_S, IH, (B a (or_introl eq_refl)) by (intros; apply B; now right). qring. }
  assert (P := qn_0lt _ H). assert (M : average l = c).
  { assert (Q := average_sum l H). rewrite (S l A) in Q. set (k := qn _) in *. apply (mul_inj _ _ k P). rewrite (Qcmult_comm (average l)), (Qcmult_comm c). exact Q. }
  split; [exact M|]. assert (E := ssq_var l H). rewrite M in E. assert (Z : ssq c l = 0%num).
  { unfold ssq. clear -A. induction l as [|a l IH]; [reflexivity|]. cbn [map]. rewrite qsum_cons, (A a (or_introl eq_refl)), IH by (intros; apply A; now right). qring. }
  rewrite Z in E. symmetry in E. apply Qcmult_integral in E. destruct E as [E|E]; [|exact E]. exfalso. revert E. now apply qgt_neq.
Qed.
Lemma bg_pixel_constant noise c l : (forall v, In v l -> v = c) -> bg_pixel noise (map Some l) = Ok None.
Proof.
  intro A. unfold bg_pixel. rewrite all_numbers_some. destruct (Nat.eqb_spec (length l) 0) as [|NZ]; [reflexivity|]. rewrite variance_eq, mean_average. cbn [bg_loop].
  destruct (constant_average c l ltac:(lia) A) as [M V].
  assert (E : clip (average l) (variance l) l = []).
  { destruct (clip (average l) (variance l) l) as [|a k] eqn:E; [reflexivity|exfalso]. assert (I : In a (clip (average l) (variance l) l)) by (rewrite E; now left).
    apply clip_in in I. destruct I as [I L]. rewrite V in L. assert (Q := qsq_nonneg (a - average l)%num). qlra. }
  rewrite E. reflexivity.
Qed.
