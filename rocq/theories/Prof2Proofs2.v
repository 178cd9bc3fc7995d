From Coq Require Import Lia Permutation Sorted.
From Verif Require Import Num Res ListLib SortLib Arr FieldModel ScalarFieldModel FieldSpec FieldProofs FieldProofs2 ProfileModel ProfileSpec ProfileProofs ProfileProofs2 ProfileProofs3 ProfileProofs4 ProfileProofs5
  AsciiModel AsciiProofs Prof2Model Prof2Spec Prof2Proofs.

(** ** C132 *)
Lemma seq_sorted a n : StronglySorted lt (seq a n).
Proof. revert a. induction n as [|n IH]; intro a; [constructor|]. cbn. constructor; [apply IH|]. apply Forall_forall. intros x Hx. apply in_seq in Hx. lia. Qed.
Lemma filter_sorted (P : nat -> bool) l : StronglySorted lt l -> StronglySorted lt (filter P l).
Proof.
  induction 1 as [|a l H IH F]; [constructor|]. cbn. destruct (P a); [|exact IH]. constructor; [exact IH|].
  apply Forall_forall. intros x Hx. apply filter_In in Hx. rewrite Forall_forall in F. now apply F.
Qed.
Lemma increasing_over (f : nat -> num) l : StronglySorted lt l -> (forall i j, In i l -> In j l -> i < j -> (f i < f j)%num) -> increasing (map f l).
Proof.
  induction 1 as [|a l H IH F]; intro G; [intros i j _ K; cbn in K; lia|]. cbn. apply increasing_cons_iff. split.
  - apply IH. intros i j Hi Hj. apply G; now right.
  - intros y Hy. apply in_map_iff in Hy. destruct Hy as (j & <- & Hj). rewrite Forall_forall in F. apply G; [now left|now right|now apply F].
Qed.
Lemma pair_index p i : prof_ok p -> S i < length (px p) ->
  samples p = firstn i (samples p) ++ (nths (px p) i, nth i (yv p) None, nth i (pm p) false) :: (nths (px p) (S i), nth (S i) (yv p) None, nth (S i) (pm p) false) :: skipn (S (S i)) (samples p).
Proof.
  intros OK L. rewrite <- (samples_nth p i OK), <- (samples_nth p (S i) OK). assert (LS := samples_length p OK). generalize (samples p) LS. intros l E. rewrite <- E in L. clear - L.
  revert i L. induction l as [|a l IH]; intros i L; [cbn in L; lia|]. destruct i as [|i].
  - destruct l as [|b l]; [cbn in L; lia|]. reflexivity.
  - cbn [firstn app nth skipn]. f_equal. apply IH. cbn in L. lia.
Qed.
Lemma index_pair p A s t B : prof_ok p -> samples p = A ++ s :: t :: B ->
  S (length A) < length (px p) /\ s = (nths (px p) (length A), nth (length A) (yv p) None, nth (length A) (pm p) false) /\
  t = (nths (px p) (S (length A)), nth (S (length A)) (yv p) None, nth (S (length A)) (pm p) false).
Proof.
  intros OK E. rewrite <- !(samples_nth p _ OK), <- (samples_length p OK), E. split; [rewrite app_length; cbn; lia|].
  split; rewrite app_nth2 by lia; [now rewrite Nat.sub_diag|]. now replace (S (length A) - length A) with 1 by lia.
Qed.
Lemma passes_index p v x : prof_ok p -> (passes (samples p) v x <-> exists i a b, S i < length (px p) /\ nth i (pm p) false = false /\ nth (S i) (pm p) false = false /\
   nth i (yv p) None = Some a /\ nth (S i) (yv p) None = Some b /\ (nths (px p) i <= x <= nths (px p) (S i))%num /\ on_line (nths (px p) i) (nths (px p) (S i)) x a b v).
Proof.
  intro OK. split.
  - intros (A & x0 & a & x1 & b & B & E & Hx & L). destruct (index_pair p A _ _ B OK E) as (I & E0 & E1). injection E0 as -> Y0 M0. injection E1 as -> Y1 M1.
    exists (length A), a, b. repeat (split; [now auto|]). auto.
  - intros (i & a & b & L & M0 & M1 & Y0 & Y1 & Hx & O). assert (E := pair_index p i OK L). rewrite M0, M1, Y0, Y1 in E. do 6 eexists. split; [exact E|]. auto.
Qed.
Lemma find_none_all {A} (P : A -> bool) l : (forall x, In x l -> P x = false) -> find P l = None.
Proof. induction l as [|a l IH]; intro H; [reflexivity|]. cbn. rewrite (H a (or_introl eq_refl)). apply IH. intros x Hx. apply H. now right. Qed.
Lemma zeroed_nth p i : prof_ok p -> i < length (px p) -> nth i (zeroed p) None = if nth i (pm p) false then Some 0%num else nth i (yv p) None.
Proof.
  intros OK L. destruct (ok_lengths p OK) as (L1 & L2 & _). unfold zeroed. rewrite (nth_map' _ _ i None (false, None)) by (rewrite combine_length; lia).
  rewrite combine_nth by congruence. reflexivity.
Qed.
Lemma frac_place v1 v2 x1 x2 : (0 < v1)%num -> (0 < v2)%num -> (x1 < x2)%num ->
  let r := (x1 + v1 / (v1 + v2) * (x2 - x1))%num in ((x1 < r < x2)%num /\ (r - x1) * v2 = (x2 - r) * v1)%num.
Proof.
  intros H1 H2 H3 r. assert (N : (v1 + v2)%num <> 0%num) by (apply qgt_neq; qlra).
  set (f := (v1 / (v1 + v2))%num) in *. assert (F : (f * (v1 + v2) = v1)%num) by (unfold f; now apply qdiv_mul).
  assert (F0 : (0 < f)%num) by (unfold f; apply qdiv_pos; qlra). clearbody f.
  assert (F1 : (f < 1)%num). { destruct (qltb_spec f 1%num) as [Q|Q]; [exact Q|]. assert (0 <= (f - 1) * (v1 + v2))%num by (apply qmul_nonneg; qlra). qlra. }
  unfold r. assert (0 < f * (x2 - x1))%num by (apply qmul_pos; qlra). assert (0 < (1 - f) * (x2 - x1))%num by (apply qmul_pos; qlra). split; [split; qlra|].
  replace ((x1 + f * (x2 - x1) - x1) * v2)%num with ((f * (v1 + v2) - f * v1) * (x2 - x1))%num by qring.
  replace ((x2 - (x1 + f * (x2 - x1))) * v1)%num with ((v1 - f * v1) * (x2 - x1))%num by qring. now rewrite F.
Qed.
(** the position found in a cell *)
Lemma place_spec p v i x1 x2 a b : prof_ok p -> S i < length (px p) -> nth i (pm p) false = false -> nth (S i) (pm p) false = false ->
  nth i (yv p) None = Some a -> nth (S i) (yv p) None = Some b -> ((a < v < b)%num \/ (b < v < a)%num) -> (x1 < x2)%num ->
  exists r, place p v x1 x2 i = Some r /\ (x1 < r < x2)%num /\ on_line x1 x2 r a b v.
Proof.
  intros OK L M0 M1 Y0 Y1 C X. unfold place. rewrite !zeroed_nth, M0, M1, Y0, Y1 by (auto; lia). eexists. split; [reflexivity|].
  assert (P1 : (0 < qabs (a - v))%num). { destruct (qabs_spec (a - v)) as [[Q ->]|[Q ->]]; destruct C; qlra. }
  assert (P2 : (0 < qabs (b - v))%num). { destruct (qabs_spec (b - v)) as [[Q ->]|[Q ->]]; destruct C; qlra. }
  destruct (frac_place _ _ x1 x2 P1 P2 X) as [R E]. split; [exact R|]. set (r := (x1 + _)%num) in *. clearbody r. unfold on_line.
  destruct C as [[C1 C2]|[C1 C2]].
  - destruct (qabs_spec (a - v)) as [[Q Ea]|[Q Ea]]; [exfalso; qlra|]. destruct (qabs_spec (b - v)) as [[Q2 Eb]|[Q2 Eb]]; [|exfalso; qlra]. rewrite Ea, Eb in E.
    replace (v * (x2 - x1))%num with ((a * (x2 - r) + b * (r - x1)) - ((r - x1) * (b - v) - (x2 - r) * (- (a - v))))%num by qring. rewrite E. qring.
  - destruct (qabs_spec (a - v)) as [[Q Ea]|[Q Ea]]; [|exfalso; qlra]. destruct (qabs_spec (b - v)) as [[Q2 Eb]|[Q2 Eb]]; [exfalso; qlra|]. rewrite Ea, Eb in E.
    replace (v * (x2 - x1))%num with ((a * (x2 - r) + b * (r - x1)) - ((x2 - r) * (a - v) - (r - x1) * (- (b - v))))%num by qring. rewrite E. qring.
Qed.
(** a cell is kept when the value is strictly between its ends *)
Definition crossed (p : profile) (v : num) (i : nat) (a b : num) : Prop :=
  S i < length (px p) /\ nth i (pm p) false = false /\ nth (S i) (pm p) false = false /\ nth i (yv p) None = Some a /\ nth (S i) (yv p) None = Some b /\
  ((a < v < b)%num \/ (b < v < a)%num).
Lemma clean_some p i : prof_ok p -> prof_clean p -> i < length (px p) -> nth i (pm p) false = false -> exists a, nth i (yv p) None = Some a.
Proof.
  intros OK CL L M. assert (H : In (nth i (samples p) (qz 0, None, false)) (samples p)) by (apply nth_In; now rewrite samples_length).
  apply CL in H. rewrite samples_nth in H by exact OK. cbn in H. rewrite M in H. destruct (nth i (yv p) None) as [a|]; [now exists a|discriminate].
Qed.
Lemma not_value p v i a : prof_ok p -> (forall t, In t (samples p) -> sy t <> Some v) -> i < length (px p) -> nth i (yv p) None = Some a -> a <> v.
Proof. intros OK NE L Y ->. apply (NE (nth i (samples p) (qz 0, None, false))); [apply nth_In; now rewrite samples_length|]. rewrite samples_nth by exact OK. exact Y. Qed.
Lemma changes_iff p v i : prof_ok p -> prof_clean p -> (forall t, In t (samples p) -> sy t <> Some v) -> S i < length (px p) ->
  (changes p v i = true <-> exists a b, crossed p v i a b).
Proof.
  intros OK CL NE L. unfold changes. split.
  - intro H. apply andb_true_iff in H. destruct H as [H1 H2]. apply negb_true_iff, orb_false_iff in H2. destruct H2 as [M1 M0].
    destruct (clean_some p i OK CL ltac:(lia) M0) as (a & Y0). destruct (clean_some p (S i) OK CL L M1) as (b & Y1). exists a, b.
    rewrite !zeroed_nth, M0, M1, Y0, Y1 in H1 by (auto; lia). cbn [ogt] in H1.
    assert (a <> v) by (apply (not_value p v i a); auto; lia). assert (b <> v) by (apply (not_value p v (S i) b); auto).
    unfold crossed. repeat (split; [now auto|]). destruct (qltb_spec v b) as [Q1|Q1]; destruct (qltb_spec v a) as [Q2|Q2]; try discriminate.
    + left. split; [|exact Q1]. apply qle_lt_or_eq in Q2. destruct Q2; [assumption|congruence].
    + right. split; [|exact Q2]. apply qle_lt_or_eq in Q1. destruct Q1; [assumption|congruence].
  - intros (a & b & _ & M0 & M1 & Y0 & Y1 & C). rewrite !zeroed_nth, M0, M1, Y0, Y1 by (auto; lia). cbn [ogt orb negb]. rewrite andb_true_r.
    destruct C as [[C1 C2]|[C1 C2]].
    + assert (qltb v b = true) as -> by now apply qltb_lt. assert (qltb v a = false) as -> by (apply qltb_ge; qlra). reflexivity.
    + assert (qltb v b = false) as -> by (apply qltb_ge; qlra). assert (qltb v a = true) as -> by now apply qltb_lt. reflexivity.
Qed.
Lemma position_unfold p v ind : prof_ok p -> (forall t, In t (samples p) -> sy t <> Some v) ->
  value_position p v ind = Ok (map (fun i => if ind then place p v (qn i) (qn (S i)) i else place p v (nths (px p) i) (nths (px p) (S i)) i)
            (filter (changes p v) (seq 0 (length (px p) - 1)))).
Proof.
  intros OK NE. unfold value_position. rewrite (aligned_ok p OK). cbn [negb guard]. rewrite find_none_all; [reflexivity|].
  intros i Hi. apply in_seq in Hi. destruct (ok_lengths p OK) as (L1 & _). destruct (nth i (yv p) None) as [a|] eqn:E; [|reflexivity].
  cbn. apply qeqb_neq. apply (not_value p v i a OK NE); [lia|exact E].
Qed.
Definition dnum (o : onum) : num := match o with Some v => v | None => qz 0 end.
Lemma map_some_of {A} (f : A -> onum) l : (forall i, In i l -> exists r, f i = Some r) -> map f l = map Some (map (fun i => dnum (f i)) l).
Proof. intro H. rewrite map_map. apply map_ext_in. intros i Hi. destruct (H i Hi) as (r & E). now rewrite E. Qed.
Lemma qn_lt i j : i < j -> (qn i < qn j)%num.
Proof. intro H. unfold qn. apply (proj2 (qz_lt _ _)). lia. Qed.
Lemma qn_le i j : i <= j -> (qn i <= qn j)%num.
Proof. intro H. unfold qn. apply (proj2 (qz_le _ _)). lia. Qed.
Lemma position_lemma p v : prof_ok p -> increasing (px p) -> prof_clean p -> (forall t, In t (samples p) -> sy t <> Some v) ->
  exists l, value_position p v false = Ok (map Some l) /\ increasing l /\ (forall x, In x l <-> passes (samples p) v x).
Proof.
  intros OK INC CL NE. rewrite (position_unfold p v false OK NE). set (cells := filter _ _).
  assert (IN : forall i, In i cells -> exists a b r, crossed p v i a b /\ place p v (nths (px p) i) (nths (px p) (S i)) i = Some r /\ (nths (px p) i < r < nths (px p) (S i))%num /\
     on_line (nths (px p) i) (nths (px p) (S i)) r a b v).
  { intros i Hi. apply filter_In in Hi. destruct Hi as [H1 H2]. apply in_seq in H1. assert (L : S i < length (px p)) by lia.
    apply (changes_iff p v i OK CL NE L) in H2. destruct H2 as (a & b & C). destruct C as (C0 & C1 & C2 & C3 & C4 & C5).
    destruct (place_spec p v i (nths (px p) i) (nths (px p) (S i)) a b OK L C1 C2 C3 C4 C5 (INC i (S i) ltac:(lia) L)) as (r & R). exists a, b, r. split; [repeat split; auto|exact R]. }
  rewrite map_some_of. 2: { intros i Hi. destruct (IN i Hi) as (a & b & r & _ & R & _). now exists r. }
  eexists. split; [reflexivity|]. split.
  - apply increasing_over; [apply filter_sorted, seq_sorted|]. intros i j Hi Hj L. destruct (IN i Hi) as (a & b & r & C & R & R2 & _). destruct (IN j Hj) as (a' & b' & r' & C' & R' & R2' & _).
    rewrite R, R'. cbn. assert (nths (px p) (S i) <= nths (px p) j)%num. { apply (increasing_nondecreasing _ INC); [lia|]. destruct C' as (C' & _). lia. } qlra.
  - intro x. rewrite (passes_index p v x OK). split.
    + intro H. apply in_map_iff in H. destruct H as (i & E & Hi). destruct (IN i Hi) as (a & b & r & (C0 & C1 & C2 & C3 & C4 & C5) & R & R2 & R3). rewrite R in E. cbn in E. subst x.
      exists i, a, b. repeat (split; [now auto|]). split; [split; qlra|exact R3].
    + intros (i & a & b & L & M0 & M1 & Y0 & Y1 & HX & O). assert (X := INC i (S i) ltac:(lia) L).
      assert (Na : a <> v) by (apply (not_value p v i a); auto; lia). assert (Nb : b <> v) by (apply (not_value p v (S i) b); auto).
      assert (C : (a < v < b)%num \/ (b < v < a)%num).
      { unfold on_line in O. set (x0 := nths (px p) i) in *. set (x1 := nths (px p) (S i)) in *. clearbody x0 x1.
        assert (E : ((v - a) * (x1 - x) = (b - v) * (x - x0))%num) by qlra. destruct HX as [U1 U2].
        destruct (qneq_cases a v Na) as [Q|Q]; destruct (qneq_cases b v Nb) as [Q'|Q']; [|left; auto|right; auto|]; exfalso.
        - assert (0 <= (v - a) * (x1 - x))%num by (apply qmul_nonneg; qlra). assert (0 <= (v - b) * (x - x0))%num by (apply qmul_nonneg; qlra).
          assert (Z1 : ((v - a) * (x1 - x) = 0)%num) by qlra. assert (Z2 : ((v - b) * (x - x0) = 0)%num) by qlra.
          assert (x1 - x = 0)%num. { apply Qcmult_integral in Z1. destruct Z1 as [Z1|Z1]; [exfalso; qlra|exact Z1]. }
          assert (x - x0 = 0)%num. { apply Qcmult_integral in Z2. destruct Z2 as [Z2|Z2]; [exfalso; qlra|exact Z2]. } qlra.
        - assert (0 <= (a - v) * (x1 - x))%num by (apply qmul_nonneg; qlra). assert (0 <= (b - v) * (x - x0))%num by (apply qmul_nonneg; qlra).
          assert (Z1 : ((a - v) * (x1 - x) = 0)%num) by qlra. assert (Z2 : ((b - v) * (x - x0) = 0)%num) by qlra.
          assert (x1 - x = 0)%num. { apply Qcmult_integral in Z1. destruct Z1 as [Z1|Z1]; [exfalso; qlra|exact Z1]. }
          assert (x - x0 = 0)%num. { apply Qcmult_integral in Z2. destruct Z2 as [Z2|Z2]; [exfalso; qlra|exact Z2]. } qlra. }
      apply in_map_iff. exists i. assert (Hi : In i cells). { apply filter_In. split; [apply in_seq; lia|]. apply (changes_iff p v i OK CL NE L). exists a, b. repeat split; auto. }
      split; [|exact Hi]. destruct (IN i Hi) as (a' & b' & r & (C0 & C1 & C2 & C3 & C4 & C5) & R & R2 & R3). rewrite R. cbn.
      assert (a' = a) by congruence. assert (b' = b) by congruence. subst a' b'. unfold on_line in O, R3.
      assert (E : ((r - x) * (b - a) = 0)%num) by qlra. apply Qcmult_integral in E. destruct E as [E|E]; [qlra|]. exfalso. destruct C; qlra.
Qed.
Lemma position_index_lemma p v : prof_ok p -> increasing (px p) -> prof_clean p -> (forall t, In t (samples p) -> sy t <> Some v) ->
  exists l ds, value_position p v false = Ok (map Some l) /\ value_position p v true = Ok (map Some ds) /\ Forall2 (index_of (px p)) l ds.
Proof.
  intros OK INC CL NE. rewrite !(position_unfold p v _ OK NE). set (cells := filter _ _). cbn iota.
  assert (IN : forall i, In i cells -> exists r d, place p v (nths (px p) i) (nths (px p) (S i)) i = Some r /\ place p v (qn i) (qn (S i)) i = Some d /\ index_of (px p) r d).
  { intros i Hi. apply filter_In in Hi. destruct Hi as [H1 H2]. apply in_seq in H1. assert (L : S i < length (px p)) by lia.
    apply (changes_iff p v i OK CL NE L) in H2. destruct H2 as (a & b & C). destruct C as (C0 & C1 & C2 & C3 & C4 & C5).
    destruct (place_spec p v i (nths (px p) i) (nths (px p) (S i)) a b OK L C1 C2 C3 C4 C5 (INC i (S i) ltac:(lia) L)) as (r & R & R2 & R3).
    destruct (place_spec p v i (qn i) (qn (S i)) a b OK L C1 C2 C3 C4 C5 (qn_lt i (S i) ltac:(lia))) as (d & D & D2 & D3).
    exists r, d. split; [exact R|]. split; [exact D|]. exists i. split; [exact L|]. split; [split; qlra|]. unfold on_line in *.
    assert (Q1 : (qn (S i) - qn i = 1)%num) by (rewrite qn_S; qring). set (x0 := nths (px p) i) in *. set (x1 := nths (px p) (S i)) in *. clearbody x0 x1. rewrite Q1 in D3 |- *.
    set (k := qn i) in *. set (k1 := qn (S i)) in *. clearbody k k1. assert (k1 = (k + 1)%num) by qlra. subst k1. clear Q1.
    assert (Nab : (b - a)%num <> 0%num) by (destruct C5; [apply qgt_neq|apply qlt_neq]; qlra).
    (* both are the fraction (v - a) / (b - a) of the interval *)
    assert (E1 : ((r - x0) * (b - a) = (v - a) * (x1 - x0))%num) by qlra.
    assert (E2 : ((d - k) * (b - a) = v - a)%num) by qlra.
    assert (Z : ((r - x0 - (d - k) * (x1 - x0)) * (b - a) = 0)%num).
    { replace ((r - x0 - (d - k) * (x1 - x0)) * (b - a))%num with ((r - x0) * (b - a) - (d - k) * (b - a) * (x1 - x0))%num by qring. rewrite E1, E2. qring. }
    apply Qcmult_integral in Z. destruct Z as [Z|Z]; [|contradiction]. change (Q2Qc 0) with (qz 0) in Z. assert (r = (x0 + (d - k) * (x1 - x0))%num) by qlra. subst r. qring. }
  rewrite (map_some_of (fun i => place p v (nths (px p) i) (nths (px p) (S i)) i)). 2: { intros i Hi. destruct (IN i Hi) as (r & d & R & _). now exists r. }
  rewrite (map_some_of (fun i => place p v (qn i) (qn (S i)) i)). 2: { intros i Hi. destruct (IN i Hi) as (r & d & _ & D & _). now exists d. }
  do 2 eexists. split; [reflexivity|]. split; [reflexivity|]. clearbody cells. induction cells as [|i cells IH]; [constructor|]. cbn. constructor.
  - destruct (IN i (or_introl eq_refl)) as (r & d & R & D & H). now rewrite R, D.
  - apply IH. intros j Hj. apply IN. now right.
Qed.
Lemma find_first {A} (P : A -> bool) l r x : (forall y, In y l -> P y = false) -> P x = true -> find P (l ++ x :: r) = Some x.
Proof. intros H E. induction l as [|a l IH]; cbn; [now rewrite E|]. rewrite (H a (or_introl eq_refl)). apply IH. intros y Hy. apply H. now right. Qed.
Lemma position_node_lemma p v A t B : prof_ok p -> samples p = A ++ t :: B -> (forall s, In s A -> sy s <> Some v) -> sy t = Some v ->
  value_position p v false = Ok [Some (sx t)] /\ value_position p v true = Ok [Some (qn (length A))].
Proof.
  intros OK E NA Et. destruct (ok_lengths p OK) as (L1 & L2 & _). assert (LS := samples_length p OK). rewrite E, app_length in LS. cbn in LS.
  assert (N : nth (length A) (samples p) (qz 0, None, false) = t) by (rewrite E, app_nth2, Nat.sub_diag by lia; reflexivity).
  rewrite samples_nth in N by exact OK. subst t. cbn [sy sx fst snd] in Et |- *.
  assert (F : find (fun i => oeqv (nth i (yv p) None) v) (seq 0 (length (yv p))) = Some (length A)).
  { replace (length (yv p)) with (length A + S (length B)) by lia. rewrite seq_app. cbn [seq Nat.add]. apply find_first.
    - intros i Hi. apply in_seq in Hi. destruct (nth i (yv p) None) as [w|] eqn:W; [|reflexivity]. cbn. apply qeqb_neq. intros ->.
      apply (NA (nth i (samples p) (qz 0, None, false))); [rewrite E, app_nth1 by lia; apply nth_In; lia|]. rewrite samples_nth by exact OK. exact W.
    - rewrite Et. cbn. apply qeqb_refl. }
  unfold value_position. rewrite (aligned_ok p OK), F. cbn [negb guard]. auto.
Qed.
