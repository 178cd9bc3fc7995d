(** * TemporalProofs8: reduction of the temporal resolution *)
From Verif Require Import Num Res ListLib SortLib Arr FieldModel ScalarFieldModel VectorFieldModel ProfileModel FieldSpec SeqSpec
  FieldProofs RotateProofs FieldProofs2 ScalarProofs FieldProofs3 PointsModel PointsSpec PointsProofs5 PointsProofs6 ProfileProofs3 TemporalModel TemporalSpec
  TemporalProofs TemporalProofs2 TemporalProofs3 TemporalProofs5 TemporalProofs6 TemporalProofs7.
From Coq Require Import Lia.

Lemma map_seq_S {A} (f : nat -> A) k : map f (seq 0 (S k)) = map f (seq 0 k) ++ [f k].
Proof. rewrite seq_S, map_app. reflexivity. Qed.
Lemma increasing_map_seq (g : nat -> num) k : (forall i j, i < j -> j < k -> (g i < g j)%num) -> increasing (map g (seq 0 k)).
Proof.
  intros H i j Hij Hj. rewrite map_length, seq_length in Hj.
  assert (E : forall a, a < k -> nths (map g (seq 0 k)) a = g a).
  { intros a Ha. apply nth_error_nths. rewrite nth_error_map, (nth_error_nth' _ 0) by (now rewrite seq_length). rewrite seq_nth by exact Ha. reflexivity. }
  rewrite !E by lia. apply H; lia.
Qed.
Section Loop.
Context {F : Type} (ops : fops F) (asort : list num -> list nat) (t : tfield F) (n : nat) (mean : bool) (g : grid) (gf : nat -> F) (gx : nat -> num).
Hypothesis AS : is_argsort asort.
Hypothesis GU : good_unit (tfu t).
Hypothesis Hn : 0 < n.
Let K := (length (tff t) - 1) / n.
Hypothesis HK : 0 < K.
Hypothesis One : forall k, k < K -> one_group ops t n mean (k * n) = Ok (gf k, gx k) /\ o_grid ops (gf k) = g.
Hypothesis Inc : forall i j, i < j -> j < K -> (gx i < gx j)%num.
Let acc (k : nat) : tfield F := match k with 0 => tf_new | _ => mktf g (map gf (seq 0 k)) true (map gx (seq 0 k)) (tfu t) end.
Lemma acc_step k : k < K -> tf_add ops asort (acc k) (gf k) (gx k) (tfu t) = (acc (S k), None).
Proof.
  intro Hk. destruct (One k Hk) as [_ Eg].
  assert (T : tft (acc k) = map gx (seq 0 k)) by (destruct k; reflexivity).
  assert (Fs : tff (acc k) = map gf (seq 0 k)) by (destruct k; reflexivity).
  assert (I : increasing (tft (acc k))) by (rewrite T; apply increasing_map_seq; intros; apply Inc; lia).
  rewrite (tf_add_last ops asort (acc k)); try assumption.
  - rewrite T, Fs. unfold acc. rewrite !map_seq_S, Eg. reflexivity.
  - split; [rewrite T, Fs, !map_length; reflexivity|now apply increasing_nondecreasing].
  - destruct k; [left; reflexivity|right; split; [reflexivity|exact Eg]].
  - rewrite T. intros x Hx. apply in_map_iff in Hx. destruct Hx as (i & <- & Hi). apply in_seq in Hi. apply Inc; lia.
Qed.
Lemma reduce_loop_lemma fuel : forall k, k < K -> K < k + fuel -> reduce_loop ops asort fuel t n mean (k * n) (acc k) = Ok (acc K).
Proof.
  assert (B : K * n <= length (tff t) - 1 < (K + 1) * n).
  { unfold K. pose proof (Nat.div_mod (length (tff t) - 1) n ltac:(lia)) as D. pose proof (Nat.mod_upper_bound (length (tff t) - 1) n ltac:(lia)). nia. }
  assert (Lp : 0 < length (tff t)) by (destruct (length (tff t)); [cbn in *; nia|lia]).
  induction fuel as [|fuel IH]; intros k Hk Hf; [lia|]. cbn [reduce_loop].
  destruct (One k Hk) as [-> _]. cbn [bind]. rewrite (acc_step k Hk). cbn [out_res bind].
  destruct (Nat.leb_spec (length (tff t)) (k * n + n + n)) as [C|C].
  - assert (K <= k + 1) by nia. replace (S k) with K by lia. reflexivity.
  - assert (k + 1 < K) by nia. replace (k * n + n) with (S k * n) by lia. apply IH; lia.
Qed.
Lemma tf_reduce_loop : exists t', reduce_loop ops asort (S (length (tff t))) t n mean 0 tf_new = Ok t' /\
  t' = mktf g (map gf (seq 0 K)) true (map gx (seq 0 K)) (tfu t).
Proof.
  exists (acc K). split.
  - change tf_new with (acc 0). apply (reduce_loop_lemma (S (length (tff t))) 0 HK).
    pose proof (Nat.div_le_upper_bound (length (tff t) - 1) n (length (tff t))) as D. unfold K. enough ((length (tff t) - 1) / n <= length (tff t)) by lia. apply D; [lia|]. nia.
  - destruct K; [lia|reflexivity].
Qed.
End Loop.

Lemma skipn_nth_cons {A} (l : list A) a x : nth_error l a = Some x -> skipn a l = x :: skipn (S a) l.
Proof. revert a. induction l as [|y l IH]; intros [|a] H; try discriminate H; cbn in H |- *; [congruence|]. now apply IH. Qed.
(** the sum of a list of frames, cell by cell *)
Definition cell_total (l : list sfield) (f : sfield) (i j : nat) : Prop :=
  if existsb (fun h => at_ (msk h) i j) l then at_ (msk f) i j = true
  else at_ (msk f) i j = false /\ exists v, at_ (values f) i j = Some v /\ (v * sc (uv f) = total (availables l i j))%num.
Lemma availables_app l l' i j : availables (l ++ l') i j = availables l i j ++ availables l' i j.
Proof. unfold availables. now rewrite flat_map_app. Qed.
Lemma sum_frames_sf t : sf_series_ok t -> tf_ok t -> forall m a l acc x,
  a + m <= length (tff t) -> sg acc = tfg t -> sf_wf acc -> good_unit (uv acc) ->
  (forall f, In f (tff t) -> dim (uv acc) = dim (uv f)) ->
  (forall i j, i < length (ax (tfg t)) -> j < length (ay (tfg t)) -> cell_total l acc i j) ->
  exists s, sum_frames sf_ops t acc x (seq a m) = Ok (s, (x + total (firstn m (skipn a (tft t))))%num) /\
    sg s = tfg t /\ uv s = uv acc /\ sf_wf s /\
    forall i j, i < length (ax (tfg t)) -> j < length (ay (tfg t)) -> cell_total (l ++ firstn m (skipn a (tff t))) s i j.
Proof.
  intros (GO & OG & FO & DM) [L S0]. induction m as [|m IH]; intros a l acc x Ha Eg W U D C.
  - exists acc. cbn [seq sum_frames firstn]. rewrite total_nil. split; [f_equal; f_equal; qring|]. repeat (split; [now auto|]). intros i j Hi Hj. rewrite app_nil_r. auto.
  - cbn [seq sum_frames].
    destruct (nth_error (tff t) a) as [f|] eqn:Ef; [|apply nth_error_None in Ef; lia].
    destruct (nth_error (tft t) a) as [y|] eqn:Ey; [|apply nth_error_None in Ey; lia].
    pose proof (nth_error_In _ _ Ef) as If. destruct (FO f If) as (Wf & Cf & Uf). pose proof (OG f If) as Gf. cbn in Gf.
    destruct (sf_add_cells acc f) as (s & k & Es & Hk & Gs & Us & Ws & Vs); try assumption; [congruence|now apply D|].
    cbn [o_add sf_ops]. rewrite Es. cbn [bind].
    destruct (IH (S a) (l ++ [f]) s (x + y)%num) as (r & Er & Gr & Ur & Wr & Vr).
    + lia.
    + congruence.
    + exact Ws.
    + congruence.
    + intros h Ih. rewrite Us. now apply D.
    + intros i j Hi Hj. specialize (C i j Hi Hj). destruct (Vs i j) as [V1 V2]. unfold cell_total in *. rewrite existsb_app. cbn [existsb]. rewrite orb_false_r.
      destruct (existsb (fun h => at_ (msk h) i j) l).
      * cbn [orb]. now rewrite V2, C.
      * cbn [orb]. destruct C as (C1 & v & C2 & C3). rewrite V2, C1. cbn [orb].
        destruct (at_ (msk f) i j) eqn:Em; [reflexivity|]. split; [reflexivity|].
        pose proof (clean_cell f i j Cf) as Kc. rewrite Gf in Kc. specialize (Kc Hi Hj).
        destruct (at_ (values f) i j) as [w|] eqn:Ew; [|destruct Kc as [Kc _]; rewrite (Kc eq_refl) in Em; discriminate].
        unfold values at 1. cbn [at_]. rewrite V2, C1. cbn [orb]. rewrite V1, C2. cbn [oscale option_map oadd lift2]. eexists. split; [reflexivity|].
        rewrite availables_app, total_app. cbn [availables flat_map]. rewrite app_nil_r. unfold avail. rewrite Em, Ew. rewrite total_cons, total_nil, Us, <- C3, <- Hk. qring.
    + exists r. rewrite (skipn_nth_cons _ _ _ Ef), (skipn_nth_cons _ _ _ Ey).
      cbn [firstn]. rewrite total_cons. split; [rewrite Er; f_equal; f_equal; qring|]. split; [exact Gr|]. split; [congruence|]. split; [exact Wr|].
      intros i j Hi Hj. specialize (Vr i j Hi Hj). rewrite <- app_assoc in Vr. exact Vr.
Qed.
Lemma group_length {A} n k (l : list A) : (k + 1) * n <= length l -> length (group n k l) = n.
Proof. intro H. unfold group. rewrite Nat.mul_add_distr_r in H. rewrite firstn_length, skipn_length. lia. Qed.
Lemma group_nth {A} n k (l : list A) i : i < n -> nth_error (group n k l) i = nth_error l (k * n + i).
Proof. intro H. unfold group. rewrite nth_error_firstn by exact H. apply nth_error_skipn. Qed.
Lemma qn0_mul b : (qn 0 * b = 0)%num.
Proof. unfold qn. change (qz (Z.of_nat 0)) with 0%num. qring. Qed.
Lemma total_upper l b : (forall x, In x l -> (x <= b)%num) -> (total l <= qn (length l) * b)%num.
Proof.
  induction l as [|x l IH]; intro H; [rewrite total_nil; cbn [length]; rewrite qn0_mul; apply qle_refl|].
  rewrite total_cons. assert (x <= b)%num by (apply H; now left). assert (total l <= qn (length l) * b)%num by (apply IH; intros; apply H; now right).
  replace (qn (length (x :: l)) * b)%num with (b + qn (length l) * b)%num; [qlra|]. cbn [length]. unfold qn. rewrite Nat2Z.inj_succ, <- Z.add_1_r, qz_add. qring.
Qed.
Lemma total_lower l b : (forall x, In x l -> (b <= x)%num) -> (qn (length l) * b <= total l)%num.
Proof.
  induction l as [|x l IH]; intro H; [rewrite total_nil; cbn [length]; rewrite qn0_mul; apply qle_refl|].
  rewrite total_cons. assert (b <= x)%num by (apply H; now left). assert (qn (length l) * b <= total l)%num by (apply IH; intros; apply H; now right).
  replace (qn (length (x :: l)) * b)%num with (b + qn (length l) * b)%num; [qlra|]. cbn [length]. unfold qn. rewrite Nat2Z.inj_succ, <- Z.add_1_r, qz_add. qring.
Qed.
Lemma qn_pos n : 0 < n -> (0 < qn n)%num.
Proof. intro H. unfold qn. apply (qz_lt 0). lia. Qed.
Lemma group_times_lt l n i j : increasing l -> 0 < n -> i < j -> (j + 1) * n <= length l ->
  (total (group n i l) / qn n < total (group n j l) / qn n)%num.
Proof.
  intros I Hn Hij Hl. pose proof (qn_pos n Hn) as P.
  assert (A : (total (group n i l) <= qn n * nths l (i * n + (n - 1)))%num).
  { rewrite <- (group_length n i l) at 2 by nia. apply total_upper. intros x Hx. apply In_nth_error in Hx. destruct Hx as (a & Ha).
    assert (a < n) by (apply nth_error_Some_lt in Ha; rewrite group_length in Ha by nia; exact Ha).
    rewrite group_nth in Ha by assumption. apply nth_error_nths in Ha. rewrite <- Ha. apply increasing_nondecreasing; [exact I|nia|nia]. }
  assert (B : (qn n * nths l (j * n) <= total (group n j l))%num).
  { rewrite <- (group_length n j l) at 1 by nia. apply total_lower. intros x Hx. apply In_nth_error in Hx. destruct Hx as (a & Ha).
    assert (a < n) by (apply nth_error_Some_lt in Ha; rewrite group_length in Ha by nia; exact Ha).
    rewrite group_nth in Ha by assumption. apply nth_error_nths in Ha. rewrite <- Ha. apply increasing_nondecreasing; [exact I|nia|nia]. }
  assert (C : (nths l (i * n + (n - 1)) < nths l (j * n))%num) by (apply I; nia).
  assert (D : (qn n * nths l (i * n + (n - 1)) < qn n * nths l (j * n))%num) by (apply qmul_lt_l; assumption).
  assert (E : (0 < (total (group n j l) - total (group n i l)) / qn n)%num) by (apply qdiv_pos; qlra).
  replace (total (group n j l) / qn n)%num with (total (group n i l) / qn n + (total (group n j l) - total (group n i l)) / qn n)%num by (qfield; now apply qgt_neq).
  qlra.
Qed.
Lemma one_group_sf t n k : sf_series_ok t -> tf_ok t -> 0 < n -> (k + 1) * n <= length (tff t) ->
  exists f, one_group sf_ops t n true (k * n) = Ok (f, (total (group n k (tft t)) / qn n)%num) /\ sg f = tfg t /\
    forall i j, i < length (ax (tfg t)) -> j < length (ay (tfg t)) -> cell_average (group n k (tff t)) f i j.
Proof.
  intros SO O Hn Hk. pose proof SO as (GO & OG & FO & DM). pose proof O as [L S0]. unfold one_group.
  destruct (nth_error (tff t) (k * n)) as [f|] eqn:Ef; [|apply nth_error_None in Ef; nia].
  destruct (nth_error (tft t) (k * n)) as [y|] eqn:Ey; [|apply nth_error_None in Ey; nia].
  pose proof (nth_error_In _ _ Ef) as If. destruct (FO f If) as (Wf & Cf & Uf). pose proof (OG f If) as Gf. cbn in Gf.
  destruct (sum_frames_sf t SO O (n - 1) (k * n + 1) [f] f y) as (s & Es & Gs & Us & Ws & Vs); try assumption.
  - nia.
  - intros h Ih. now apply DM.
  - intros i j Hi Hj. unfold cell_total. cbn [existsb]. rewrite orb_false_r. destruct (at_ (msk f) i j) eqn:Em; [reflexivity|]. split; [reflexivity|].
    pose proof (clean_cell f i j Cf) as Kc. rewrite Gf in Kc. specialize (Kc Hi Hj).
    destruct (at_ (values f) i j) as [w|] eqn:Ew; [|destruct Kc as [Kc _]; rewrite (Kc eq_refl) in Em; discriminate].
    exists w. split; [reflexivity|]. cbn [availables flat_map]. rewrite app_nil_r. unfold avail. rewrite Em, Ew, total_cons, total_nil. qring.
  - rewrite Es. cbn [bind]. exists (sf_div_num s (qn n)).
    assert (Eg : forall A (l : list A) x, nth_error l (k * n) = Some x -> group n k l = x :: firstn (n - 1) (skipn (k * n + 1) l)).
    { intros A l x Hx. unfold group. rewrite (skipn_nth_cons _ _ _ Hx). destruct n as [|n']; [lia|]. cbn [firstn]. replace (S n' - 1) with n' by lia.
      now replace (k * S n' + 1) with (S (k * S n')) by lia. }
    split; [rewrite (Eg _ _ _ Ey), total_cons; reflexivity|]. split; [exact Gs|]. intros i j Hi Hj. specialize (Vs i j Hi Hj).
    rewrite (Eg _ _ _ Ef). unfold cell_total, cell_average in *. change ([f] ++ ?l) with (f :: l) in Vs.
    set (l := f :: firstn (n - 1) (skipn (k * n + 1) (tff t))) in *.
    pose proof (qn_pos n Hn) as P.
    destruct (existsb (fun h => at_ (msk h) i j) l) eqn:Ex.
    + unfold sf_div_num. cbn [msk values raw at_ amap]. rewrite Vs. cbn. auto.
    + destruct Vs as (V1 & v & V2 & V3). cbn [values at_] in V2. rewrite V1 in V2. unfold sf_div_num. cbn [msk values raw at_ amap uv].
      rewrite V1, V2. cbn [div_isnan odiv]. assert (qeqb (qn n) 0%num = false) as -> by (apply qeqb_neq; now apply qgt_neq). rewrite andb_false_r. split; [reflexivity|].
      eexists. split; [reflexivity|]. rewrite <- V3.
      assert (LL : length (availables l i j) = n).
      { assert (Ll : length l = n). { unfold l. rewrite <- (Eg _ _ _ Ef). now apply group_length. }
        rewrite <- Ll. clear Ll V3. assert (HI : forall h, In h l -> In h (tff t)).
        { intros h [<-|Hh]; [exact If|]. clear -Hh.
          assert (In h (skipn (k * n + 1) (tff t))) as H by (rewrite <- (firstn_skipn (n - 1) (skipn (k * n + 1) (tff t))); apply in_or_app; now left).
          rewrite <- (firstn_skipn (k * n + 1) (tff t)). apply in_or_app. now right. }
        clearbody l. clear -Ex HI FO OG Hi Hj. induction l as [|h l IH]; [reflexivity|]. cbn [existsb] in Ex. apply orb_false_iff in Ex. destruct Ex as [E1 E2].
        cbn [availables flat_map]. rewrite app_length. cbn [length]. change (flat_map (fun f => avail f i j) l) with (availables l i j). rewrite IH; [|exact E2|intros; apply HI; now right].
        assert (Ih : In h (tff t)) by (apply HI; now left). destruct (avail_length h i j) as [A _]; [apply (FO h Ih)|rewrite (OG h Ih : sg h = tfg t); exact Hi|rewrite (OG h Ih : sg h = tfg t); exact Hj|].
        rewrite A, E1. reflexivity. }
      rewrite LL. qfield. now apply qgt_neq.
Qed.
Lemma div_groups len n : 2 <= n -> n < len -> 0 < (len - 1) / n /\ forall k, k < (len - 1) / n -> (k + 1) * n <= len.
Proof.
  intros Hn Hl. pose proof (Nat.div_mod (len - 1) n ltac:(lia)) as D. pose proof (Nat.mod_upper_bound (len - 1) n ltac:(lia)) as M. split.
  - apply Nat.div_str_pos. lia.
  - intros k Hk. nia.
Qed.
Lemma frames_map_seq {F} g (gf : nat -> F) a (gx : nat -> num) u K k x f :
  nth_error (frames (mktf g (map gf (seq 0 K)) a (map gx (seq 0 K)) u)) k = Some (x, f) -> k < K /\ x = gx k /\ f = gf k.
Proof.
  intro H. apply frames_nth in H. cbn in H. destruct H as [H1 H2]. assert (Hk : k < K) by (apply nth_error_Some_lt in H1; rewrite map_length, seq_length in H1; exact H1).
  rewrite nth_error_map, (nth_error_nth' _ 0) in H1, H2 by (now rewrite seq_length). rewrite seq_nth in H1, H2 by exact Hk. cbn in H1, H2. injection H1 as <-. injection H2 as <-. auto.
Qed.
Lemma tf_reduce_sf t asort n : is_argsort asort -> sf_series_ok t -> tf_ok t -> increasing (tft t) -> good_unit (tfu t) -> 2 <= n -> n < length (tff t) ->
  exists t', tf_reduce sf_ops asort t (Z.of_nat n) true = Ok t' /\ tf_ok t' /\ one_grid sf_ops t' /\ tfg t' = tfg t /\ tfu t' = tfu t /\
    length (frames t') = (length (frames t) - 1) / n /\
    forall k x f, nth_error (frames t') k = Some (x, f) -> (x * qn n = total (group n k (tft t)))%num /\
      forall i j, i < length (ax (tfg t)) -> j < length (ay (tfg t)) -> cell_average (group n k (tff t)) f i j.
Proof.
  intros AS SO O I GU Hn Hl. pose proof O as [L S0]. destruct (div_groups (length (tff t)) n Hn Hl) as [KP KB].
  set (gf := fun k => match one_group sf_ops t n true (k * n) with Ok (f, _) => f | Err _ => mksf (tfg t) (afull 0 0 None) (afull 0 0 true) one_unit end).
  set (gx := fun k => (total (group n k (tft t)) / qn n)%num).
  assert (One : forall k, k < (length (tff t) - 1) / n -> one_group sf_ops t n true (k * n) = Ok (gf k, gx k) /\ sg (gf k) = tfg t /\
     forall i j, i < length (ax (tfg t)) -> j < length (ay (tfg t)) -> cell_average (group n k (tff t)) (gf k) i j).
  { intros k Hk. destruct (one_group_sf t n k SO O ltac:(lia) (KB k Hk)) as (f & E & G & C). unfold gf. rewrite E. auto. }
  destruct (tf_reduce_loop sf_ops asort t n true (tfg t) gf gx AS GU ltac:(lia) KP) as (t' & E & Et').
  { intros k Hk. destruct (One k Hk) as (A & B & _). auto. }
  { intros i j Hij Hj. apply group_times_lt; [exact I|lia|exact Hij|]. rewrite L. now apply KB. }
  exists t'. split.
  - unfold tf_reduce. destruct (Z.leb_spec (Z.of_nat n) 0); [lia|]. cbn [guard]. destruct (Z.eqb_spec (Z.of_nat n) 1); [lia|].
    destruct (Z.leb_spec (Z.of_nat (length (tff t))) (Z.of_nat n)); [lia|]. cbn [guard]. rewrite Nat2Z.id. exact E.
  - subst t'. split; [|split; [|split; [reflexivity|split; [reflexivity|split]]]].
    + split; cbn; [now rewrite !map_length|]. apply increasing_nondecreasing, increasing_map_seq. intros i j Hij Hj. apply group_times_lt; [exact I|lia|exact Hij|]. rewrite L. now apply KB.
    + intros f If. cbn in *. apply in_map_iff in If. destruct If as (k & <- & Hk). apply in_seq in Hk. apply One. lia.
    + unfold frames. cbn [tft tff]. rewrite !combine_length, !map_length, seq_length, L, !Nat.min_id. reflexivity.
    + intros k x f H. apply frames_map_seq in H. destruct H as (Hk & -> & ->). split; [|apply One; exact Hk].
      unfold gx. apply qdiv_mul. apply qgt_neq, qn_pos. lia.
Qed.
(** without average: one frame out of n *)
Lemma tf_reduce_pick {F} (ops : fops F) t asort n : is_argsort asort -> one_grid ops t -> tf_ok t -> increasing (tft t) -> good_unit (tfu t) -> 2 <= n -> n < length (tff t) ->
  exists t', tf_reduce ops asort t (Z.of_nat n) false = Ok t' /\ tf_ok t' /\ one_grid ops t' /\ tfg t' = tfg t /\ tfu t' = tfu t /\
    length (frames t') = (length (frames t) - 1) / n /\
    forall k, k < (length (frames t) - 1) / n -> nth_error (frames t') k = nth_error (frames t) (k * n).
Proof.
  intros AS OG O I GU Hn Hl. pose proof O as [L S0]. destruct (div_groups (length (tff t)) n Hn Hl) as [KP KB].
  destruct (tff t) as [|d fs] eqn:Ed; [cbn in Hl; lia|]. rewrite <- Ed in *.
  set (gf := fun k => nth (k * n) (tff t) d). set (gx := fun k => nths (tft t) (k * n)).
  assert (NF : forall k, k < (length (tff t) - 1) / n -> nth_error (tff t) (k * n) = Some (gf k)) by (intros k Hk; apply nth_error_nth'; specialize (KB k Hk); nia).
  assert (NX : forall k, k < (length (tff t) - 1) / n -> nth_error (tft t) (k * n) = Some (gx k)) by (intros k Hk; apply nths_nth_error; specialize (KB k Hk); nia).
  assert (Inc : forall i j, i < j -> j < (length (tff t) - 1) / n -> (gx i < gx j)%num) by (intros i j Hij Hj; apply I; [nia|specialize (KB j Hj); nia]).
  destruct (tf_reduce_loop ops asort t n false (tfg t) gf gx AS GU ltac:(lia) KP) as (t' & E & Et').
  { intros k Hk. unfold one_group. rewrite (NF k Hk), (NX k Hk). split; [reflexivity|]. apply OG. eapply nth_error_In. apply NF. exact Hk. }
  { exact Inc. }
  exists t'. split.
  - unfold tf_reduce. destruct (Z.leb_spec (Z.of_nat n) 0); [lia|]. cbn [guard]. destruct (Z.eqb_spec (Z.of_nat n) 1); [lia|].
    destruct (Z.leb_spec (Z.of_nat (length (tff t))) (Z.of_nat n)); [lia|]. cbn [guard]. rewrite Nat2Z.id. exact E.
  - assert (LF : length (frames t) = length (tff t)) by (unfold frames; rewrite combine_length; lia). rewrite LF.
    subst t'. split; [|split; [|split; [reflexivity|split; [reflexivity|split]]]].
    + split; cbn; [now rewrite !map_length|]. apply increasing_nondecreasing, increasing_map_seq. exact Inc.
    + intros f If. cbn in *. apply in_map_iff in If. destruct If as (k & <- & Hk). apply in_seq in Hk. apply OG. eapply nth_error_In. apply NF. lia.
    + unfold frames. cbn [tft tff]. rewrite combine_length, !map_length, seq_length, Nat.min_id. reflexivity.
    + intros k Hk. assert (E1 : nth_error (frames t) (k * n) = Some (gx k, gf k)) by (apply frames_nth; auto). rewrite E1. apply frames_nth. cbn.
      rewrite !nth_error_map, !(nth_error_nth' _ 0) by (now rewrite seq_length). rewrite seq_nth by exact Hk. auto.
Qed.
(** every complete group is kept when n does not divide the number of frames *)
Lemma groups_complete len n : 2 <= n -> (len mod n <> 0) -> (len - 1) / n = len / n.
Proof.
  intros Hn Hm. pose proof (Nat.div_mod len n ltac:(lia)) as D. pose proof (Nat.mod_upper_bound len n ltac:(lia)) as M.
  symmetry. apply (Nat.div_unique _ _ _ (len mod n - 1)); [lia|]. revert D Hm. generalize (len mod n) as r, (n * (len / n)) as q. intros. lia.
Qed.
