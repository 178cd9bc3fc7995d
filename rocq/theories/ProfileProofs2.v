From Verif Require Import Num Res ListLib SortLib Arr FieldModel ScalarFieldModel FieldSpec FieldProofs2 ScalarProofs ProfileModel ProfileSpec ProfileProofs.

(** ** generic lemmas *)
Lemma filter_slice {A} (P : A -> bool) (d : A) l : forall i j,
  (forall k, k < length l -> P (nth k l d) = (Nat.leb i k && Nat.ltb k j)%bool) -> filter P l = slice i j l.
Proof.
  induction l as [|x l IH]; intros i j H; [unfold slice; now rewrite skipn_nil, firstn_nil|].
  assert (Hx := H 0 ltac:(simpl; lia)). simpl in Hx.
  assert (IH' : filter P l = slice (i - 1) (j - 1) l).
  { apply IH. intros k Hk. specialize (H (S k) ltac:(simpl; lia)). simpl nth in H. rewrite H. apply eq_true_iff_eq. rewrite !andb_true_iff, !Nat.leb_le, !Nat.ltb_lt. lia. }
  cbn [filter]. rewrite Hx, IH'. unfold slice in *. destruct i as [|i]; cbn [Nat.leb andb].
  - destruct j as [|j]; simpl; [reflexivity|]. replace (j - 0) with j by lia. now rewrite Nat.sub_0_r.
  - simpl skipn. f_equal. lia. f_equal. lia.
Qed.
Lemma fold_pick {A} (f : nat -> bool) (g : nat -> A) l k : In k l -> f k = true -> (forall j, In j l -> f j = true -> j = k) ->
  forall init, fold_left (fun acc i => if f i then g i else acc) l init = g k.
Proof.
  intros Hk Fk U. assert (St : forall l', (forall j, In j l' -> f j = true -> j = k) -> fold_left (fun acc i => if f i then g i else acc) l' (g k) = g k).
  { induction l' as [|i l' IH]; intro U'; [reflexivity|]. simpl. destruct (f i) eqn:E; [rewrite (U' i (or_introl eq_refl) E)|]; apply IH; intros j Hj; apply U'; now right. }
  induction l as [|i l IH]; intro init; [contradiction|]. simpl. destruct Hk as [->|Hk].
  - rewrite Fk. apply St. intros j Hj. apply U. now right.
  - apply IH; [exact Hk|]. intros j Hj. apply U. now right.
Qed.
Lemma fold_none {A} (f : nat -> bool) (g : nat -> A) l : (forall j, In j l -> f j = false) ->
  forall init, fold_left (fun acc i => if f i then g i else acc) l init = init.
Proof. induction l as [|i l IH]; intros U init; [reflexivity|]. simpl. rewrite (U i (or_introl eq_refl)). apply IH. intros j Hj. apply U. now right. Qed.
Lemma fold_pair {A B I} (st : A * B -> I -> A * B) (f : A -> I -> A) (g : B -> I -> B) l :
  (forall a b i, In i l -> st (a, b) i = (f a i, g b i)) -> forall a b, fold_left st l (a, b) = (fold_left f l a, fold_left g l b).
Proof. induction l as [|i l IH]; intros H a b; [reflexivity|]. simpl. rewrite H by now left. apply IH. intros a' b' j Hj. apply H. now right. Qed.

(** ** C23: value crop *)
Lemma crop_inds_lemma x a b : increasing x -> x <> [] -> (a < b)%num ->
  (a <= nths x 0)%num \/ In a x -> (nths x 0 < b)%num -> (b <= nths x (length x - 1))%num ->
  let (i1, i2) := crop_inds x a b in
  forall k, k < length x -> (i1 <= k <-> (a <= nths x k)%num) /\ (k < i2 <-> (nths x k <= b)%num).
Proof.
  intros Hi Hne Hab Ha Hb0 Hb1. assert (L : 0 < length x) by (destruct x; [congruence|simpl; lia]).
  unfold crop_inds.
  assert (IN : forall i, In i (rev (seq 1 (length x - 1))) <-> 1 <= i < length x) by (intro i; rewrite <- in_rev, in_seq; lia).
  assert (GapA : forall i, 1 <= i < length x -> ~ ((nths x (i - 1) < a)%num /\ (a < nths x i)%num)).
  { intros i Hl [G1 G2]. destruct Ha as [Ha|Ha].
    - assert (nths x 0 <= nths x (i - 1))%num by (apply increasing_nondecreasing; [exact Hi|lia|lia]). qlra.
    - apply In_nth with (d := qz 0) in Ha. destruct Ha as (k & Hk & E). change (nths x k = a) in E. rewrite <- E in G1, G2.
      apply increasing_lt_inv in G1; [|exact Hi|lia|lia]. apply increasing_lt_inv in G2; [|exact Hi|lia|lia]. lia. }
  assert (Mono : forall i, 1 <= i < length x -> (nths x (i - 1) < nths x i)%num) by (intros i Hl; apply Hi; lia).
  rewrite (fold_pair _ (fun s i => if qeqb (nths x i) a then i else s)
     (fun s i => if (qeqb (nths x i) b || (qltb b (nths x i) && qltb (nths x (i - 1)) b))%bool
                 then Some (if qeqb (nths x i) b then i + 1 else i) else s)).
  2:{ intros s1 s2 i Hl. apply IN in Hl. specialize (GapA i Hl). specialize (Mono i Hl). unfold crop_step.
      destruct (qeqb_spec (nths x i) a) as [E|E].
      - destruct (qeqb_spec (nths x i) b) as [E2|E2]; [exfalso; qlra|]. destruct (qltb_spec b (nths x i)); [exfalso; qlra|]. reflexivity.
      - destruct (qeqb_spec (nths x i) b) as [E2|E2]; [reflexivity|].
        destruct (qltb_spec a (nths x i)) as [A1|A1], (qltb_spec (nths x (i - 1)) a) as [A2|A2]; cbn [andb orb];
        try (exfalso; now apply GapA);
        destruct (qltb_spec (nths x i) a) as [A3|A3], (qltb_spec a (nths x (i - 1))) as [A4|A4]; cbn [andb orb]; try (exfalso; qlra);
        destruct (qltb_spec b (nths x i)) as [B1|B1], (qltb_spec (nths x (i - 1)) b) as [B2|B2]; cbn [andb orb]; try reflexivity;
        destruct (qltb_spec (nths x i) b) as [B3|B3], (qltb_spec b (nths x (i - 1))) as [B4|B4]; cbn [andb orb]; try (exfalso; qlra); try reflexivity. }
  assert (I1 : exists i1, fold_left (fun s i => if qeqb (nths x i) a then i else s) (rev (seq 1 (length x - 1))) 0 = i1 /\
             forall k, k < length x -> (i1 <= k <-> (a <= nths x k)%num)).
  { assert (C : (a <= nths x 0)%num \/ exists k, 1 <= k < length x /\ nths x k = a).
    { destruct Ha as [Ha|Ha]; [now left|]. apply In_nth with (d := qz 0) in Ha. destruct Ha as (k & Hk & E). destruct k as [|k].
      - left. change (nths x 0 = a) in E. rewrite E. apply qle_refl.
      - right. exists (S k). split; [lia|exact E]. }
    destruct C as [C|(k0 & Hk0 & E0)].
    - exists 0. split.
      + apply (fold_none (fun i => qeqb (nths x i) a) (fun i => i)). intros j Hj. apply IN in Hj. apply qeqb_neq.
        assert (nths x 0 < nths x j)%num by (apply Hi; lia). intro. qlra.
      + intros k Hk. assert (nths x 0 <= nths x k)%num by (apply increasing_nondecreasing; [exact Hi|lia|lia]). split; intro; [qlra|lia].
    - exists k0. split.
      + apply (fold_pick (fun i => qeqb (nths x i) a) (fun i => i)); [now apply IN|now apply qeqb_eq|].
        intros j Hj E. apply IN in Hj. apply qeqb_eq in E. apply (increasing_inj x); [exact Hi|lia|lia|congruence].
      + intros k Hk. rewrite <- E0. split; intro H; [apply increasing_nondecreasing; [exact Hi|lia|lia]|apply increasing_le_inv in H; [lia|exact Hi|lia|lia]]. }
  assert (I2 : exists i2, fold_left (fun s i => if (qeqb (nths x i) b || (qltb b (nths x i) && qltb (nths x (i - 1)) b))%bool
                 then Some (if qeqb (nths x i) b then i + 1 else i) else s) (rev (seq 1 (length x - 1))) None = Some i2 /\
             forall k, k < length x -> (k < i2 <-> (nths x k <= b)%num)).
  { destruct (searchsorted_spec x b (increasing_nondecreasing x Hi)) as (S1 & S2 & S3). set (s := searchsorted x b) in *.
    assert (s <> 0) by (intro E; rewrite E in S3; specialize (S3 0 ltac:(lia) ltac:(lia)); qlra).
    assert (s < length x) by (destruct (Nat.lt_ge_cases s (length x)); [assumption|exfalso; specialize (S2 (length x - 1) ltac:(lia)); qlra]).
    pose proof (S2 (s - 1) ltac:(lia)) as T1. pose proof (S3 s ltac:(lia) ltac:(lia)) as T2.
    exists (if qeqb (nths x s) b then s + 1 else s). split.
    - apply (fold_pick (fun i => (qeqb (nths x i) b || (qltb b (nths x i) && qltb (nths x (i - 1)) b))%bool) (fun i => Some (if qeqb (nths x i) b then i + 1 else i))).
      + apply IN. lia.
      + apply orb_true_iff. destruct (qle_lt_or_eq _ _ T2) as [T|T]; [right; apply andb_true_iff; split; apply qltb_lt; assumption|left; apply qeqb_eq; congruence].
      + intros j Hj E. apply IN in Hj. apply orb_true_iff in E. destruct E as [E|E].
        * apply qeqb_eq in E. destruct (Nat.lt_trichotomy j s) as [C|[C|C]]; [|exact C|].
          -- specialize (S2 j C). exfalso. qlra.
          -- assert (nths x s < nths x j)%num by (apply Hi; lia). exfalso. qlra.
        * apply andb_true_iff in E. destruct E as [E1 E2]. apply qltb_lt in E1. apply qltb_lt in E2.
          destruct (Nat.lt_trichotomy j s) as [C|[C|C]]; [|exact C|].
          -- specialize (S2 j C). exfalso. qlra.
          -- specialize (S3 (j - 1) ltac:(lia) ltac:(lia)). exfalso. qlra.
    - intros k Hk. destruct (qeqb_spec (nths x s) b) as [E|E].
      + rewrite <- E. split; intro H1; [apply increasing_nondecreasing; [exact Hi|lia|lia]|apply increasing_le_inv in H1; [lia|exact Hi|lia|lia]].
      + split; intro H1.
        * specialize (S2 k H1). qlra.
        * destruct (Nat.lt_ge_cases k s) as [C|C]; [exact C|]. exfalso. specialize (S3 k C Hk). assert (nths x s <= nths x k)%num by (apply increasing_nondecreasing; [exact Hi|lia|lia]).
          apply E. qlra. }
  destruct I1 as (i1 & E1 & P1). destruct I2 as (i2 & E2 & P2). rewrite E1, E2. intros k Hk. split; [now apply P1|now apply P2].
Qed.
Lemma samples_nth p k : prof_ok p -> nth k (samples p) (qz 0, None, false) = (nths (px p) k, nth k (yv p) None, nth k (pm p) false).
Proof.
  intro OK. pose proof (ok_lengths p OK) as (L1 & L2 & _). unfold samples, zip3. rewrite combine_nth by (rewrite combine_length; lia). rewrite combine_nth by lia. reflexivity.
Qed.
Lemma lmin_spec l v : l <> [] -> (v < lmin l)%num -> forall x, In x l -> (v < x)%num.
Proof.
  intros _. unfold lmin. generalize (nths l 0) as d. induction l as [|y l IH]; intros d H x Hx; [contradiction|]. simpl in H. destruct (qmin_spec y (fold_right qmin d l)) as [(E & F)|(E & F)]; rewrite F in H; destruct Hx as [<-|Hx];
  try qlra; (eapply IH; [|exact Hx]); instantiate (1 := d); qlra.
Qed.
Lemma lmax_spec l v : (lmax l < v)%num -> forall x, In x l -> (x < v)%num.
Proof.
  unfold lmax. generalize (nths l 0) as d. induction l as [|y l IH]; intros d H x Hx; [contradiction|]. simpl in H. destruct (qmax_spec y (fold_right qmax d l)) as [(E & F)|(E & F)]; rewrite F in H; destruct Hx as [<-|Hx];
  try qlra; (eapply IH; [|exact Hx]); instantiate (1 := d); qlra.
Qed.
Lemma lmin_lt l v : (exists x, In x l) -> (forall x, In x l -> (v < x)%num) -> (v < lmin l)%num.
Proof.
  intros (x0 & H0) H. unfold lmin. assert (D : (v < nths l 0)%num) by (destruct l; [contradiction|apply H; now left]).
  revert D. generalize (nths l 0) as d. clear H0. induction l as [|y l IH]; intros d D; [exact D|]. simpl.
  destruct (qmin_spec y (fold_right qmin d l)) as [(E & F)|(E & F)]; rewrite F; [apply H; now left|apply IH; [intros x Hx; apply H; now right|exact D]].
Qed.
Lemma lmax_lt l v : (exists x, In x l) -> (forall x, In x l -> (x < v)%num) -> (lmax l < v)%num.
Proof.
  intros (x0 & H0) H. unfold lmax. assert (D : (nths l 0 < v)%num) by (destruct l; [contradiction|apply H; now left]).
  revert D. generalize (nths l 0) as d. clear H0. induction l as [|y l IH]; intros d D; [exact D|]. simpl.
  destruct (qmax_spec y (fold_right qmax d l)) as [(E & F)|(E & F)]; rewrite F; [apply IH; [intros x Hx; apply H; now right|exact D]|apply H; now left].
Qed.
Lemma nths_in (l : list num) i : i < length l -> In (nths l i) l.
Proof. intro H. now apply nth_In. Qed.
Lemma crop_exact p a b : prof_ok p -> increasing (px p) -> px p <> [] -> (a < b)%num ->
  (a <= nths (px p) 0)%num \/ In a (px p) -> (nths (px p) 0 < b)%num -> (b <= nths (px p) (length (px p) - 1))%num ->
  (exists p', prof_crop p (Some (a, b)) None = Ok p' /\ samples p' = map shown (filter (x_in a b) (samples p)) /\ pux p' = pux p /\ puy p' = puy p) /\
  (exists p', pstep p (PCrop (Some (a, b)) None) = (p', None) /\ samples p' = filter (x_in a b) (samples p) /\ pux p' = pux p /\ puy p' = puy p).
Proof.
  intros OK Hi Hne Hab Ha Hb0 Hb1. pose proof (ok_lengths p OK) as (L1 & L2 & S). pose proof (samples_length p OK) as LS.
  assert (L : 0 < length (px p)) by (destruct (px p); [congruence|simpl; lia]).
  pose proof (crop_inds_lemma (px p) a b Hi Hne Hab Ha Hb0 Hb1) as C. 
  assert (E : exists x y m, crop_data p (Some (a, b)) None = Ok (x, y, m) /\ zip3 x y m = filter (x_in a b) (samples p)).
  { unfold crop_data. rewrite (aligned_ok p OK). cbn [negb guard].
    assert (qleb b a = false) as -> by (apply qleb_gt; qlra). cbn [guard].
    assert (Nat.eqb (length (px p)) 0 = false) as -> by (apply Nat.eqb_neq; lia). cbn [guard].
    assert (qltb b (lmin (px p)) = false) as ->.
    { destruct (qltb_spec b (lmin (px p))) as [Q|Q]; [|reflexivity]. exfalso. pose proof (lmin_spec _ _ Hne Q _ (nths_in _ 0 L)). qlra. }
    assert (qltb (lmax (px p)) b = false) as ->.
    { destruct (qltb_spec (lmax (px p)) b) as [Q|Q]; [|reflexivity]. exfalso. pose proof (lmax_spec _ _ Q _ (nths_in (px p) (length (px p) - 1) ltac:(lia))). qlra. }
    rewrite !andb_false_r. cbn [orb guard bind]. destruct (crop_inds (px p) a b) as [i1 i2]. cbn [bind].
    eexists _, _, _. split; [reflexivity|]. unfold zip3. rewrite slice_combine by lia. rewrite slice_combine by (rewrite combine_length; lia).
    change (combine (combine (px p) (yv p)) (pm p)) with (samples p). symmetry. apply (filter_slice _ (qz 0, None, false)). intros k Hk. rewrite LS in Hk. rewrite samples_nth by exact OK. unfold x_in, sx. cbn [fst].
    specialize (C k Hk). destruct C as [C1 C2]. f_equal; apply eq_true_iff_eq; rewrite qleb_le; [rewrite Nat.leb_le|rewrite Nat.ltb_lt]; tauto. }
  destruct E as (x & y & m & E & Z).
  destruct (crop_data_shape p (Some (a, b)) None x y m OK E) as (A1 & A2 & A3 & A4 & _). split.
  - unfold prof_crop, prof_crop_with. rewrite E. cbn [bind].
    destruct (new_lemma x y (Some m) (pux p) (puy p)) as (p' & N1 & N2 & N3 & N4 & _ & N5); [lia|lia|].
    exists p'. split; [exact N1|]. destruct (N5 A3) as [_ N6]. rewrite N6, Z. auto.
  - cbn [pstep]. rewrite E. destruct (crop_in_spec p x y m A1 A2 A3 A4) as (p' & E' & O & P & U & W). exists p'. rewrite P, Z. auto.
Qed.
Lemma crop_outside p a b : prof_ok p -> px p <> [] -> (a < b)%num ->
  (forall x, In x (px p) -> (b < x)%num) \/ (forall x, In x (px p) -> (x < a)%num) ->
  prof_crop p (Some (a, b)) None = Err ValueErr /\ pstep p (PCrop (Some (a, b)) None) = (p, Some ValueErr).
Proof.
  intros OK Hne Hab H. assert (E : crop_data p (Some (a, b)) None = Err ValueErr).
  { unfold crop_data. rewrite (aligned_ok p OK). cbn [negb guard].
    assert (qleb b a = false) as -> by (apply qleb_gt; qlra). cbn [guard].
    assert (EX : exists x, In x (px p)) by (destruct (px p) as [|z l]; [congruence|exists z; now left]).
    assert (Nat.eqb (length (px p)) 0 = false) as -> by (apply Nat.eqb_neq; destruct (px p); [congruence|discriminate]). cbn [guard].
    destruct H as [H|H].
    - pose proof (lmin_lt _ _ EX H). assert (qltb b (lmin (px p)) = true) as -> by (now apply qltb_lt).
      assert (qltb a (lmin (px p)) = true) as -> by (apply qltb_lt; qlra). reflexivity.
    - pose proof (lmax_lt _ _ EX H). assert (qltb (lmax (px p)) b = true) as -> by (apply qltb_lt; qlra).
      assert (qltb (lmax (px p)) a = true) as -> by (now apply qltb_lt). cbn [andb]. rewrite orb_true_r. reflexivity. }
  unfold prof_crop, prof_crop_with. cbn [pstep]. rewrite E. auto.
Qed.
Lemma crop_reversed p a b ivy : (b <= a)%num -> prof_crop p (Some (a, b)) ivy = Err ValueErr.
Proof. intro H. unfold prof_crop, prof_crop_with, crop_data. apply qleb_le in H. now rewrite H. Qed.
Lemma crop_index p i j : prof_ok p -> (0 <= i)%Z -> (i < j)%Z -> (j <= Z.of_nat (length (px p)))%Z ->
  (exists p', prof_crop_ind p i j = Ok p' /\ samples p' = map shown (slice (Z.to_nat i) (Z.to_nat j) (samples p)) /\ pux p' = pux p /\ puy p' = puy p) /\
  (exists p', pstep p (PCropInd i j) = (p', None) /\ samples p' = slice (Z.to_nat i) (Z.to_nat j) (samples p)).
Proof.
  intros OK H1 H2 H3. pose proof (ok_lengths p OK) as (L1 & L2 & S).
  assert (E : crop_data_ind p i j = Ok (slice (Z.to_nat i) (Z.to_nat j) (px p), slice (Z.to_nat i) (Z.to_nat j) (yv p), slice (Z.to_nat i) (Z.to_nat j) (pm p))).
  { unfold crop_data_ind. assert ((j <=? i)%Z = false) as -> by (apply Z.leb_gt; lia). rewrite (aligned_ok p OK). cbn [guard negb].
    assert ((i <? 0)%Z = false) as -> by (apply Z.ltb_ge; lia). assert ((j <? 0)%Z = false) as -> by (apply Z.ltb_ge; lia).
    assert ((Z.of_nat (length (px p)) <? i)%Z = false) as -> by (apply Z.ltb_ge; lia). assert ((Z.of_nat (length (px p)) <? j)%Z = false) as -> by (apply Z.ltb_ge; lia). reflexivity. }
  split.
  - unfold prof_crop_ind, prof_crop_with. rewrite E. cbn [bind].
    match goal with |- context [prof_new ?x ?y (Some ?m) ?u ?w] => destruct (new_lemma x y (Some m) u w) as (p' & N1 & N2 & N3 & N4 & _ & N5) end.
    { rewrite !slice_length, L1. reflexivity. } { rewrite !slice_length, L2. reflexivity. }
    exists p'. split; [exact N1|]. destruct (N5 (nondecreasing_slice _ _ _ S)) as [_ N6]. rewrite N6. split; [|auto].
    unfold samples, zip3. rewrite slice_combine by lia. rewrite slice_combine by (rewrite combine_length; lia). reflexivity.
  - pose proof (step_lemma p (PCropInd i j) OK I I) as H. destruct (pstep p (PCropInd i j)) as [p' e] eqn:F. destruct H as [_ H]. exists p'.
    assert (e = None) as ->. { cbn [pstep] in F. rewrite E in F.
      match type of F with crop_in_with _ (Ok (?a, ?b, ?c)) = _ => destruct (crop_in_spec p a b c) as (q & Q & _) end.
      { rewrite !slice_length, L1. reflexivity. } { rewrite !slice_length, L2. reflexivity. } { now apply nondecreasing_slice. }
      { rewrite nan_at_slice by lia. unfold yv at 1. now rewrite nan_at_idem. } congruence. }
    split; [reflexivity|exact H].
Qed.
Lemma crop_index_err p i j : prof_ok p -> (j <= i)%Z \/ (i < 0)%Z \/ (j < 0)%Z \/ (Z.of_nat (length (px p)) < i)%Z \/ (Z.of_nat (length (px p)) < j)%Z ->
  prof_crop_ind p i j = Err ValueErr.
Proof.
  intros OK H. unfold prof_crop_ind, prof_crop_with, crop_data_ind. rewrite (aligned_ok p OK).
  destruct (Z.leb_spec j i); [reflexivity|]. cbn [guard negb].
  destruct (Z.ltb_spec i 0); [reflexivity|]. destruct (Z.ltb_spec j 0); [reflexivity|]. destruct (Z.ltb_spec (Z.of_nat (length (px p))) i); [reflexivity|].
  destruct (Z.ltb_spec (Z.of_nat (length (px p))) j); [reflexivity|]. lia.
Qed.

(** ** C24: interpolation *)
Lemma filter_unique (f : nat -> bool) k n : k < n -> f k = true -> (forall j, j < n -> f j = true -> j = k) -> filter f (seq 0 n) = [k].
Proof.
  intros Hk Fk U. replace n with (k + (1 + (n - k - 1))) by lia. rewrite seq_app, filter_app. simpl seq. cbn [filter]. rewrite Fk.
  assert (N : forall l, (forall j, In j l -> f j = false) -> filter f l = []).
  { induction l as [|j l IH]; intro H; [reflexivity|]. simpl. rewrite (H j (or_introl eq_refl)). apply IH. intros i Hi. apply H. now right. }
  rewrite !N; [reflexivity| |]; intros j Hj; apply in_seq in Hj; destruct (f j) eqn:E; auto; apply U in E; lia.
Qed.
Lemma nth_some (l : list num) i : i < length l -> nth i (map Some l) None = Some (nths l i).
Proof. intro H. rewrite (nth_indep _ None (Some (qz 0))) by (now rewrite map_length). apply (map_nth Some). Qed.
Lemma keep_unique {A B} (d : B) (f : A -> bool) (da : A) l (m : list B) k : length m = length l -> k < length l -> f (nth k l da) = true ->
  (forall j, j < length l -> f (nth j l da) = true -> j = k) -> keep (map f l) m = [nth k m d].
Proof.
  revert m k; induction l as [|x l IH]; intros [|y m] k E Hk Fk U; simpl in *; try lia.
  destruct k as [|k].
  - rewrite Fk. f_equal.
    assert (N : forall j, j < length l -> f (nth j l da) = false) by (intros j Hj; destruct (f (nth j l da)) eqn:G; [|reflexivity]; specialize (U (S j) ltac:(lia) G); lia).
    clear - N. revert m. induction l as [|z l IH]; intros [|w m]; try reflexivity; simpl; rewrite (N 0 ltac:(simpl; lia) : f z = false).
    apply IH. intros j Hj. apply (N (S j)). simpl. lia.
  - destruct (f x) eqn:G; [specialize (U 0 ltac:(lia) G); lia|]. apply IH; [lia|lia|exact Fk|]. intros j Hj Q. specialize (U (S j) ltac:(lia) Q). lia.
Qed.
Lemma interp_node p i : prof_ok p -> increasing (px p) -> i < length (px p) -> interp_x p (nths (px p) i) = [nth i (yv p) None].
Proof.
  intros OK Hi Hl. pose proof (ok_lengths p OK) as (L1 & L2 & _). unfold interp_x, interp_list.
  assert (existsb (fun a => oeqv a (nths (px p) i)) (map Some (px p)) = true) as ->.
  { apply existsb_exists. exists (Some (nths (px p) i)). split; [apply in_map; now apply nths_in|]. simpl. apply qeqb_refl. }
  apply (keep_unique None (fun a => oeqv a (nths (px p) i)) None).
  - now rewrite map_length.
  - now rewrite map_length.
  - rewrite nth_some by exact Hl. simpl. apply qeqb_refl.
  - intros j Hj. rewrite map_length in Hj. rewrite nth_some by exact Hj. simpl. intro E. apply qeqb_eq in E. now apply (increasing_inj (px p)).
Qed.
Lemma interp_no_node p v : (forall i, i < length (px p) -> nths (px p) i <> v) -> existsb (fun a => oeqv a v) (map Some (px p)) = false.
Proof.
  intro H. apply not_true_iff_false. rewrite existsb_exists. intros (a & Ha & E). apply in_map_iff in Ha. destruct Ha as (x & <- & Hx).
  simpl in E. apply qeqb_eq in E. apply In_nth with (d := qz 0) in Hx. destruct Hx as (i & Hi & F). apply (H i Hi). change (nths (px p) i = x) in F. congruence.
Qed.
Lemma interp_between p i v : prof_ok p -> increasing (px p) -> S i < length (px p) -> (nths (px p) i < v < nths (px p) (S i))%num ->
  interp_x p v = [match nth i (yv p) None, nth (S i) (yv p) None with
                  | Some a, Some b => Some ((a * (nths (px p) (S i) - v) + b * (v - nths (px p) i)) / (nths (px p) (S i) - nths (px p) i))%num
                  | _, _ => None end].
Proof.
  intros OK Hi Hl [V1 V2]. unfold interp_x, interp_list. rewrite map_length.
  rewrite interp_no_node.
  2:{ intros j Hj E. subst v. apply increasing_lt_inv in V1; [|exact Hi|lia|lia]. apply increasing_lt_inv in V2; [|exact Hi|lia|lia]. lia. }
  rewrite (filter_unique _ i).
  - cbn [map]. f_equal. unfold between. rewrite !nth_some by lia. destruct (nth i (yv p) None) as [a|]; [|reflexivity]. destruct (nth (S i) (yv p) None) as [b|]; [|reflexivity].
    f_equal. destruct (qabs_spec (nths (px p) (S i) - v)) as [[C1 ->]|[C1 ->]]; [|exfalso; qlra].
    destruct (qabs_spec (nths (px p) i - v)) as [[C2 ->]|[C2 ->]]; [exfalso; qlra|].
    destruct (qabs_spec (nths (px p) i - nths (px p) (S i))) as [[C3 ->]|[C3 ->]]; [exfalso; qlra|].
    f_equal; qring.
  - lia.
  - unfold cross. rewrite !nth_some by lia. simpl. apply orb_true_iff. right. apply andb_true_iff. split; [apply qleb_le; qlra|now apply qltb_lt].
  - intros j Hj C. unfold cross in C. rewrite !nth_some in C by lia. simpl in C. apply orb_true_iff in C.
    pose proof (Hi j (S j) ltac:(lia) ltac:(lia)) as M.
    destruct C as [C|C]; apply andb_true_iff in C; destruct C as [C1 C2]; apply qleb_le in C1; apply qltb_lt in C2; [exfalso; qlra|].
    assert (X1 : (nths (px p) j < nths (px p) (S i))%num) by qlra. assert (X2 : (nths (px p) i < nths (px p) (S j))%num) by qlra.
    apply increasing_lt_inv in X1; [|exact Hi|lia|lia]. apply increasing_lt_inv in X2; [|exact Hi|lia|lia]. lia.
Qed.
Lemma interp_bound x0 x1 a b v : (x0 < v < x1)%num -> interpolates x0 a x1 b v ((a * (x1 - v) + b * (v - x0)) / (x1 - x0))%num.
Proof.
  intros [H1 H2]. assert (P : (0 < x1 - x0)%num) by qlra. set (r := ((a * (x1 - v) + b * (v - x0)) / (x1 - x0))%num).
  assert (E : (r * (x1 - x0) = a * (x1 - v) + b * (v - x0))%num) by (unfold r; apply qdiv_mul; now apply qgt_neq).
  clearbody r. split; [exact E|]. split.
  - destruct (qmin_spec a b) as [[M ->]|[M ->]]; [destruct (qltb_spec r a) as [Q|Q]|destruct (qltb_spec r b) as [Q|Q]]; auto; exfalso; qnra.
  - destruct (qmax_spec a b) as [[M ->]|[M ->]]; [destruct (qltb_spec b r) as [Q|Q]|destruct (qltb_spec a r) as [Q|Q]]; auto; exfalso; qnra.
Qed.
Lemma interp_outside p v : prof_ok p -> increasing (px p) -> (forall x, In x (px p) -> (v < x)%num) \/ (forall x, In x (px p) -> (x < v)%num) -> interp_x p v = [].
Proof.
  intros OK Hi H. unfold interp_x, interp_list. rewrite map_length. rewrite interp_no_node.
  2:{ intros i Hl E. destruct H as [H|H]; specialize (H _ (nths_in _ i Hl)); qlra. }
  replace (filter _ _) with (@nil nat); [reflexivity|]. symmetry.
  assert (N : forall l, (forall j, In j l -> cross (map Some (px p)) v j = false) -> filter (cross (map Some (px p)) v) l = []).
  { induction l as [|j l IH]; intro Q; [reflexivity|]. simpl. rewrite (Q j (or_introl eq_refl)). apply IH. intros k Hk. apply Q. now right. }
  apply N. intros j Hj. apply in_seq in Hj. unfold cross. rewrite !nth_some by lia. simpl.
  destruct H as [H|H]; pose proof (H _ (nths_in (px p) j ltac:(lia))); pose proof (H _ (nths_in (px p) (S j) ltac:(lia))).
  - assert (qltb (nths (px p) (S j)) v = false) as -> by (apply qltb_ge; qlra). assert (qleb (nths (px p) j) v = false) as -> by (apply qleb_gt; qlra). now rewrite andb_false_r.
  - assert (qltb v (nths (px p) (S j)) = false) as -> by (apply qltb_ge; qlra). assert (qleb v (nths (px p) j) = false) as -> by (apply qleb_gt; qlra). now rewrite andb_false_r.
Qed.
