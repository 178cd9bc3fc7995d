(** * AsciiProofs2: the import of scalar fields. *)
From Coq Require Import Lia Permutation.
From Verif Require Import Num Res ListLib SortLib Arr FieldModel ScalarFieldModel VectorFieldModel FieldSpec ProfileModel PointsModel AsciiModel AsciiSpec.
From Verif Require Import RotateProofs FieldProofs FieldProofs2 GradProofs2 PodProofs AsciiProofs.

Definition sf_body (x y : list num) (v : list onum) (u w z : unit_t) : res sfield :=
  let X := unique x in
  let Y := unique y in
  let* X1 := reshape (qz 0) (length X) (length Y) x in
  let* X2 := reshape (qz 0) (length Y) (length X) x in
  let* vm := (if allclose (mean1 X1) X then
                let* a := reshape None (length X) (length Y) v in
                Ok (a, amap isnan a)
              else if allclose (mean0 X2) X then
                let* a := reshape None (length Y) (length X) v in
                let a := aflip1 (atrans a) in
                Ok (a, amap isnan a)
              else
                let* s := sf_loop X Y (0, 0, afull (length Y) (length X) None) (combine (combine x y) v) in
                Ok (ma_data (snd s), ma_mask (snd s))) in
  sf_import X Y (fst vm) (Some (snd vm)) u w z.

Lemma import_sf_read f n xc yc vc l u w z :
  lists (gives1 xc yc vc) f l -> regular f n -> 2 <= n -> 2 <= length l ->
  import_sf f xc yc vc u w z = sf_body (map (fun p => fst (fst p)) l) (map (fun p => snd (fst p)) l) (map snd l) u w z.
Proof.
  intros L R N2 L2. unfold import_sf.
  assert (Forall2 (gives1 xc yc vc) (rows_of f) l) as F.
  { apply rows_forall2; [|assumption]. intros r p [H _]. now apply cell_nonempty in H. }
  assert ((Nat.eqb xc 0 || Nat.eqb yc 0 || Nat.eqb vc 0)%bool = false) as ->.
  { destruct F as [|r p t l (H1 & H2 & H3) F]; [cbn in L2; lia|].
    apply cell_col in H1, H2, H3. now rewrite H1, H2, H3. }
  cbn [guard]. rewrite (genfromtxt_ok (gives1 xc yc vc)) with (l := l) (n := n); auto.
  2:{ intros r p [H _]. now apply cell_nonempty in H. }
  cbn [bind].
  rewrite (coords_ok _ _ l xc (fun p => fst (fst p)) F) by (intros ? ? H; apply H). cbn [bind]. cbv zeta.
  rewrite (coords_ok _ _ l yc (fun p => snd (fst p)) F) by (intros ? ? H; apply H). cbn [bind]. cbv zeta.
  rewrite (column_ok _ _ l vc snd F) by (intros ? ? H; apply H). cbn [bind]. reflexivity.
Qed.

(** ** Grids as lists *)
Lemma grid_length {A B C} (g : A -> B -> C) Y X : length (flat_map (fun x => map (g x) Y) X) = length X * length Y.
Proof. induction X; cbn; [reflexivity|]. now rewrite app_length, map_length, IHX. Qed.
Lemma grid_nth {A B C} (g : A -> B -> C) Y X i j x y : nth_error X i = Some x -> nth_error Y j = Some y ->
  nth_error (flat_map (fun x => map (g x) Y) X) (i * length Y + j) = Some (g x y).
Proof.
  revert i; induction X as [|a X IH]; intros [|i] Hi Hj; cbn in *; try discriminate.
  - injection Hi as ->. rewrite nth_error_app1 by (rewrite map_length; eapply nth_error_Some_lt; eauto).
    now rewrite nth_error_map, Hj.
  - rewrite nth_error_app2 by (rewrite map_length; lia). rewrite map_length.
    replace (length Y + i * length Y + j - length Y) with (i * length Y + j) by lia. now apply IH.
Qed.
Lemma grid_in {A B C} (g : A -> B -> C) Y X c : In c (flat_map (fun x => map (g x) Y) X) <-> exists x y, In x X /\ In y Y /\ c = g x y.
Proof.
  rewrite in_flat_map. split.
  - intros (x & Hx & H). apply in_map_iff in H. destruct H as (y & <- & Hy). now exists x, y.
  - intros (x & y & Hx & Hy & ->). exists x. split; [assumption|]. now apply in_map.
Qed.
Lemma split_index n m k : k < n * m -> exists i j, i < n /\ j < m /\ k = i * m + j.
Proof.
  intros H. destruct m as [|m]; [lia|]. exists (k / S m), (k mod S m).
  pose proof (Nat.div_mod k (S m)). pose proof (Nat.mod_upper_bound k (S m)).
  repeat split; [apply Nat.div_lt_upper_bound; lia|lia|lia].
Qed.

(** ** closeness *)
Lemma tol_pos b : (0 < tol b)%num.
Proof. unfold tol. pose proof (qabs_nonneg b). assert (0 < qq 1 100000000)%num by reflexivity. assert (0 < qq 1 100000)%num by reflexivity.
  pose proof (qmul_nonneg (qq 1 100000) (qabs b)). qlra. Qed.
Lemma close_refl a : close a a = true.
Proof.
  unfold close. apply qleb_le. replace (a - a)%num with 0%num by qring. pose proof (tol_pos a). unfold tol in *.
  replace (qabs 0) with 0%num by reflexivity. qlra.
Qed.
Lemma allclose_refl l : allclose l l = true.
Proof.
  unfold allclose. apply forallb_forall. intros [a b] H. cbn.
  assert (a = b) as ->; [|apply close_refl]. induction l; cbn in H; [tauto|]. destruct H as [[=]|H]; [congruence|auto].
Qed.
Lemma allclose_false a b i : length a = length b -> i < length b -> (tol (nths b i) < qabs (nths a i - nths b i))%num -> allclose a b = false.
Proof.
  intros L Hi H. apply not_true_is_false. intros K. unfold allclose in K. rewrite forallb_forall in K.
  specialize (K (nths a i, nths b i)). cbn in K. unfold close in K.
  assert (In (nths a i, nths b i) (combine a b)) as Hin.
  { rewrite <- combine_nth by assumption. apply nth_In. rewrite combine_length. lia. }
  apply K, qleb_le in Hin. fold (tol (nths b i)) in Hin. qlra.
Qed.
Lemma qmul_lt_inv' (a b k : num) : (0 < k)%num -> (a * k < b * k)%num -> (a < b)%num.
Proof. intros K H. destruct (qltb_spec a b) as [Q|Q]; [exact Q|]. apply (qmul_le_r _ _ k) in Q; [exfalso; qlra|now apply Qclt_le_weak]. Qed.
Lemma qsum_cons a l : Num.qsum (a :: l) = (a + Num.qsum l)%num.
Proof. reflexivity. Qed.
Lemma qsum_const {A} (c : num) (l : list A) : Num.qsum (map (fun _ => c) l) = (qn (length l) * c)%num.
Proof.
  induction l as [|a l IH]; [cbn; change (qn 0) with (qz 0); qring|]. cbn [map length].
  change (Num.qsum (c :: map (fun _ : A => c) l)) with (c + Num.qsum (map (fun _ : A => c) l))%num. rewrite IH, qn_S. qring.
Qed.
Lemma qn_pos' n : 0 < n -> (0 < qn n)%num.
Proof. intros H. change 0%num with (qz 0). apply (proj2 (qz_lt 0 (Z.of_nat n))). lia. Qed.

Lemma nth_map_seq {A} (d : A) (g : nat -> A) n i : i < n -> nth i (map g (seq 0 n)) d = g i.
Proof. intros H. rewrite nth_indep with (d' := g 0) by (rewrite map_length, seq_length; lia). rewrite map_nth, seq_nth by assumption. reflexivity. Qed.
Lemma qsum_const_ext (c : num) (g : nat -> num) m : (forall j, j < m -> g j = c) -> Num.qsum (map g (seq 0 m)) = (qn m * c)%num.
Proof.
  intros H. rewrite (map_ext_in g (fun _ => c)) by (intros j Hj; apply in_seq in Hj; apply H; lia).
  rewrite qsum_const, seq_length. reflexivity.
Qed.
Lemma mean_const (c : num) (g : nat -> num) m : 0 < m -> (forall j, j < m -> g j = c) -> (Num.qsum (map g (seq 0 m)) / qn m)%num = c.
Proof. intros Hm H. rewrite (qsum_const_ext c) by assumption. pose proof (qn_pos' m Hm). qfield. now apply qgt_neq. Qed.

(** the result of an import on a sorted grid *)
Definition sf_cells (g : sfield) (X Y : list num) (F : nat -> nat -> onum) (u w z : unit_t) : Prop :=
  sg g = mkgrid X Y u w /\ uv g = z /\ sf_wf g /\
  forall i j, i < length X -> j < length Y -> at_ (values g) i j = F i j /\ at_ (msk g) i j = isnan (F i j).

Lemma sf_import_cells X Y (v : arr onum) (m : arr bool) u w z (F : nat -> nat -> onum) : increasing X -> increasing Y -> 2 <= length X -> 2 <= length Y ->
  d0 v = length X -> d1 v = length Y -> d0 m = length X -> d1 m = length Y ->
  (forall i j, i < length X -> j < length Y -> (if at_ m i j then None else at_ v i j) = F i j /\ at_ m i j = isnan (F i j)) ->
  exists g, sf_import X Y v (Some m) u w z = Ok g /\ sf_cells g X Y F u w z.
Proof.
  intros IX IY LX LY V0 V1 M0 M1 H. rewrite sf_import_plain by assumption. eexists. split; [reflexivity|].
  split; [reflexivity|]. split; [reflexivity|]. split.
  { split; split; cbn; assumption. }
  intros i j Hi Hj. destruct (H i j Hi Hj) as [H1 H2]. cbn. rewrite H2 in *. rewrite <- H1.
  destruct (F i j) eqn:E; cbn in *.
  - rewrite H1. cbn. auto.
  - destruct (isnan (at_ v i j)); auto.
Qed.

Section Grid.
Variables (X Y : list num) (F : nat -> nat -> onum) (l : list (num * num * onum)).
Hypothesis IX : increasing X.
Hypothesis IY : increasing Y.
Hypothesis LX : 2 <= length X.
Hypothesis LY : 2 <= length Y.
Hypothesis Ll : length l = length X * length Y.
Let xs := map (fun p : num * num * onum => fst (fst p)) l.
Let ys := map (fun p : num * num * onum => snd (fst p)) l.

(** column after column *)
Lemma columns_cells u w z :
  (forall i j, i < length X -> j < length Y -> nth_error l (i * length Y + j) = Some (nths X i, nths Y j, F i j)) ->
  exists g, sf_body xs ys (map snd l) u w z = Ok g /\ sf_cells g X Y F u w z.
Proof using All.
  intros H.
  assert (forall i j, i < length X -> j < length Y -> nths xs (i * length Y + j) = nths X i /\ nths ys (i * length Y + j) = nths Y j
          /\ nth (i * length Y + j) (map snd l) None = F i j) as Hx.
  { intros i j Hi Hj. specialize (H i j Hi Hj). repeat split.
    - apply nth_error_nths. unfold xs. now rewrite nth_error_map, H.
    - apply nth_error_nths. unfold ys. now rewrite nth_error_map, H.
    - apply nth_error_nth. now rewrite nth_error_map, H. }
  assert (unique xs = X) as EX.
  { apply unique_is; [assumption|]. intros x. split.
    - intros Hi. destruct (In_nth_error _ _ Hi) as [i Ei]. pose proof (nth_error_Some_lt _ _ _ Ei) as Li.
      destruct (Hx i 0 Li) as [E _]; [lia|]. rewrite (nth_error_nths _ _ _ Ei) in E. rewrite <- E. apply nth_In. unfold xs. rewrite map_length.
      specialize (H i 0 Li). apply nth_error_Some_lt with (x := (nths X i, nths Y 0, F i 0)). apply H. lia.
    - intros Hi. unfold xs in Hi. apply in_map_iff in Hi. destruct Hi as (p & <- & Hp). destruct (In_nth_error _ _ Hp) as [k Ek].
      pose proof (nth_error_Some_lt _ _ _ Ek) as Lk. rewrite Ll in Lk. destruct (split_index _ _ _ Lk) as (i & j & Hi & Hj & ->).
      rewrite (H i j Hi Hj) in Ek. injection Ek as <-. apply nth_In. assumption. }
  assert (unique ys = Y) as EY.
  { apply unique_is; [assumption|]. intros y. split.
    - intros Hj. destruct (In_nth_error _ _ Hj) as [j Ej]. pose proof (nth_error_Some_lt _ _ _ Ej) as Lj.
      destruct (Hx 0 j) as (_ & E & _); [lia|lia|]. rewrite (nth_error_nths _ _ _ Ej) in E. rewrite <- E. apply nth_In. unfold ys. rewrite map_length.
      apply nth_error_Some_lt with (x := (nths X 0, nths Y j, F 0 j)). apply H; lia.
    - intros Hi. unfold ys in Hi. apply in_map_iff in Hi. destruct Hi as (p & <- & Hp). destruct (In_nth_error _ _ Hp) as [k Ek].
      pose proof (nth_error_Some_lt _ _ _ Ek) as Lk. rewrite Ll in Lk. destruct (split_index _ _ _ Lk) as (i & j & Hi & Hj & ->).
      rewrite (H i j Hi Hj) in Ek. injection Ek as <-. apply nth_In. assumption. }
  unfold sf_body. cbv zeta. rewrite EX, EY.
  assert (length xs = length X * length Y) as Lxs by (unfold xs; now rewrite map_length).
  unfold reshape at 1 2. rewrite Lxs, (Nat.mul_comm (length Y)), Nat.eqb_refl. cbn [negb guard bind].
  match goal with |- context [allclose (mean1 ?a) X] => assert (mean1 a = X) as -> end.
  { unfold mean1. cbn [d0 d1 at_]. apply nth_ext with (d := qz 0) (d' := qz 0); [now rewrite map_length, seq_length|].
    intros i Hi. rewrite map_length, seq_length in Hi. rewrite nth_map_seq by assumption.
    apply mean_const; [lia|]. intros j Hj. now destruct (Hx i j Hi Hj). }
  rewrite allclose_refl. unfold reshape. rewrite map_length, Ll, Nat.eqb_refl. cbn [negb guard bind fst snd].
  apply sf_import_cells; try assumption; try reflexivity. intros i j Hi Hj. cbn [at_ amap].
  destruct (Hx i j Hi Hj) as (_ & _ & ->). destruct (F i j); auto.
Qed.

(** line after line, the last line first *)
Lemma lines_cells u w z : apart X Y ->
  (forall i j, i < length X -> j < length Y -> nth_error l (j * length X + i) = Some (nths X i, nths Y (length Y - 1 - j), F i (length Y - 1 - j))) ->
  exists g, sf_body xs ys (map snd l) u w z = Ok g /\ sf_cells g X Y F u w z.
Proof using All.
  intros Ap H.
  assert (forall i j, i < length X -> j < length Y -> nths xs (j * length X + i) = nths X i /\ nths ys (j * length X + i) = nths Y (length Y - 1 - j)
          /\ nth (j * length X + i) (map snd l) None = F i (length Y - 1 - j)) as Hx.
  { intros i j Hi Hj. specialize (H i j Hi Hj). repeat split.
    - apply nth_error_nths. unfold xs. now rewrite nth_error_map, H.
    - apply nth_error_nths. unfold ys. now rewrite nth_error_map, H.
    - apply nth_error_nth. now rewrite nth_error_map, H. }
  assert (unique xs = X) as EX.
  { apply unique_is; [assumption|]. intros x. split.
    - intros Hi. destruct (In_nth_error _ _ Hi) as [i Ei]. pose proof (nth_error_Some_lt _ _ _ Ei) as Li.
      destruct (Hx i 0 Li) as [E _]; [lia|]. rewrite (nth_error_nths _ _ _ Ei) in E. rewrite <- E. apply nth_In. unfold xs. rewrite map_length.
      eapply nth_error_Some_lt. apply H; lia.
    - intros Hi. unfold xs in Hi. apply in_map_iff in Hi. destruct Hi as (p & <- & Hp). destruct (In_nth_error _ _ Hp) as [k Ek].
      pose proof (nth_error_Some_lt _ _ _ Ek) as Lk. rewrite Ll, Nat.mul_comm in Lk. destruct (split_index _ _ _ Lk) as (j & i & Hj & Hi & ->).
      rewrite (H i j Hi Hj) in Ek. injection Ek as <-. apply nth_In. assumption. }
  assert (unique ys = Y) as EY.
  { apply unique_is; [assumption|]. intros y. split.
    - intros Hj. destruct (In_nth_error _ _ Hj) as [j Ej]. pose proof (nth_error_Some_lt _ _ _ Ej) as Lj.
      destruct (Hx 0 (length Y - 1 - j)) as (_ & E & _); [lia|lia|]. replace (length Y - 1 - (length Y - 1 - j)) with j in E by lia.
      rewrite (nth_error_nths _ _ _ Ej) in E. rewrite <- E. apply nth_In. unfold ys. rewrite map_length.
      eapply nth_error_Some_lt. apply H; lia.
    - intros Hi. unfold ys in Hi. apply in_map_iff in Hi. destruct Hi as (p & <- & Hp). destruct (In_nth_error _ _ Hp) as [k Ek].
      pose proof (nth_error_Some_lt _ _ _ Ek) as Lk. rewrite Ll, Nat.mul_comm in Lk. destruct (split_index _ _ _ Lk) as (j & i & Hj & Hi & ->).
      rewrite (H i j Hi Hj) in Ek. injection Ek as <-. apply nth_In. cbn. lia. }
  unfold sf_body. cbv zeta. rewrite EX, EY.
  assert (length xs = length X * length Y) as Lxs by (unfold xs; now rewrite map_length).
  unfold reshape at 1 2. rewrite Lxs, (Nat.mul_comm (length Y)), Nat.eqb_refl. cbn [negb guard bind].
  match goal with |- context [allclose (mean1 ?a) X] => assert (allclose (mean1 a) X = false) as -> end.
  { apply allclose_false with (i := 0); [unfold mean1; cbn; now rewrite map_length, seq_length|lia|].
    unfold mean1. cbn [d0 d1 at_]. rewrite nth_map_seq by lia. cbn [Nat.mul Nat.add].
    assert (forall k, k < length xs -> (nths X 0 <= nths xs k)%num) as Ge.
    { intros k Hk. rewrite Lxs, Nat.mul_comm in Hk. destruct (split_index _ _ _ Hk) as (j & i & Hj & Hi & ->).
      destruct (Hx i j Hi Hj) as [-> _]. destruct i; [apply qle_refl|]. apply Qclt_le_weak, IX; lia. }
    assert (nths xs 1 = nths X 1) as E1 by (destruct (Hx 1 0) as [E _]; [lia|lia|exact E]).
    assert (forall n, n <= length xs -> 1 < n -> (qn n * nths X 0 + (nths X 1 - nths X 0) <= Num.qsum (map (fun j => nths xs j) (seq 0 n)))%num) as Sm.
    { assert (forall m s, s + m <= length xs -> (qn m * nths X 0 <= Num.qsum (map (fun j => nths xs j) (seq s m)))%num) as S0.
      { induction m as [|m IH]; intros s Hs; [change (qn 0) with (qz 0); cbn; qlra|].
        cbn [seq map]. rewrite qsum_cons. specialize (IH (S s)). rewrite qn_S.
        pose proof (Ge s). assert (nths X 0 <= nths xs s)%num by (apply Ge; lia).
        assert (qn m * nths X 0 <= Num.qsum (map (fun j => nths xs j) (seq (S s) m)))%num by (apply IH; lia). qlra. }
      intros n Hn Hn2. destruct n as [|[|n]]; [lia|lia|]. cbn [seq map].
      rewrite !qsum_cons, E1.
      assert (nths X 0 <= nths xs 0)%num by (apply Ge; lia). specialize (S0 n 2). rewrite !qn_S.
      assert (qn n * nths X 0 <= Num.qsum (map (fun j => nths xs j) (seq 2 n)))%num by (apply S0; lia). qlra. }
    assert (length Y <= length xs) as LYx by (rewrite Lxs; nia).
    specialize (Sm (length Y) LYx LY). unfold apart in Ap.
    pose proof (qn_pos' (length Y)) as Pn. assert (0 < qn (length Y))%num as Pq by (apply Pn; lia).
    set (S1 := Num.qsum _) in *. pose proof (qdiv_mul S1 (qn (length Y)) (qgt_neq _ _ Pq)) as Dm.
    set (M := (S1 / qn (length Y))%num) in *. clearbody M.
    assert (tol (nths X 0) < M - nths X 0)%num as Lt.
    { apply (qmul_lt_inv' _ _ (qn (length Y))); [assumption|]. rewrite <- Dm in Sm. qlra. }
    destruct (qabs_spec (M - nths X 0)); qlra. }
  match goal with |- context [allclose (mean0 ?a) X] => assert (mean0 a = X) as -> end.
  { unfold mean0. cbn [d0 d1 at_]. apply nth_ext with (d := qz 0) (d' := qz 0); [now rewrite map_length, seq_length|].
    intros i Hi. rewrite map_length, seq_length in Hi. rewrite nth_map_seq by assumption.
    apply mean_const; [lia|]. intros j Hj. now destruct (Hx i j Hi Hj). }
  rewrite allclose_refl. unfold reshape. rewrite map_length, Ll, (Nat.mul_comm (length Y)), Nat.eqb_refl. cbn [negb guard bind fst snd].
  apply sf_import_cells; try assumption; try reflexivity. intros i j Hi Hj. cbn [at_ amap aflip1 atrans d0 d1].
  destruct (Hx i (length Y - 1 - j) Hi) as (_ & _ & ->); [lia|]. replace (length Y - 1 - (length Y - 1 - j)) with j by lia.
  destruct (F i j); auto.
Qed.
End Grid.
