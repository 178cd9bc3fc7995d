From Verif Require Import Num Res ListLib Arr FieldModel ScalarFieldModel VectorFieldModel FieldSpec FieldProofs RotateProofs FieldProofs2.



Lemma sstep_sg f o : sg (sstep f o) = sg f.
Proof.
  unfold sstep. destruct o; unfold set_values, set_mask_bool, set_mask; try reflexivity;
  match goal with |- context [shape_is ?a ?b] => destruct (shape_is a b) end; reflexivity.
Qed.
Lemma sstep_grid f o : ax (sg (sstep f o)) = ax (sg f) /\ ay (sg (sstep f o)) = ay (sg f).
Proof. rewrite sstep_sg. auto. Qed.
Lemma shape_is_iff {A} (a : arr A) g : shape_is a g = true <-> has_shape a (length (ax g)) (length (ay g)).
Proof. unfold shape_is, has_shape. rewrite andb_true_iff, !Nat.eqb_eq. reflexivity. Qed.

Definition sinv (f : sfield) (w : arr onum) : Prop :=
  sf_wf f /\
  forall i j, cell_in f i j ->
    (at_ (values f) i j = None <-> at_ (msk f) i j = true) /\
    (at_ (msk f) i j = false -> at_ (values f) i j = at_ w i j).

Lemma sinv_step f w o : sinv f w -> never_reveals f [o] ->
  sinv (sstep f o) (last_assigned w (sg f) [o]).
Proof.
  intros [[[R0 R1] [M0 M1]] H] [N _]. destruct o as [v|m|b|]; cbn [last_assigned].
  - unfold sstep, set_values. destruct (shape_is v (sg f)) eqn:E.
    + apply shape_is_iff in E. destruct E as [V0 V1]. split; [repeat split; simpl; assumption|].
      intros i j [Hi Hj]. cbn [values at_ raw msk amap]. destruct (at_ v i j) as [q|]; simpl; split; split; congruence.
    + split; [repeat split; assumption|exact H].
  - unfold sstep, set_mask. destruct (shape_is m (sg f)) eqn:E.
    + specialize (N eq_refl). apply shape_is_iff in E. destruct E as [V0 V1]. split; [repeat split; simpl; assumption|].
      intros i j C. destruct (H i j C) as [H1 H2]. specialize (N i j C). cbn [values at_ raw msk] in *.
      destruct (at_ m i j) eqn:Em; [split; [split; auto|discriminate]|].
      destruct (at_ (msk f) i j) eqn:Ef; [exfalso; now specialize (N eq_refl)|].
      split; auto.
    + split; [repeat split; assumption|exact H].
  - unfold sstep, set_mask_bool, set_mask.
    assert (shape_is (afull (length (ax (sg f))) (length (ay (sg f))) b) (sg f) = true) as ->
      by (apply shape_is_iff; split; reflexivity).
    split; [repeat split; simpl; try assumption|].
    intros i j C. destruct (H i j C) as [H1 H2]. cbn [values at_ raw msk afull] in *.
    destruct b; [split; [split; auto|discriminate]|].
    destruct N as [N|N]; [discriminate|]. specialize (N i j C). rewrite N in *. split; auto.
  - unfold sstep, read_values. split; [repeat split; simpl; assumption|].
    intros i j C. destruct (H i j C) as [H1 H2]. cbn [values at_ raw msk] in *.
    destruct (at_ (msk f) i j); auto.
Qed.
Lemma sinv_run ops : forall f w, sinv f w -> never_reveals f ops ->
  sinv (fold_left sstep ops f) (last_assigned w (sg f) ops).
Proof.
  induction ops as [|o ops IH]; intros f w H N; [exact H|]. cbn [fold_left].
  destruct N as [N1 N2].
  pose proof (sinv_step f w o H (conj N1 I)) as S.
  specialize (IH _ _ S N2). rewrite sstep_sg in IH. destruct o; exact IH.
Qed.
Lemma mask_nan_always f ops i j :
  at_ (msk (fold_left sstep ops f)) i j = true -> at_ (values (fold_left sstep ops f)) i j = None.
Proof. intro H. cbn [values at_]. now rewrite H. Qed.

(** ** C14: addition on one grid *)
Lemma list_eqb_eq a b : list_eqb a b = true <-> a = b.
Proof. unfold list_eqb. destruct (list_eq_dec Qc_eq_dec a b); split; congruence. Qed.


Lemma oadd_phys k u w a b : (0 < sc u)%num -> (k * sc u = sc w)%num ->
  osum_phys (oadd a (oscale k b)) u a u b w.
Proof.
  intros G K. destruct a as [a|], b as [b|]; simpl; try reflexivity.
  eexists. split; [reflexivity|]. rewrite <- K. qring.
Qed.
Lemma osum_phys_fun v v' u a ua b ub : (0 < sc u)%num -> osum_phys v u a ua b ub -> osum_phys v' u a ua b ub -> v = v'.
Proof.
  intros G. destruct a as [a|], b as [b|]; simpl; try congruence.
  intros (z & -> & E) (z' & -> & E'). f_equal. rewrite <- E' in E.
  assert ((z * sc u / sc u = z' * sc u / sc u)%num) as Q by congruence. rewrite !qmul_div in Q by (now apply qgt_neq). exact Q.
Qed.

Lemma compat_guard f h : compatible f h ->
  negb (dim_eqb (dim (uv f)) (dim (uv h)) && dim_eqb (dim (ux (sg f))) (dim (ux (sg h)))
                             && dim_eqb (dim (uy (sg f))) (dim (uy (sg h))))%bool = false.
Proof. intros (-> & -> & ->). rewrite !(proj2 (dim_eqb_eq _ _) eq_refl). reflexivity. Qed.
Lemma compat_guard_not f h : ~ compatible f h ->
  negb (dim_eqb (dim (uv f)) (dim (uv h)) && dim_eqb (dim (ux (sg f))) (dim (ux (sg h)))
                             && dim_eqb (dim (uy (sg f))) (dim (uy (sg h))))%bool = true.
Proof.
  intro N. apply negb_true_iff, not_true_iff_false. rewrite !andb_true_iff, !dim_eqb_eq. unfold compatible in N. tauto.
Qed.

Lemma sf_add_incompatible f h : ~ compatible f h -> sf_add f h = Err ValueErr.
Proof. intro N. unfold sf_add. rewrite compat_guard_not by exact N. reflexivity. Qed.

Lemma sf_add_same_lemma f h : compatible f h -> good_unit (uv f) -> increasing (ax (sg f)) -> increasing (ay (sg f)) ->
  ax (sg f) = ax (sg h) -> ay (sg f) = ay (sg h) -> sf_wf f ->
  exists s, sf_add f h = Ok s /\ sg s = sg f /\ uv s = uv f /\ sf_wf s /\
    forall x y v m, sf_shows s x y v m <->
      exists v1 m1 v2 m2, sf_shows f x y v1 m1 /\ sf_shows h x y v2 m2 /\ m = orb m1 m2 /\
        osum_phys v (uv f) v1 (uv f) v2 (uv h).
Proof.
  intros C G IX IY Ex Ey [[R0 R1] [M0 M1]]. unfold sf_add. rewrite compat_guard by exact C. cbn [guard].
  destruct C as (C1 & C2 & C3). destruct (conv_spec (uv h) (uv f) G) as [K _]. destruct (K (eq_sym C1)) as (k & Ek & Kk).
  rewrite Ek. cbn [bind]. rewrite (proj2 (list_eqb_eq _ _) Ex), (proj2 (list_eqb_eq _ _) Ey). cbn [andb].
  eexists. split; [reflexivity|]. split; [reflexivity|]. split; [reflexivity|].
  split; [repeat split; simpl; assumption|].
  intros x y v m. unfold sf_shows. cbn [sg]. split.
  - intros (i & j & H1 & H2 & H3 & H4).
    exists (at_ (values f) i j), (at_ (msk f) i j), (at_ (values h) i j), (at_ (msk h) i j).
    split; [exists i, j; auto|]. split; [exists i, j; rewrite <- Ex, <- Ey; auto|].
    split; [rewrite <- H4; reflexivity|]. rewrite <- H3.
    cbn [values at_ msk raw amap2 amap]. destruct (at_ (msk f) i j), (at_ (msk h) i j); cbn [orb];
      try (destruct (at_ (raw f) i j)); try reflexivity; apply (oadd_phys k); assumption.
  - intros (v1 & m1 & v2 & m2 & (i & j & H1 & H2 & H3 & H4) & (i' & j' & K1 & K2 & K3 & K4) & E & P).
    rewrite <- Ex in K1. rewrite <- Ey in K2.
    assert (i' = i).
    { pose proof (nth_error_Some_lt _ _ _ H1). pose proof (nth_error_Some_lt _ _ _ K1).
      apply nth_error_nths in H1, K1. apply (increasing_inj (ax (sg f))); auto. congruence. }
    assert (j' = j).
    { pose proof (nth_error_Some_lt _ _ _ H2). pose proof (nth_error_Some_lt _ _ _ K2).
      apply nth_error_nths in H2, K2. apply (increasing_inj (ay (sg f))); auto. congruence. }
    subst i' j'. exists i, j. repeat split; auto.
    + cbn [values at_ msk raw amap2 amap] in *. subst v1 v2.
      destruct (at_ (msk f) i j), (at_ (msk h) i j); cbn [orb] in *; try (symmetry; exact P).
      * destruct (at_ (raw f) i j); symmetry; exact P.
      * eapply osum_phys_fun; [exact G| |exact P]. apply (oadd_phys k); assumption.
    + cbn [msk amap2 at_]. congruence.
Qed.

(** ** C15: different grids *)
Lemma memq_In v l : memq v l = true <-> In v l.
Proof.
  unfold memq. rewrite existsb_exists. split.
  - intros (x & Hx & E). apply qeqb_eq in E. now subst.
  - intro H. exists v. split; [exact H|]. apply qeqb_refl.
Qed.
Lemma in_where_in a b i : In i (where_in a b) <-> i < length a /\ In (nths a i) b.
Proof. unfold where_in. rewrite filter_In, in_seq, memq_In. intuition lia. Qed.
Fixpoint incr_nat (l : list nat) : Prop := match l with [] => True | x :: r => (forall y, In y r -> x < y) /\ incr_nat r end.
Lemma incr_filter_seq p n : forall a, incr_nat (filter p (seq a n)).
Proof.
  induction n as [|n IH]; intro a; [exact I|]. cbn [seq filter].
  destruct (p a); [|apply IH]. split; [|apply IH]. intros y Hy. apply filter_In in Hy. destruct Hy as [Hy _]. apply in_seq in Hy. lia.
Qed.
Lemma increasing_sel a ix : increasing a -> incr_nat ix -> (forall i, In i ix -> i < length a) ->
  increasing (map (fun i => nths a i) ix).
Proof.
  intros Ha. induction ix as [|x r IH]; intros H B; [intros i j Hij Hj; simpl in Hj; lia|].
  destruct H as [H1 H2]. cbn [map]. apply increasing_cons. split.
  - apply IH; auto. intros i Hi. apply B. now right.
  - intros y Hy. apply in_map_iff in Hy. destruct Hy as (i & <- & Hi). apply Ha; [now apply H1|]. apply B. now right.
Qed.
Lemma where_in_coords a b : increasing a -> increasing (map (fun i => nths a i) (where_in a b)) /\
  forall x, In x (map (fun i => nths a i) (where_in a b)) <-> In x a /\ In x b.
Proof.
  intro Ha. split.
  - apply increasing_sel; auto; [apply incr_filter_seq|]. intros i Hi. now apply in_where_in in Hi.
  - intro x. rewrite in_map_iff. split.
    + intros (i & <- & Hi). apply in_where_in in Hi. split; [|tauto]. apply nth_In. tauto.
    + intros [H1 H2]. apply In_nth_error in H1. destruct H1 as [i Hi]. exists i.
      pose proof (nth_error_Some_lt _ _ _ Hi). apply nth_error_nths in Hi. split; [exact Hi|].
      apply in_where_in. rewrite Hi. auto.
Qed.
Lemma where_in_sym a b : increasing a -> increasing b ->
  map (fun i => nths a i) (where_in a b) = map (fun i => nths b i) (where_in b a).
Proof.
  intros Ha Hb. destruct (where_in_coords a b Ha) as [S1 C1], (where_in_coords b a Hb) as [S2 C2].
  apply increasing_ext; auto. intro x. rewrite C1, C2. tauto.
Qed.
Lemma where_in_length a b : increasing a -> increasing b -> length (where_in a b) = length (where_in b a).
Proof.
  intros Ha Hb. pose proof (where_in_sym a b Ha Hb) as E. apply (f_equal (@length num)) in E.
  now rewrite !map_length in E.
Qed.
Lemma nths_sel a ix k : k < length ix -> nths (map (fun i => nths a i) ix) k = nths a (nth k ix 0).
Proof.
  intro H. rewrite (nth_indep _ (qz 0) (nths a 0)) by (rewrite map_length; exact H).
  rewrite (map_nth (fun i => nths a i)). reflexivity.
Qed.

Lemma common_nil a b : increasing a -> (where_in a b = [] <-> forall x, In x a -> ~ In x b).
Proof.
  intro Ha. destruct (where_in_coords a b Ha) as [_ C]. split.
  - intros E x H1 H2. rewrite E in C. apply (C x). auto.
  - intro H. destruct (where_in a b) as [|i r] eqn:E; [reflexivity|]. exfalso.
    assert (In i (where_in a b)) as Hi by (rewrite E; now left). apply in_where_in in Hi. destruct Hi as [Hi1 Hi2].
    apply (H (nths a i)); [now apply nth_In|exact Hi2].
Qed.

Lemma sf_add_diff_err f h : compatible f h -> good_unit (uv f) -> grid_sorted (sg f) -> grid_sorted (sg h) ->
  (ax (sg f) <> ax (sg h) \/ ay (sg f) <> ay (sg h)) ->
  ((forall x, In x (ax (sg f)) -> ~ In x (ax (sg h))) \/ (forall y, In y (ay (sg f)) -> ~ In y (ay (sg h)))) ->
  sf_add f h = Err ValueErr.
Proof.
  intros C G [SX SY] [TX TY] D N. unfold sf_add. rewrite compat_guard by exact C. cbn [guard].
  destruct C as (C1 & C2 & C3). destruct (conv_spec (uv h) (uv f) G) as [K _]. destruct (K (eq_sym C1)) as (k & Ek & Kk).
  rewrite Ek. cbn [bind].
  assert ((list_eqb (ax (sg f)) (ax (sg h)) && list_eqb (ay (sg f)) (ay (sg h)))%bool = false) as ->.
  { apply not_true_iff_false. rewrite andb_true_iff, !list_eqb_eq. tauto. }
  destruct N as [N|N]; apply common_nil in N; auto; rewrite N.
  - reflexivity.
  - destruct (where_in (ax (sg f)) (ax (sg h))); reflexivity.
Qed.

Lemma sf_add_diff_lemma f h : compatible f h -> good_unit (uv f) -> grid_sorted (sg f) -> grid_sorted (sg h) ->
  (ax (sg f) <> ax (sg h) \/ ay (sg f) <> ay (sg h)) ->
  2 <= length (filter (fun x => memq x (ax (sg h))) (ax (sg f))) ->
  2 <= length (filter (fun y => memq y (ay (sg h))) (ay (sg f))) ->
  exists s, sf_add f h = Ok s /\ uv s = uv f /\ ux (sg s) = ux (sg f) /\ uy (sg s) = uy (sg f) /\ sf_wf s /\ grid_sorted (sg s) /\
    (forall x, In x (ax (sg s)) <-> In x (ax (sg f)) /\ In x (ax (sg h))) /\
    (forall y, In y (ay (sg s)) <-> In y (ay (sg f)) /\ In y (ay (sg h))) /\
    (sf_clean f -> sf_clean h ->
     forall x y v m, sf_shows s x y v m <->
      exists v1 m1 v2 m2, sf_shows f x y v1 m1 /\ sf_shows h x y v2 m2 /\ m = orb m1 m2 /\
        osum_phys v (uv f) v1 (uv f) v2 (uv h)).
Proof.
  intros C G [SX SY] [TX TY] D LX LY. unfold sf_add. rewrite compat_guard by exact C. cbn [guard].
  destruct C as (C1 & C2 & C3). destruct (conv_spec (uv h) (uv f) G) as [K _]. destruct (K (eq_sym C1)) as (k & Ek & Kk).
  rewrite Ek. cbn [bind].
  assert ((list_eqb (ax (sg f)) (ax (sg h)) && list_eqb (ay (sg f)) (ay (sg h)))%bool = false) as ->.
  { apply not_true_iff_false. rewrite andb_true_iff, !list_eqb_eq. tauto. }
  assert (LEN : forall a b, increasing a -> length (filter (fun x => memq x b) a) = length (where_in a b)).
  { intros a b Ha. transitivity (length (map (fun i => nths a i) (where_in a b))); [|apply map_length].
    f_equal. apply increasing_ext.
    - assert (forall l, increasing l -> increasing (filter (fun x => memq x b) l)) as F; [|now apply F].
      induction l as [|x l IH]; intro Hl; [exact Hl|]. apply increasing_cons in Hl. destruct Hl as [Hl1 Hl2].
      cbn [filter]. destruct (memq x b); [|now apply IH]. apply increasing_cons. split; [now apply IH|].
      intros y Hy. apply filter_In in Hy. now apply Hl2.
    - now apply where_in_coords.
    - intro x. rewrite filter_In, memq_In. symmetry. now apply where_in_coords. }
  rewrite LEN in LX, LY by assumption.
  set (ix := where_in (ax (sg f)) (ax (sg h))) in *. set (iy := where_in (ay (sg f)) (ay (sg h))) in *.
  set (jx := where_in (ax (sg h)) (ax (sg f))) in *. set (jy := where_in (ay (sg h)) (ay (sg f))) in *.
  assert ((match ix with [] => true | _ => false end || match iy with [] => true | _ => false end)%bool = false) as ->.
  { destruct ix, iy; simpl in LX, LY; try lia; reflexivity. }
  assert (Lx : length ix = length jx) by (now apply where_in_length).
  assert (Ly : length iy = length jy) by (now apply where_in_length).
  assert (negb (Nat.eqb (length ix) (length jx) && Nat.eqb (length iy) (length jy))%bool = false) as ->.
  { rewrite Lx, Ly, !Nat.eqb_refl. reflexivity. }
  cbn [guard].
  destruct (where_in_coords (ax (sg f)) (ax (sg h)) SX) as [IX CX]. fold ix in IX, CX.
  destruct (where_in_coords (ay (sg f)) (ay (sg h)) SY) as [IY CY]. fold iy in IY, CY.
  rewrite sf_import_plain; try assumption; rewrite ?map_length; try assumption; try reflexivity.
  eexists. split; [reflexivity|]. cbn [sg ux uy uv ax ay].
  split; [reflexivity|]. split; [reflexivity|]. split; [reflexivity|].
  split; [repeat split; simpl; now rewrite map_length|].
  split; [split; assumption|].
  split; [exact CX|]. split; [exact CY|].
  intros Cf Ch.
  assert (AX : forall a, a < length ix -> nths (ax (sg f)) (nth a ix 0) = nths (ax (sg h)) (nth a jx 0)).
  { intros a Ha. rewrite <- !nths_sel by lia. unfold ix, jx. now rewrite where_in_sym. }
  assert (AY : forall a, a < length iy -> nths (ay (sg f)) (nth a iy 0) = nths (ay (sg h)) (nth a jy 0)).
  { intros a Ha. rewrite <- !nths_sel by lia. unfold iy, jy. now rewrite where_in_sym. }
  assert (BX : forall a, a < length ix -> nth a ix 0 < length (ax (sg f)) /\ nth a jx 0 < length (ax (sg h))).
  { intros a Ha. split; [apply (in_where_in _ (ax (sg h)))|apply (in_where_in _ (ax (sg f)))]; apply nth_In; fold ix jx; lia. }
  assert (BY : forall a, a < length iy -> nth a iy 0 < length (ay (sg f)) /\ nth a jy 0 < length (ay (sg h))).
  { intros a Ha. split; [apply (in_where_in _ (ay (sg h)))|apply (in_where_in _ (ay (sg f)))]; apply nth_In; fold iy jy; lia. }
  assert (CELL : forall a b v m, a < length ix -> b < length iy ->
     let i := nth a ix 0 in let j := nth b iy 0 in let i' := nth a jx 0 in let j' := nth b jy 0 in
     let w := oadd (at_ (values f) i j) (oscale k (at_ (values h) i' j')) in
     let mm := orb (orb (at_ (msk f) i j) (at_ (msk h) i' j')) (isnan w) in
     mm = orb (at_ (msk f) i j) (at_ (msk h) i' j') /\ (v = (if mm then None else w) /\ m = mm <-> (v = w /\ m = orb (at_ (msk f) i j) (at_ (msk h) i' j')))).
  { intros a b v m Ha Hb i j i' j' w mm.
    destruct (BX a Ha) as [B1 B2], (BY b Hb) as [B3 B4].
    assert (isnan (at_ (values f) i j) = at_ (msk f) i j) as N1.
    { apply clean_isnan. apply (Cf (nths (ax (sg f)) i) (nths (ay (sg f)) j)). exists i, j. repeat split; now apply nths_nth_error. }
    assert (isnan (at_ (values h) i' j') = at_ (msk h) i' j') as N2.
    { apply clean_isnan. apply (Ch (nths (ax (sg h)) i') (nths (ay (sg h)) j')). exists i', j'. repeat split; now apply nths_nth_error. }
    assert (isnan w = orb (at_ (msk f) i j) (at_ (msk h) i' j')) as Nw.
    { unfold w. rewrite <- N1, <- N2. destruct (at_ (values f) i j), (at_ (values h) i' j'); reflexivity. }
    assert (mm = orb (at_ (msk f) i j) (at_ (msk h) i' j')) as Em.
    { unfold mm. rewrite Nw. now destruct (at_ (msk f) i j), (at_ (msk h) i' j'). }
    split; [exact Em|]. rewrite Em. rewrite <- Nw. destruct w; simpl; tauto. }
  intros x y v m. split.
  - intros (a & b & H1 & H2 & H3 & H4). cbn [sg ax ay values msk raw amap2 amap asel at_ d0 d1] in H1, H2, H3, H4.
    pose proof (nth_error_Some_lt _ _ _ H1) as La. pose proof (nth_error_Some_lt _ _ _ H2) as Lb.
    rewrite map_length in La, Lb. apply nth_error_nths in H1, H2. rewrite nths_sel in H1, H2 by assumption.
    destruct (BX a La) as [B1 B2], (BY b Lb) as [B3 B4].
    destruct (CELL a b v m La Lb) as [_ [E _]]. cbn [values at_] in E. destruct E as [E1 E2]; [split; symmetry; assumption|].
    exists (at_ (values f) (nth a ix 0) (nth b iy 0)), (at_ (msk f) (nth a ix 0) (nth b iy 0)),
           (at_ (values h) (nth a jx 0) (nth b jy 0)), (at_ (msk h) (nth a jx 0) (nth b jy 0)).
    split; [exists (nth a ix 0), (nth b iy 0); repeat split; rewrite nths_nth_error by assumption; congruence|].
    split; [exists (nth a jx 0), (nth b jy 0); repeat split; rewrite nths_nth_error by assumption; rewrite <- ?AX, <- ?AY by assumption; congruence|].
    split; [exact E2|]. rewrite E1. apply oadd_phys; assumption.
  - intros (v1 & m1 & v2 & m2 & (i & j & H1 & H2 & H3 & H4) & (i' & j' & K1 & K2 & K3 & K4) & E & P).
    assert (exists a, a < length ix /\ nth a ix 0 = i /\ nth a jx 0 = i') as (a & La & Ea & Ea').
    { assert (In i ix) as Hi.
      { apply in_where_in. split; [eapply nth_error_Some_lt; eauto|]. rewrite (nth_error_nths _ _ _ H1). eapply nth_error_In; eauto. }
      apply (In_nth _ _ 0) in Hi. destruct Hi as (a & La & Ea). exists a. repeat split; auto.
      apply (increasing_inj (ax (sg h)) _ _ TX); [now apply BX|eapply nth_error_Some_lt; eauto|].
      rewrite <- AX by exact La. rewrite Ea. rewrite (nth_error_nths _ _ _ H1), (nth_error_nths _ _ _ K1). reflexivity. }
    assert (exists b, b < length iy /\ nth b iy 0 = j /\ nth b jy 0 = j') as (b & Lb & Eb & Eb').
    { assert (In j iy) as Hi.
      { apply in_where_in. split; [eapply nth_error_Some_lt; eauto|]. rewrite (nth_error_nths _ _ _ H2). eapply nth_error_In; eauto. }
      apply (In_nth _ _ 0) in Hi. destruct Hi as (b & Lb & Eb). exists b. repeat split; auto.
      apply (increasing_inj (ay (sg h)) _ _ TY); [now apply BY|eapply nth_error_Some_lt; eauto|].
      rewrite <- AY by exact Lb. rewrite Eb. rewrite (nth_error_nths _ _ _ H2), (nth_error_nths _ _ _ K2). reflexivity. }
    assert (v = oadd v1 (oscale k v2)) as Ev.
    { eapply osum_phys_fun; [exact G|exact P|]. apply (oadd_phys k); assumption. }
    destruct (CELL a b v m La Lb) as [_ [_ E']].
    destruct E' as [E1 E2]; [rewrite Ea, Ea', Eb, Eb', H3, H4, K3, K4; auto|].
    exists a, b. cbn [sg ax ay].
    split; [rewrite nth_error_map, (nth_error_nth' ix 0 La), Ea; simpl; f_equal; now apply nth_error_nths|].
    split; [rewrite nth_error_map, (nth_error_nth' iy 0 Lb), Eb; simpl; f_equal; now apply nth_error_nths|].
    cbn [values msk raw amap2 amap asel at_ d0 d1] in *. split; symmetry; assumption.
Qed.

(** commutativity, for every pair of grids where both sums exist *)
Lemma sf_add_comm f h s t : compatible f h -> good_unit (uv f) -> good_unit (uv h) ->
  increasing (ax (sg f)) -> increasing (ay (sg f)) ->
  ax (sg f) = ax (sg h) -> ay (sg f) = ay (sg h) -> sf_wf f -> sf_wf h ->
  sf_add f h = Ok s -> sf_add h f = Ok t ->
  forall x y v m, sf_shows s x y v m -> exists v', sf_shows t x y v' m /\ oeq_phys v (uv f) v' (uv h).
Proof.
  intros C G G' IX IY Ex Ey W W' Es Et x y v m Hs.
  destruct (sf_add_same_lemma f h C G IX IY Ex Ey W) as (s' & Es' & _ & _ & _ & Hs').
  assert (C' : compatible h f) by (destruct C as (? & ? & ?); repeat split; symmetry; assumption).
  assert (IX' : increasing (ax (sg h))) by (rewrite <- Ex; exact IX). assert (IY' : increasing (ay (sg h))) by (rewrite <- Ey; exact IY).
  destruct (sf_add_same_lemma h f C' G' IX' IY' (eq_sym Ex) (eq_sym Ey) W') as (t' & Et' & _ & _ & _ & Ht').
  rewrite Es in Es'. injection Es' as <-. rewrite Et in Et'. injection Et' as <-.
  apply Hs' in Hs. destruct Hs as (v1 & m1 & v2 & m2 & H1 & H2 & E & P).
  assert (exists v', osum_phys v' (uv h) v2 (uv h) v1 (uv f) /\ oeq_phys v (uv f) v' (uv h)) as (v' & P' & Q).
  { destruct v1 as [a|], v2 as [b|]; simpl in *; try (exists None; subst v; split; [reflexivity|exact I]).
    destruct P as (z & -> & Ez). exists (Some ((b * sc (uv h) + a * sc (uv f)) / sc (uv h))%num).
    assert ((b * sc (uv h) + a * sc (uv f)) / sc (uv h) * sc (uv h) = b * sc (uv h) + a * sc (uv f))%num as Q.
    { apply qdiv_mul. now apply qgt_neq. }
    split; [eexists; split; [reflexivity|exact Q]|]. simpl. rewrite Q, Ez. qlra. }
  exists v'. split; [|exact Q]. apply Ht'. exists v2, m2, v1, m1. repeat split; auto. rewrite E. apply orb_comm.
Qed.

(** ** C16: division *)
Lemma unit_eqb_eq a b : unit_eqb a b = true -> a = b.
Proof.
  unfold unit_eqb. rewrite andb_true_iff, dim_eqb_eq, qeqb_eq. destruct a, b; simpl. intros [-> ->]. reflexivity.
Qed.
Lemma sf_div_lemma f h : ax (sg f) = ax (sg h) -> ay (sg f) = ay (sg h) -> ux (sg f) = ux (sg h) -> uy (sg f) = uy (sg h) ->
  sf_wf f -> sf_clean f -> sf_clean h ->
  exists s, sf_div f h = Ok s /\ sg s = sg f /\ sf_wf s /\
    forall i j, i < length (ax (sg f)) -> j < length (ay (sg f)) ->
      (at_ (msk s) i j = true <-> at_ (msk f) i j = true \/ at_ (msk h) i j = true \/ at_ (values h) i j = Some 0%num) /\
      (at_ (msk s) i j = false -> quotient (at_ (values s) i j) (at_ (values f) i j) (at_ (values h) i j)).
Proof.
  intros Ex Ey Ux Uy [[R0 R1] [M0 M1]] Cf Ch. unfold sf_div, same_support.
  rewrite (proj2 (list_eqb_eq _ _) Ex), (proj2 (list_eqb_eq _ _) Ey), <- Ux, <- Uy.
  assert (U : forall u, unit_eqb u u = true).
  { intro u. unfold unit_eqb. rewrite (proj2 (dim_eqb_eq _ _) eq_refl), qeqb_refl. reflexivity. }
  rewrite !U. cbn [andb negb guard]. eexists. split; [reflexivity|]. split; [reflexivity|].
  split; [repeat split; simpl; assumption|].
  intros i j Hi Hj. cbn [msk values raw at_ amap2 amap].
  assert (Nf : isnan (at_ (values f) i j) = at_ (msk f) i j).
  { apply clean_isnan. apply (Cf (nths (ax (sg f)) i) (nths (ay (sg f)) j)). exists i, j. repeat split; now apply nths_nth_error. }
  assert (Nh : isnan (at_ (values h) i j) = at_ (msk h) i j).
  { apply clean_isnan. apply (Ch (nths (ax (sg h)) i) (nths (ay (sg h)) j)). exists i, j. rewrite <- Ex, <- Ey. repeat split; now apply nths_nth_error. }
  cbn [values at_] in Nf, Nh.
  destruct (at_ (msk f) i j), (at_ (msk h) i j); cbn [orb negb] in *; try (split; [split; auto|discriminate]).
  destruct (at_ (raw f) i j) as [a|]; [|discriminate]. destruct (at_ (raw h) i j) as [b|]; [|discriminate].
  destruct (qeqb_spec b 0%num) as [E|E]; cbn [negb].
  - split; [|discriminate]. subst b. split; auto.
  - cbn [orb]. split.
    + split; [discriminate|]. intros [H|[H|H]]; congruence.
    + intros _. simpl. split; [exact E|]. destruct (qeqb_spec b 0%num) as [|_]; [contradiction|].
      exists (a / b)%num. split; [reflexivity|]. now apply qdiv_mul.
Qed.
Lemma sf_div_arr_lemma f o : sf_wf f -> sf_clean f -> has_shape o (length (ax (sg f))) (length (ay (sg f))) ->
  (forall i j, i < length (ax (sg f)) -> j < length (ay (sg f)) -> at_ o i j <> None) ->
  exists s, sf_div_arr f o = Ok s /\ sg s = sg f /\ sf_wf s /\
    forall i j, i < length (ax (sg f)) -> j < length (ay (sg f)) ->
      (at_ (msk s) i j = true <-> at_ (msk f) i j = true \/ at_ o i j = Some 0%num) /\
      (at_ (msk s) i j = false -> quotient (at_ (values s) i j) (at_ (values f) i j) (at_ o i j)).
Proof.
  intros [[R0 R1] [M0 M1]] Cf So No. unfold sf_div_arr. apply shape_is_iff in So. rewrite So. cbn [negb guard].
  eexists. split; [reflexivity|]. split; [reflexivity|]. split; [repeat split; simpl; assumption|].
  intros i j Hi Hj. cbn [msk values raw at_ amap2 amap].
  assert (Nf : isnan (at_ (values f) i j) = at_ (msk f) i j).
  { apply clean_isnan. apply (Cf (nths (ax (sg f)) i) (nths (ay (sg f)) j)). exists i, j. repeat split; now apply nths_nth_error. }
  cbn [values at_] in Nf. specialize (No i j Hi Hj).
  destruct (at_ o i j) as [b|]; [|congruence].
  destruct (at_ (msk f) i j); cbn [orb negb] in *; [split; [split; auto|discriminate]|].
  destruct (at_ (raw f) i j) as [a|]; [|discriminate].
  destruct (qeqb_spec b 0%num) as [E|E].
  - split; [|discriminate]. subst b. split; auto.
  - split.
    + split; [discriminate|]. intros [H|H]; congruence.
    + intros _. simpl. split; [exact E|]. destruct (qeqb_spec b 0%num) as [|_]; [contradiction|].
      exists (a / b)%num. split; [reflexivity|]. now apply qdiv_mul.
Qed.

(** ** C17, C18: border cropping *)
Lemma find_seq_first p n i : find p (seq 0 n) = Some i -> p i = true /\ i < n /\ forall k, k < i -> p k = false.
Proof.
  assert (H : forall a, find p (seq a n) = Some i -> p i = true /\ a <= i < a + n /\ forall k, a <= k -> k < i -> p k = false).
  { induction n as [|n IH]; intros a H; [discriminate|]. cbn [seq find] in H. destruct (p a) eqn:E.
    - injection H as <-. repeat split; auto; try lia.
    - apply IH in H. destruct H as (H1 & H2 & H3). repeat split; auto; try lia.
      intros k K1 K2. destruct (Nat.eq_dec k a) as [->|]; [exact E|]. apply H3; lia. }
  intro E. apply H in E. destruct E as (H1 & H2 & H3). repeat split; auto; try lia. intros k Hk. apply H3; lia.
Qed.
Lemma rev_seq_S n : rev (seq 0 (S n)) = n :: rev (seq 0 n).
Proof. rewrite seq_S, rev_app_distr. reflexivity. Qed.
Lemma find_seq_last p n i : find p (rev (seq 0 n)) = Some i -> p i = true /\ i < n /\ forall k, i < k -> k < n -> p k = false.
Proof.
  induction n as [|n IH]; intro H; [discriminate|]. rewrite rev_seq_S in H. cbn [find] in H. destruct (p n) eqn:E.
  - injection H as <-. repeat split; auto; lia.
  - apply IH in H. destruct H as (H1 & H2 & H3). repeat split; auto; try lia.
    intros k K1 K2. destruct (Nat.eq_dec k n) as [->|]; [exact E|]. apply H3; lia.
Qed.
Lemma first_ok_some p n k : k < n -> p k = true -> exists i, first_ok p n = Some i.
Proof.
  intros H1 H2. unfold first_ok. destruct (find p (seq 0 n)) as [i|] eqn:E; [eauto|].
  exfalso. pose proof (find_none _ _ E k) as F. rewrite F in H2; [discriminate|]. apply in_seq. lia.
Qed.
Lemma last_ok_some p n k : k < n -> p k = true -> exists i, last_ok p n = Some i.
Proof.
  intros H1 H2. unfold last_ok. destruct (find p (rev (seq 0 n))) as [i|] eqn:E; [eauto|].
  exfalso. pose proof (find_none _ _ E k) as F. rewrite F in H2; [discriminate|]. apply in_rev. rewrite rev_involutive. apply in_seq. lia.
Qed.
Lemma row_ok_iff f i : row_ok f i = true <-> exists j, j < d1 (msk f) /\ at_ (msk f) i j = false.
Proof.
  unfold row_ok. rewrite existsb_exists. split.
  - intros (j & H & E). apply in_seq in H. apply negb_true_iff in E. exists j. split; [lia|exact E].
  - intros (j & H & E). exists j. rewrite in_seq, negb_true_iff. split; [lia|exact E].
Qed.
Lemma col_ok_iff f j : col_ok f j = true <-> exists i, i < d0 (msk f) /\ at_ (msk f) i j = false.
Proof.
  unfold col_ok. rewrite existsb_exists. split.
  - intros (i & H & E). apply in_seq in H. apply negb_true_iff in E. exists i. split; [lia|exact E].
  - intros (i & H & E). exists i. rewrite in_seq, negb_true_iff. split; [lia|exact E].
Qed.
Lemma any_masked_iff f : any_masked f = true <-> exists i j, i < d0 (msk f) /\ j < d1 (msk f) /\ at_ (msk f) i j = true.
Proof.
  unfold any_masked, flatten. rewrite existsb_exists. split.
  - intros (b & H & E). apply in_map_iff in H. destruct H as ([i j] & <- & H). apply in_aidx in H. exists i, j. tauto.
  - intros (i & j & H1 & H2 & E). exists true. split; [|reflexivity]. apply in_map_iff. exists (i, j). split; [exact E|].
    apply in_aidx. auto.
Qed.

Lemma subgrid_refl f : subgrid f f.
Proof. exists 0, 0. repeat split; auto. Qed.
Lemma subgrid_trans f g h : subgrid f g -> subgrid g h -> 
  (forall i x, nth_error (ax (sg g)) i = Some x -> i < length (ax (sg g))) -> subgrid f h.
Proof.
  intros (x0 & y0 & A1 & A2 & A3) (x1 & y1 & B1 & B2 & B3) _. exists (x0 + x1), (y0 + y1).
  assert (Lx : forall i, i < length (ax (sg h)) -> x1 + i < length (ax (sg g))).
  { intros i Hi. specialize (B1 i Hi). destruct (nth_error_ex _ _ Hi) as [v E]. rewrite E in B1. symmetry in B1.
    eapply nth_error_Some_lt; eauto. }
  assert (Ly : forall i, i < length (ay (sg h)) -> y1 + i < length (ay (sg g))).
  { intros i Hi. specialize (B2 i Hi). destruct (nth_error_ex _ _ Hi) as [v E]. rewrite E in B2. symmetry in B2.
    eapply nth_error_Some_lt; eauto. }
  repeat split.
  - intros i Hi. rewrite B1, A1 by auto. f_equal. lia.
  - intros i Hi. rewrite B2, A2 by auto. f_equal. lia.
  - destruct (B3 i j) as [E _]; auto. destruct (A3 (x1 + i) (y1 + j)) as [E2 _]; auto. rewrite E, E2. f_equal; lia.
  - destruct (B3 i j) as [_ E]; auto. destruct (A3 (x1 + i) (y1 + j)) as [_ E2]; auto. rewrite E, E2. f_equal; lia.
Qed.

Lemma crop_ind_subgrid f ivx ivy f' : sf_crop_ind f ivx ivy = Ok f' -> sf_wf f -> subgrid f f' /\ sf_wf f'.
Proof.
  intros H [[R0 R1] [M0 M1]]. unfold sf_crop_ind, grid_crop_ind in H.
  destruct (crop_window_ind (ax (sg f)) ivx) as [[x0 x1]|] eqn:Ex; [|discriminate].
  destruct (crop_window_ind (ay (sg f)) ivy) as [[y0 y1]|] eqn:Ey; [|discriminate].
  cbn [bind] in H. injection H as <-. unfold sf_crop_to, grid_crop_to. split.
  - exists x0, y0. cbn [sg ax ay]. rewrite !slice_length. repeat split.
    + intros i Hi. apply nth_error_slice. lia.
    + intros i Hi. apply nth_error_slice. lia.
    + cbn [values at_ aslice msk raw]. destruct (at_ (msk f) (x0 + i) (y0 + j)); reflexivity.
  - unfold sf_wf, has_shape. cbn [sg ax ay raw msk aslice d0 d1 values]. rewrite !slice_length, R0, R1, M0, M1. auto.
Qed.

Lemma soft_crop_lemma f : sf_wf f -> any_masked f = true ->
  (exists i j, 0 < i < length (ax (sg f)) /\ j < length (ay (sg f)) /\ at_ (msk f) i j = false) ->
  (exists i j, i < length (ax (sg f)) /\ 0 < j < length (ay (sg f)) /\ at_ (msk f) i j = false) ->
  exists f', crop_masked_border f false = Ok (Some f') /\ subgrid f f' /\ sf_wf f' /\
    (grid_sorted (sg f) -> forall x y v, sf_shows f x y v false -> sf_shows f' x y v false) /\
    (let n := length (ax (sg f')) in let m := length (ay (sg f')) in
     0 < n /\ 0 < m /\
     (exists j, j < m /\ at_ (msk f') 0 j = false) /\ (exists j, j < m /\ at_ (msk f') (n - 1) j = false) /\
     (exists i, i < n /\ at_ (msk f') i 0 = false) /\ (exists i, i < n /\ at_ (msk f') i (m - 1) = false)).
Proof.
  intros W A (ia & ja & Hia & Hja & Ea) (ib & jb & Hib & Hjb & Eb).
  pose proof W as [[R0 R1] [M0 M1]].
  unfold crop_masked_border. rewrite A. unfold soft_crop.
  destruct (first_ok_some (row_ok f) (d0 (msk f)) ia) as [x0 Ex0]; [lia|apply row_ok_iff; exists ja; split; [lia|exact Ea]|].
  destruct (last_ok_some (row_ok f) (d0 (msk f)) ia) as [x1 Ex1]; [lia|apply row_ok_iff; exists ja; split; [lia|exact Ea]|].
  destruct (first_ok_some (col_ok f) (d1 (msk f)) jb) as [y0 Ey0]; [lia|apply col_ok_iff; exists ib; split; [lia|exact Eb]|].
  destruct (last_ok_some (col_ok f) (d1 (msk f)) jb) as [y1 Ey1]; [lia|apply col_ok_iff; exists ib; split; [lia|exact Eb]|].
  rewrite Ex0, Ex1, Ey0, Ey1.
  apply find_seq_first in Ex0, Ey0. apply find_seq_last in Ex1, Ey1.
  destruct Ex0 as (X1 & X2 & X3), Ex1 as (X4 & X5 & X6), Ey0 as (Y1 & Y2 & Y3), Ey1 as (Y4 & Y5 & Y6).
  assert (ia <= x1) by (destruct (le_lt_dec ia x1) as [|L]; [assumption|]; exfalso; specialize (X6 ia L ltac:(lia)); apply not_true_iff_false in X6; apply X6, row_ok_iff; exists ja; split; [lia|exact Ea]).
  assert (x0 <= ia) by (destruct (le_lt_dec x0 ia) as [|L]; [assumption|]; exfalso; specialize (X3 ia L); apply not_true_iff_false in X3; apply X3, row_ok_iff; exists ja; split; [lia|exact Ea]).
  assert (jb <= y1) by (destruct (le_lt_dec jb y1) as [|L]; [assumption|]; exfalso; specialize (Y6 jb L ltac:(lia)); apply not_true_iff_false in Y6; apply Y6, col_ok_iff; exists ib; split; [lia|exact Eb]).
  assert (y0 <= jb) by (destruct (le_lt_dec y0 jb) as [|L]; [assumption|]; exfalso; specialize (Y3 jb L); apply not_true_iff_false in Y3; apply Y3, col_ok_iff; exists ib; split; [lia|exact Eb]).
  destruct (sf_crop_ind_lemma f (zpair x0 x1) (zpair y0 y1) x0 x1 y0 y1 W) as (f' & E & W' & Lx & Ly & Nx & Ny & Cell & _);
    [repeat split; lia | repeat split; lia | right; lia | right; lia |].
  rewrite E. cbn [bind]. exists f'. split; [reflexivity|].
  destruct (crop_ind_subgrid _ _ _ _ E W) as [Sub _]. split; [exact Sub|]. split; [exact W'|].
  assert (Range : forall i j, i < length (ax (sg f)) -> j < length (ay (sg f)) -> at_ (msk f) i j = false -> x0 <= i <= x1 /\ y0 <= j <= y1).
  { intros i j Hi Hj Em.
    assert (row_ok f i = true) as Rk by (apply row_ok_iff; exists j; split; [lia|exact Em]).
    assert (col_ok f j = true) as Ck by (apply col_ok_iff; exists i; split; [lia|exact Em]).
    repeat split.
    - destruct (le_lt_dec x0 i) as [|L]; [assumption|]. rewrite (X3 i L) in Rk. discriminate.
    - destruct (le_lt_dec i x1) as [|L]; [assumption|]. rewrite (X6 i L ltac:(lia)) in Rk. discriminate.
    - destruct (le_lt_dec y0 j) as [|L]; [assumption|]. rewrite (Y3 j L) in Ck. discriminate.
    - destruct (le_lt_dec j y1) as [|L]; [assumption|]. rewrite (Y6 j L ltac:(lia)) in Ck. discriminate. }
  split.
  - intros _ x y v (i & j & K1 & K2 & K3 & K4).
    pose proof (nth_error_Some_lt _ _ _ K1) as Li. pose proof (nth_error_Some_lt _ _ _ K2) as Lj.
    destruct (Range i j Li Lj K4) as [B1 B2].
    exists (i - x0), (j - y0). rewrite Nx, Ny by lia. destruct (Cell (i - x0) (j - y0)) as [C1 C2]; [lia|lia|].
    rewrite C1, C2. replace (x0 + (i - x0)) with i by lia. replace (y0 + (j - y0)) with j by lia. auto.
  - cbv zeta. rewrite Lx, Ly. split; [lia|]. split; [lia|].
    apply row_ok_iff in X1, X4. apply col_ok_iff in Y1, Y4.
    destruct X1 as (j1 & L1 & E1), X4 as (j2 & L2 & E2), Y1 as (i1 & L3 & E3), Y4 as (i2 & L4 & E4).
    destruct (Range x0 j1 ltac:(lia) ltac:(lia) E1) as [B1 B2].
    destruct (Range x1 j2 ltac:(lia) ltac:(lia) E2) as [B3 B4].
    destruct (Range i1 y0 ltac:(lia) ltac:(lia) E3) as [B5 B6].
    destruct (Range i2 y1 ltac:(lia) ltac:(lia) E4) as [B7 B8].
    repeat split.
    + exists (j1 - y0). split; [lia|]. destruct (Cell 0 (j1 - y0)) as [_ C]; [lia|lia|]. rewrite C. rewrite <- E1. f_equal; lia.
    + exists (j2 - y0). split; [lia|]. destruct (Cell (x1 - x0 + 1 - 1) (j2 - y0)) as [_ C]; [lia|lia|]. rewrite C. rewrite <- E2. f_equal; lia.
    + exists (i1 - x0). split; [lia|]. destruct (Cell (i1 - x0) 0) as [_ C]; [lia|lia|]. rewrite C. rewrite <- E3. f_equal; lia.
    + exists (i2 - x0). split; [lia|]. destruct (Cell (i2 - x0) (y1 - y0 + 1 - 1)) as [_ C]; [lia|lia|]. rewrite C. rewrite <- E4. f_equal; lia.
Qed.

Lemma crop_ind_none_len axe iv x0 x1 : crop_window_ind axe iv = Ok (x0, x1) ->
  match iv with None => x0 = 0 /\ x1 = length axe | Some (a, b) => x0 = Z.to_nat a /\ x1 = Z.to_nat b /\ (0 <= a)%Z /\ (a <= b)%Z end.
Proof.
  unfold crop_window_ind. destruct iv as [[a b]|]; intro H;
    apply guard_ok in H; destruct H as [G1 H]; apply guard_ok in H; destruct H as [G2 H]; injection H as H1 H2; lia.
Qed.

Lemma hard_step_shrinks f f' : hard_step f = Ok f' -> sf_wf f -> 0 < length (ax (sg f)) -> 0 < length (ay (sg f)) ->
  length (ax (sg f')) + length (ay (sg f')) < length (ax (sg f)) + length (ay (sg f)).
Proof.
  intros H W Nx Ny. unfold hard_step in H.
  set (n := length (ax (sg f))) in *. set (m := length (ay (sg f))) in *.
  assert (Gen : forall ivx ivy, sf_crop_ind f ivx ivy = Ok f' ->
    exists x0 x1 y0 y1, crop_window_ind (ax (sg f)) ivx = Ok (x0, x1) /\ crop_window_ind (ay (sg f)) ivy = Ok (y0, y1) /\
     length (ax (sg f')) = Nat.min (x1 + 1) n - x0 /\ length (ay (sg f')) = Nat.min (y1 + 1) m - y0).
  { intros ivx ivy E. unfold sf_crop_ind, grid_crop_ind in E.
    destruct (crop_window_ind (ax (sg f)) ivx) as [[x0 x1]|] eqn:Ex; [|discriminate].
    destruct (crop_window_ind (ay (sg f)) ivy) as [[y0 y1]|] eqn:Ey; [|discriminate].
    cbn [bind] in E. injection E as <-. exists x0, x1, y0, y1. cbn [sf_crop_to grid_crop_to sg ax ay].
    rewrite !slice_length. auto. }
  destruct (argmax4 _ _ _ _) as [|[|[|k]]]; apply Gen in H; destruct H as (x0 & x1 & y0 & y1 & Ex & Ey & Lx & Ly);
    apply crop_ind_none_len in Ex, Ey; rewrite Lx, Ly; fold n m in Ex, Ey; lia.
Qed.

Lemma hard_loop_lemma fuel : forall f, sf_wf f -> length (ax (sg f)) + length (ay (sg f)) <= fuel ->
  hard_loop fuel f <> Err OutOfFuel /\
  (forall f', hard_loop fuel f = Ok f' -> subgrid f f' /\ sf_wf f' /\ any_masked f' = false).
Proof.
  induction fuel as [|fuel IH]; intros f W L; cbn [hard_loop].
  - destruct (any_masked f) eqn:A.
    + exfalso. apply any_masked_iff in A. destruct A as (i & j & Hi & Hj & _). destruct W as [_ [M0 M1]]. lia.
    + split; [discriminate|]. intros f' E. injection E as <-. auto using subgrid_refl.
  - destruct (any_masked f) eqn:A.
    + apply any_masked_iff in A. destruct A as (i & j & Hi & Hj & _).
      pose proof W as [_ [M0 M1]].
      destruct (hard_step f) as [f1|e] eqn:E; cbn [bind].
      * assert (Sub : subgrid f f1 /\ sf_wf f1).
        { unfold hard_step in E. destruct (argmax4 _ _ _ _) as [|[|[|k]]]; apply crop_ind_subgrid in E; assumption. }
        destruct Sub as [Sub W1].
        pose proof (hard_step_shrinks f f1 E W ltac:(lia) ltac:(lia)).
        destruct (IH f1 W1 ltac:(lia)) as [I1 I2]. split; [exact I1|]. intros f' E'. destruct (I2 f' E') as (S1 & S2 & S3).
        split; [|auto]. eapply subgrid_trans; eauto. intros; eapply nth_error_Some_lt; eauto.
      * split; [|discriminate]. intro Q. injection Q as ->.
        unfold hard_step, sf_crop_ind, grid_crop_ind, crop_window_ind, guard in E.
        destruct (argmax4 _ _ _ _) as [|[|[|k]]]; 
        repeat match type of E with context [if ?b then _ else _] => destruct b end; discriminate.
    + split; [discriminate|]. intros f' E. injection E as <-. auto using subgrid_refl.
Qed.

Lemma soft_crop_sub f f' : soft_crop f = Ok f' -> sf_wf f -> subgrid f f' /\ sf_wf f'.
Proof.
  unfold soft_crop. intros H W.
  destruct (first_ok (row_ok f) (d0 (msk f))) as [x0|]; [|discriminate].
  destruct (last_ok (row_ok f) (d0 (msk f))) as [x1|]; [|discriminate].
  destruct (first_ok (col_ok f) (d1 (msk f))) as [y0|]; [|discriminate].
  destruct (last_ok (col_ok f) (d1 (msk f))) as [y1|]; [|discriminate].
  eapply crop_ind_subgrid; eauto.
Qed.
Lemma soft_crop_nofuel f : soft_crop f <> Err OutOfFuel.
Proof.
  unfold soft_crop, sf_crop_ind, grid_crop_ind, crop_window_ind, zpair, guard.
  destruct (first_ok (row_ok f) (d0 (msk f))) as [x0|]; [|discriminate].
  destruct (last_ok (row_ok f) (d0 (msk f))) as [x1|]; [|discriminate].
  destruct (first_ok (col_ok f) (d1 (msk f))) as [y0|]; [|discriminate].
  destruct (last_ok (col_ok f) (d1 (msk f))) as [y1|]; [|discriminate].
  repeat match goal with |- context [if ?b then _ else _] => destruct b end; discriminate.
Qed.

Lemma hard_crop_lemma f : sf_wf f ->
  crop_masked_border f true <> Err OutOfFuel /\
  forall f', crop_masked_border f true = Ok (Some f') ->
    subgrid f f' /\ sf_wf f' /\
    forall i j, i < length (ax (sg f')) -> j < length (ay (sg f')) -> at_ (msk f') i j = false.
Proof.
  intro W. unfold crop_masked_border. destruct (any_masked f) eqn:A; [|split; discriminate].
  destruct (soft_crop f) as [f1|e] eqn:E; cbn [bind].
  - destruct (soft_crop_sub f f1 E W) as [S1 W1].
    destruct (hard_loop_lemma (length (ax (sg f1)) + length (ay (sg f1))) f1 W1 (le_n _)) as [H1 H2].
    destruct (hard_loop _ f1) as [f2|e]; cbn [bind].
    + split; [discriminate|]. intros f' Q. injection Q as <-. destruct (H2 f2 eq_refl) as (Q1 & Q2 & Q3).
      split; [eapply subgrid_trans; eauto; intros; eapply nth_error_Some_lt; eauto|]. split; [exact Q2|].
      intros i j Hi Hj. destruct (at_ (msk f2) i j) eqn:Em; [|reflexivity]. exfalso.
      apply not_true_iff_false in Q3. apply Q3. apply any_masked_iff. destruct Q2 as [_ [M0 M1]]. exists i, j. repeat split; auto; lia.
    + split; [|discriminate]. intro Q. injection Q as ->. now apply H1.
  - split; [|discriminate]. intro Q. injection Q as ->. eapply soft_crop_nofuel; eauto.
Qed.

(** ** C19: scatter *)
Lemma sf_iter_spec f : sf_wf f -> grid_sorted (sg f) ->
  NoDup (map (fun t => snd (fst t)) (sf_iter f)) /\
  forall x y v, (exists p, In (p, (x, y), v) (sf_iter f)) <-> sf_shows f x y v false.
Proof.
  intros W [HX HY]. split.
  - unfold sf_iter. rewrite map_map. cbn [fst snd].
    assert (forall l : list (nat * nat), NoDup l ->
       (forall p, In p l -> fst p < length (ax (sg f)) /\ snd p < length (ay (sg f))) ->
       NoDup (map (fun p => (nths (ax (sg f)) (fst p), nths (ay (sg f)) (snd p))) l)) as K.
    { induction l as [|[i j] l IH]; intros N B; [constructor|]. inversion N; subst. cbn [map]. constructor.
      - intro Q. apply in_map_iff in Q. destruct Q as ([i' j'] & E & Hin). cbn [fst snd] in E. injection E as E1 E2.
        destruct (B (i, j) (or_introl eq_refl)) as [B1 B2]. destruct (B (i', j') (or_intror Hin)) as [B3 B4]. cbn [fst snd] in *.
        apply increasing_inj in E1; auto. apply increasing_inj in E2; auto. subst. contradiction.
      - apply IH; auto. intros p Hp. apply B. now right. }
    apply K.
    + apply NoDup_filter, NoDup_aidx.
    + intros [i j] Hp. apply filter_In in Hp. destruct Hp as [Hp _]. apply in_aidx in Hp. exact Hp.
  - intros x y v. unfold sf_iter, sf_shows. split.
    + intros (p & H). apply in_map_iff in H. destruct H as ([i j] & E & H). injection E as E1 E2 E3 E4.
      apply filter_In in H. destruct H as [H1 H2]. apply in_aidx in H1. destruct H1 as [Hi Hj]. cbn [fst snd] in *.
      apply negb_true_iff in H2. exists i, j. rewrite !nths_nth_error by assumption.
      split; [congruence|]. split; [congruence|]. split; [exact E4|exact H2].
    + intros (i & j & H1 & H2 & H3 & H4). exists (i, j). apply in_map_iff. exists (i, j). cbn [fst snd].
      rewrite (nth_error_nths _ _ _ H1), (nth_error_nths _ _ _ H2), H3. split; [reflexivity|].
      apply filter_In. rewrite in_aidx. cbn [fst snd]. rewrite H4. split; [|reflexivity].
      split; eapply nth_error_Some_lt; eauto.
Qed.
Lemma filter_map_comm {A B} (p : B -> bool) (g : A -> B) l : filter p (map g l) = map g (filter (fun a => p (g a)) l).
Proof. induction l as [|a l IH]; [reflexivity|]. cbn [map filter]. destruct (p (g a)); cbn [map]; now rewrite IH. Qed.
Lemma filter_filter {A} (p q : A -> bool) l : filter p (filter q l) = filter (fun a => andb (p a) (q a)) l.
Proof.
  induction l as [|a l IH]; [reflexivity|]. cbn [filter]. destruct (q a) eqn:E; cbn [filter]; rewrite IH;
  destruct (p a); reflexivity.
Qed.
Lemma combine_map_both {A B C} (f : A -> B) (g : A -> C) l : combine (map f l) (map g l) = map (fun a => (f a, g a)) l.
Proof. induction l as [|a l IH]; [reflexivity|]. cbn. now rewrite IH. Qed.

Lemma NoDup_map_filter {A B} (g : A -> B) p l : NoDup (map g l) -> NoDup (map g (filter p l)).
Proof.
  induction l as [|t l IH]; intro ND; [constructor|]. cbn [filter]. inversion ND as [|? ? N1 N2]; subst.
  destruct (p t); [|now apply IH]. cbn [map]. constructor; [|now apply IH].
  intro Q. apply N1. apply in_map_iff in Q. destruct Q as (t' & E & Ht').
  apply filter_In in Ht'. apply in_map_iff. exists t'. tauto.
Qed.
Lemma export_scatter_lemma f extra : sf_wf f -> grid_sorted (sg f) ->
  match extra with None => True | Some e => has_shape e (length (ax (sg f))) (length (ay (sg f))) end ->
  exists pts vals, export_to_scatter f extra = Ok (pts, vals) /\ length pts = length vals /\ NoDup pts /\
   forall x y v, In ((x, y), v) (combine pts vals) <->
     sf_shows f x y v false /\
     match extra with None => True | Some e => at_pos (ax (sg f)) (ay (sg f)) e x y false end.
Proof.
  intros W S He. destruct (sf_iter_spec f W S) as [ND Sp]. pose proof S as [HX HY].
  unfold export_to_scatter.
  set (e := match extra with None => _ | Some m => m end).
  assert (shape_is e (sg f) = true) as ->.
  { apply shape_is_iff. unfold e. destruct extra; [exact He|split; reflexivity]. }
  cbn [negb guard]. eexists _, _. split; [reflexivity|]. split; [now rewrite !map_length|]. split.
  - now apply NoDup_map_filter.
  - intros x y v. rewrite combine_map_both. rewrite in_map_iff. split.
    + intros ([[[i j] [x1 y1]] v1] & E & H). cbn [fst snd] in E. injection E as -> -> ->.
      apply filter_In in H. destruct H as [H1 H2]. cbn [fst snd amap2 at_] in H2. apply negb_true_iff, orb_false_iff in H2.
      split; [apply Sp; eauto|]. destruct extra as [e0|]; [|exact I].
      unfold sf_iter in H1. apply in_map_iff in H1. destruct H1 as ([i' j'] & E & H1). cbn [fst snd] in E. injection E as -> -> E1 E2 E3.
      apply filter_In in H1. destruct H1 as [H1 _]. apply in_aidx in H1. exists i, j.
      rewrite !nths_nth_error by tauto. repeat split; try congruence. tauto.
    + intros [H1 H2]. apply Sp in H1 as H1'. destruct H1' as ([i j] & H3). exists ((i, j), (x, y), v). split; [reflexivity|].
      apply filter_In. split; [exact H3|]. cbn [fst snd amap2 at_]. apply negb_true_iff, orb_false_iff.
      unfold sf_iter in H3. apply in_map_iff in H3. destruct H3 as ([i' j'] & E & H4). cbn [fst snd] in E. injection E as -> -> E1 E2 E3.
      apply filter_In in H4. destruct H4 as [H4 H5]. apply in_aidx in H4. cbn [fst snd] in H5. apply negb_true_iff in H5. split; [|exact H5].
      unfold e. destruct extra as [e0|]; [|reflexivity].
      destruct H2 as (a & b & K1 & K2 & K3).
      assert (a = i).
      { pose proof (nth_error_Some_lt _ _ _ K1). apply nth_error_nths in K1. apply (increasing_inj (ax (sg f)) a i HX); [assumption|tauto|congruence]. }
      assert (b = j).
      { pose proof (nth_error_Some_lt _ _ _ K2). apply nth_error_nths in K2. apply (increasing_inj (ay (sg f)) b j HY); [assumption|tauto|congruence]. }
      now subst.
Qed.

(** ** C20: import *)
Lemma rev_dec l : increasing (rev l) -> 2 <= length l -> qltb (last l (qz 0)) (nths l 0) = true.
Proof.
  intros H L. apply qltb_lt. assert (l <> []) by (intros ->; simpl in L; lia). rewrite last_nths by assumption.
  pose proof (H 0 (length l - 1) ltac:(lia) ltac:(rewrite rev_length; lia)) as K. rewrite !nths_rev in K by lia.
  replace (length l - 1 - (length l - 1)) with 0 in K by lia. replace (length l - 1 - 0) with (length l - 1) in K by lia. exact K.
Qed.

Lemma sf_import_lemma x y v m u w t : monotone x -> monotone y -> 2 <= length x -> 2 <= length y ->
  has_shape v (length x) (length y) ->
  match m with None => True | Some mm => has_shape mm (length x) (length y) end ->
  (increasing x /\ increasing y \/
   forall i j, i < length x -> j < length y -> at_ v i j <> None /\ match m with None => True | Some mm => at_ mm i j = false end) ->
  exists f, sf_import x y v m u w t = Ok f /\ grid_sorted (sg f) /\ sf_wf f /\
    ux (sg f) = u /\ uy (sg f) = w /\ uv f = t /\
    forall px py a b, sf_shows f px py a b <-> given x y v m px py a b.
Proof.
  intros Mx My Lx Ly [V0 V1] Sm Hyp. unfold sf_import.
  set (m0 := match m with None => _ | Some a => a end).
  assert (S0 : d0 m0 = length x /\ d1 m0 = length y).
  { unfold m0. destruct m; [exact Sm|]. simpl. auto. }
  assert (Nat.ltb (length y) 2 = false) as -> by (apply Nat.ltb_ge; exact Ly).
  assert (Nat.ltb (length x) 2 = false) as -> by (apply Nat.ltb_ge; exact Lx).
  rewrite andb_false_r. cbn [guard].
  assert ((Nat.eqb (length x) (d1 v) && Nat.eqb (length y) (d0 v) && negb (Nat.eqb (length x) (length y)))%bool = false) as ->.
  { rewrite V0, V1. destruct (Nat.eqb_spec (length x) (length y)); [now rewrite andb_false_r|reflexivity]. }
  assert (NE : x <> [] /\ y <> []) by (split; intros ->; simpl in *; lia).
  eexists. split; [reflexivity|]. cbn [sg ax ay ux uy uv].
  set (rx := qltb (last x (qz 0)) (nths x 0)). set (ry := qltb (last y (qz 0)) (nths y 0)).
  assert (Rx : (rx = false /\ increasing x) \/ (rx = true /\ increasing (rev x))).
  { destruct Mx as [Mx|Mx]; [left|right]; split; auto; unfold rx; [now apply not_rev|now apply rev_dec]. }
  assert (Ry : (ry = false /\ increasing y) \/ (ry = true /\ increasing (rev y))).
  { destruct My as [My|My]; [left|right]; split; auto; unfold ry; [now apply not_rev|now apply rev_dec]. }
  split; [|split; [|split; [reflexivity|split; [reflexivity|split; [reflexivity|]]]]].
  - split; cbn [ax ay]; [destruct Rx as [[-> ?]|[-> ?]]|destruct Ry as [[-> ?]|[-> ?]]]; assumption.
  - unfold sf_wf, has_shape. cbn [sg ax ay raw msk]. destruct S0. destruct rx, ry; cbn [d0 d1 aflip0 aflip1 amap2]; rewrite ?rev_length; auto.
  - assert (EM : forall i j, at_ (amap2 orb m0 (amap isnan v)) i j =
              orb (match m with None => false | Some mm => at_ mm i j end) (isnan (at_ v i j))).
    { intros i j. unfold m0. destruct m; reflexivity. }
    intros px py a b.
    destruct Hyp as [[Ix Iy]|Hyp].
    + assert (rx = false) as -> by (unfold rx; apply not_rev; tauto).
      assert (ry = false) as -> by (unfold ry; apply not_rev; tauto).
      unfold sf_shows, given. cbn [sg ax ay values msk raw at_]. split.
      * intros (i & j & H1 & H2 & H3 & H4). rewrite EM in *. exists i, j. repeat split; auto. now rewrite <- H4.
      * intros (i & j & H1 & H2 & H3 & H4). exists i, j. rewrite EM. repeat split; auto. now rewrite <- H3.
    + assert (EM' : forall i j, i < length x -> j < length y -> at_ (amap2 orb m0 (amap isnan v)) i j = false).
      { intros i j Hi Hj. rewrite EM. destruct (Hyp i j Hi Hj) as [H1 H2]. destruct (at_ v i j); [|congruence].
        destruct m; [rewrite H2|]; reflexivity. }
      set (g := sf_shows _).
      assert (G : forall px py a b, g px py a b <->
         at_pos (if rx then rev x else x) (if ry then rev y else y) (if ry then aflip1 (if rx then aflip0 v else v) else (if rx then aflip0 v else v)) px py a /\ b = false).
      { intros. unfold g, sf_shows, at_pos. cbn [sg ax ay values msk raw at_]. split.
        - intros (i & j & H1 & H2 & H3 & H4).
          assert (i < length x) by (apply nth_error_Some_lt in H1; destruct rx; rewrite ?rev_length in H1; exact H1).
          assert (j < length y) by (apply nth_error_Some_lt in H2; destruct ry; rewrite ?rev_length in H2; exact H2).
          rewrite EM' in H3, H4 by assumption. split; [exists i, j; auto|congruence].
        - intros ((i & j & H1 & H2 & H3) & ->). exists i, j.
          assert (i < length x) by (apply nth_error_Some_lt in H1; destruct rx; rewrite ?rev_length in H1; exact H1).
          assert (j < length y) by (apply nth_error_Some_lt in H2; destruct ry; rewrite ?rev_length in H2; exact H2).
          rewrite EM' by assumption. auto. }
      rewrite G. clear G g.
      assert (P : at_pos (if rx then rev x else x) (if ry then rev y else y) (if ry then aflip1 (if rx then aflip0 v else v) else (if rx then aflip0 v else v)) px py a
                  <-> at_pos x y v px py a).
      { destruct rx, ry; rewrite ?at_pos_flip1, ?at_pos_flip0 by (simpl; congruence); reflexivity. }
      rewrite P. unfold at_pos, given. split.
      * intros ((i & j & H1 & H2 & H3) & ->). exists i, j.
        pose proof (nth_error_Some_lt _ _ _ H1). pose proof (nth_error_Some_lt _ _ _ H2).
        rewrite <- EM, EM' by assumption. auto.
      * intros (i & j & H1 & H2 & H3 & H4).
        pose proof (nth_error_Some_lt _ _ _ H1). pose proof (nth_error_Some_lt _ _ _ H2).
        rewrite <- EM, EM' in H3 by assumption. subst b. split; [|reflexivity]. exists i, j. auto.
Qed.

(** ** C21: get_value *)
Section GetValue.
Variable cellinterp : sfield -> nat -> nat -> num -> num -> onum.


Lemma get_value_unfold f x y : ax (sg f) <> [] -> ay (sg f) <> [] -> inside f x y ->
  get_value cellinterp f x y =
  let (i0, i1) := axis_bounds (ax (sg f)) x in
  let (j0, j1) := axis_bounds (ay (sg f)) y in
  if (at_ (msk f) i0 j0 || at_ (msk f) i1 j1)%bool then Ok None
  else if (Nat.eqb i0 i1 && Nat.eqb j0 j1)%bool then Ok (at_ (values f) i0 j0)
  else if Nat.eqb i0 i1 then
    Ok (ointerp1 (nths (ay (sg f)) j0) (nths (ay (sg f)) j1) y (at_ (values f) i0 j0) (at_ (values f) i0 j1))
  else if Nat.eqb j0 j1 then
    Ok (ointerp1 (nths (ax (sg f)) i0) (nths (ax (sg f)) i1) x (at_ (values f) i0 j0) (at_ (values f) i1 j0))
  else Ok (cellinterp f i0 j0 x y).
Proof.
  intros Nx Ny (I1 & I2 & I3 & I4). unfold get_value.
  destruct (ax (sg f)) as [|a X] eqn:EX; [congruence|]. destruct (ay (sg f)) as [|b Y] eqn:EY; [congruence|].
  cbn [orb guard].
  assert ((qltb (last (a :: X) (qz 0)) x || qltb (last (b :: Y) (qz 0)) y
                       || qltb x (nths (a :: X) 0) || qltb y (nths (b :: Y) 0))%bool = false) as ->; [|reflexivity].
  rewrite !orb_false_iff, !qltb_ge. tauto.
Qed.
Lemma get_value_outside f x y : ax (sg f) <> [] -> ay (sg f) <> [] -> ~ inside f x y ->
  get_value cellinterp f x y = Err ValueErr.
Proof.
  intros Nx Ny N. unfold get_value, inside in *.
  destruct (ax (sg f)) as [|a X] eqn:EX; [congruence|]. destruct (ay (sg f)) as [|b Y] eqn:EY; [congruence|].
  cbn [orb guard].
  destruct (qltb_spec (last (a :: X) (qz 0)) x) as [|A1]; [reflexivity|].
  destruct (qltb_spec (last (b :: Y) (qz 0)) y) as [|A2]; [reflexivity|].
  destruct (qltb_spec x (nths (a :: X) 0)) as [|A3]; [reflexivity|].
  destruct (qltb_spec y (nths (b :: Y) 0)) as [|A4]; [reflexivity|]. exfalso. tauto.
Qed.
Lemma axis_bounds_node X x i : increasing X -> nth_error X i = Some x -> axis_bounds X x = (i, i).
Proof.
  intros H E. assert (X <> []) as N by (intros ->; destruct i; discriminate).
  pose proof (nth_error_Some_lt _ _ _ E) as L. pose proof (nth_error_nths _ _ _ E) as V.
  assert (nths X 0 <= x)%num as B1 by (rewrite <- V; apply increasing_nondecreasing; auto; lia).
  assert (x <= last X (qz 0))%num as B2 by (rewrite last_nths, <- V by exact N; apply increasing_nondecreasing; auto; lia).
  pose proof (axis_bounds_spec X x H N B1 B2) as S. destruct (axis_bounds X x) as [a b].
  destruct S as (La & Lb & [[-> E2]|(-> & E2 & E3)]).
  - rewrite <- V in E2. apply increasing_inj in E2; auto; now subst.
  - exfalso. rewrite <- V in E2, E3. apply increasing_lt_inv in E2; auto. apply increasing_lt_inv in E3; auto. lia.
Qed.
Lemma axis_bounds_between X x i : increasing X -> S i < length X ->
  (nths X i < x)%num -> (x < nths X (S i))%num -> axis_bounds X x = (i, S i).
Proof.
  intros H L B1 B2. assert (X <> []) as N by (intros ->; simpl in L; lia).
  assert (nths X 0 <= nths X i)%num as B3 by (apply increasing_nondecreasing; auto; lia).
  assert (nths X (S i) <= last X (qz 0))%num as B4 by (rewrite last_nths by exact N; apply increasing_nondecreasing; auto; lia).
  pose proof (axis_bounds_spec X x H N ltac:(qlra) ltac:(qlra)) as S. destruct (axis_bounds X x) as [a b].
  destruct S as (La & Lb & [[-> E2]|(-> & E2 & E3)]).
  - exfalso. rewrite <- E2 in B1, B2. apply increasing_lt_inv in B1; auto; try lia. apply increasing_lt_inv in B2; auto; lia.
  - assert (nths X a < nths X (S i))%num as Q1 by qlra. assert (nths X i < nths X (S a))%num as Q2 by qlra.
    apply increasing_lt_inv in Q1; auto; try lia. apply increasing_lt_inv in Q2; auto; try lia.
    assert (a = i) by lia. now subst.
Qed.
Lemma in_range X x i j : increasing X -> (nths X i <= x)%num -> (x <= nths X j)%num -> i < length X -> j < length X ->
  X <> [] /\ (nths X 0 <= x)%num /\ (x <= last X (qz 0))%num.
Proof.
  intros H A B Li Lj. assert (X <> []) as N by (intros ->; simpl in Li; lia). split; [exact N|].
  rewrite last_nths by exact N.
  pose proof (increasing_nondecreasing _ H 0 i ltac:(lia) Li). pose proof (increasing_nondecreasing _ H j (length X - 1) ltac:(lia) ltac:(lia)).
  qlra.
Qed.

Lemma get_value_node f x y v m : grid_sorted (sg f) -> sf_shows f x y v m -> get_value cellinterp f x y = Ok v.
Proof.
  intros [HX HY] (i & j & H1 & H2 & H3 & H4).
  pose proof (nth_error_Some_lt _ _ _ H1) as Li. pose proof (nth_error_Some_lt _ _ _ H2) as Lj.
  pose proof (nth_error_nths _ _ _ H1) as Vi. pose proof (nth_error_nths _ _ _ H2) as Vj.
  destruct (in_range _ x i i HX) as (N1 & R1 & R2); auto; try (rewrite Vi; apply qle_refl).
  destruct (in_range _ y j j HY) as (N2 & R3 & R4); auto; try (rewrite Vj; apply qle_refl).
  rewrite get_value_unfold by (repeat split; assumption).
  rewrite (axis_bounds_node _ _ _ HX H1), (axis_bounds_node _ _ _ HY H2).
  rewrite !Nat.eqb_refl. cbn [andb]. rewrite orb_diag.
  rewrite <- H3. cbn [values at_]. destruct (at_ (msk f) i j); reflexivity.
Qed.

Lemma interp1_line p1 p2 p a b : (p1 < p)%num -> (p < p2)%num -> on_line p1 p2 p a b (interp1 p1 p2 p a b).
Proof.
  intros H1 H2. unfold on_line, interp1.
  assert (qabs (p1 - p)%num = (p - p1)%num) as -> by (destruct (qabs_spec (p1 - p)%num) as [[? E]|[? E]]; [qlra|rewrite E; qlra]).
  assert (qabs (p2 - p)%num = (p2 - p)%num) as -> by (destruct (qabs_spec (p2 - p)%num) as [[? E]|[? E]]; [exact E|qlra]).
  assert (qabs (p1 - p2)%num = (p2 - p1)%num) as -> by (destruct (qabs_spec (p1 - p2)%num) as [[? E]|[? E]]; [qlra|rewrite E; qlra]).
  rewrite qdiv_mul by (apply qgt_neq; qlra). qring.
Qed.
Lemma on_line_bounds p1 p2 p a b r : (p1 < p)%num -> (p < p2)%num -> on_line p1 p2 p a b r ->
  (qmin a b <= r)%num /\ (r <= qmax a b)%num.
Proof.
  unfold on_line. intros H1 H2 E.
  destruct (qmin_spec a b) as [[L ->]|[L ->]], (qmax_spec a b) as [[L' ->]|[L' ->]]; try qlra; split.
  - destruct (qleb_spec a r) as [|C]; [assumption|]. exfalso. qnra.
  - destruct (qleb_spec r b) as [|C]; [assumption|]. exfalso. qnra.
  - destruct (qleb_spec b r) as [|C]; [assumption|]. exfalso. qnra.
  - destruct (qleb_spec r a) as [|C]; [assumption|]. exfalso. qnra.
Qed.
Lemma get_value_xline f i j x y : grid_sorted (sg f) -> S i < length (ax (sg f)) -> nth_error (ay (sg f)) j = Some y ->
  (nths (ax (sg f)) i < x)%num -> (x < nths (ax (sg f)) (S i))%num ->
  match at_ (values f) i j, at_ (values f) (S i) j with
  | Some a, Some b => exists r, get_value cellinterp f x y = Ok (Some r) /\
       on_line (nths (ax (sg f)) i) (nths (ax (sg f)) (S i)) x a b r /\ (qmin a b <= r)%num /\ (r <= qmax a b)%num
  | _, _ => get_value cellinterp f x y = Ok None
  end.
Proof.
  intros [HX HY] L H2 B1 B2. pose proof (nth_error_Some_lt _ _ _ H2) as Lj. pose proof (nth_error_nths _ _ _ H2) as Vj.
  destruct (in_range _ x i (S i) HX) as (N1 & R1 & R2); auto; try lia; try qlra.
  destruct (in_range _ y j j HY) as (N2 & R3 & R4); auto; try (rewrite Vj; apply qle_refl).
  rewrite get_value_unfold by (repeat split; assumption).
  rewrite (axis_bounds_between _ _ _ HX L B1 B2), (axis_bounds_node _ _ _ HY H2).
  assert (Nat.eqb i (S i) = false) as -> by (apply Nat.eqb_neq; lia). rewrite Nat.eqb_refl. cbn [andb values at_].
  destruct (at_ (msk f) i j), (at_ (msk f) (S i) j); cbn [orb]; try reflexivity; try (destruct (at_ (raw f) i j); reflexivity).
  destruct (at_ (raw f) i j) as [a|], (at_ (raw f) (S i) j) as [b|]; cbn [ointerp1]; try reflexivity.
  eexists. split; [reflexivity|]. pose proof (interp1_line _ _ _ a b B1 B2) as OL. split; [exact OL|].
  eapply on_line_bounds; [exact B1|exact B2|exact OL].
Qed.
Lemma get_value_yline f i j x y : grid_sorted (sg f) -> S j < length (ay (sg f)) -> nth_error (ax (sg f)) i = Some x ->
  (nths (ay (sg f)) j < y)%num -> (y < nths (ay (sg f)) (S j))%num ->
  match at_ (values f) i j, at_ (values f) i (S j) with
  | Some a, Some b => exists r, get_value cellinterp f x y = Ok (Some r) /\
       on_line (nths (ay (sg f)) j) (nths (ay (sg f)) (S j)) y a b r /\ (qmin a b <= r)%num /\ (r <= qmax a b)%num
  | _, _ => get_value cellinterp f x y = Ok None
  end.
Proof.
  intros [HX HY] L H2 B1 B2. pose proof (nth_error_Some_lt _ _ _ H2) as Lj. pose proof (nth_error_nths _ _ _ H2) as Vj.
  destruct (in_range _ y j (S j) HY) as (N1 & R1 & R2); auto; try lia; try qlra.
  destruct (in_range _ x i i HX) as (N2 & R3 & R4); auto; try (rewrite Vj; apply qle_refl).
  rewrite get_value_unfold by (repeat split; assumption).
  rewrite (axis_bounds_between _ _ _ HY L B1 B2), (axis_bounds_node _ _ _ HX H2).
  assert (Nat.eqb j (S j) = false) as -> by (apply Nat.eqb_neq; lia). rewrite Nat.eqb_refl. cbn [andb values at_].
  destruct (at_ (msk f) i j), (at_ (msk f) i (S j)); cbn [orb]; try reflexivity; try (destruct (at_ (raw f) i j); reflexivity).
  destruct (at_ (raw f) i j) as [a|], (at_ (raw f) i (S j)) as [b|]; cbn [ointerp1]; try reflexivity.
  eexists. split; [reflexivity|]. pose proof (interp1_line _ _ _ a b B1 B2) as OL. split; [exact OL|].
  eapply on_line_bounds; [exact B1|exact B2|exact OL].
Qed.
(** inside of a cell: NaN as soon as the lower-left or the upper-right corner is masked *)
Lemma get_value_cell f i j x y : grid_sorted (sg f) -> S i < length (ax (sg f)) -> S j < length (ay (sg f)) ->
  (nths (ax (sg f)) i < x)%num -> (x < nths (ax (sg f)) (S i))%num ->
  (nths (ay (sg f)) j < y)%num -> (y < nths (ay (sg f)) (S j))%num ->
  get_value cellinterp f x y =
  Ok (if (at_ (msk f) i j || at_ (msk f) (S i) (S j))%bool then None else cellinterp f i j x y).
Proof.
  intros [HX HY] L1 L2 B1 B2 B3 B4.
  destruct (in_range _ x i (S i) HX) as (N1 & R1 & R2); auto; try lia; try qlra.
  destruct (in_range _ y j (S j) HY) as (N2 & R3 & R4); auto; try lia; try qlra.
  rewrite get_value_unfold by (repeat split; assumption).
  rewrite (axis_bounds_between _ _ _ HX L1 B1 B2), (axis_bounds_between _ _ _ HY L2 B3 B4).
  assert (Nat.eqb i (S i) = false) as -> by (apply Nat.eqb_neq; lia).
  assert (Nat.eqb j (S j) = false) as -> by (apply Nat.eqb_neq; lia). cbn [andb].
  destruct (at_ (msk f) i j || at_ (msk f) (S i) (S j))%bool; reflexivity.
Qed.
End GetValue.
