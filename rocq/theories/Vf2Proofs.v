(** * Vf2Proofs: the sum of two vector fields. *)
From Coq Require Import Lia.
From Verif Require Import Num Res ListLib Arr FieldModel ScalarFieldModel VectorFieldModel PointsModel TemporalModel AsciiModel SpatialModel FieldSpec FieldProofs FieldProofs2 ScalarProofs FieldProofs3
  GradSpec GradProofs GradProofs2 SpatialSpec Vf2Model Vf2Spec.

(** ** the two components as scalar fields *)
Definition xf (f : vfield) : sfield := mksf (vg f) (cx f) (vmsk f) (vuv f).
Definition yf (f : vfield) : sfield := mksf (vg f) (cy f) (vmsk f) (vuv f).
Lemma tidy_at f i j : vf_tidy f -> i < length (ax (vg f)) -> j < length (ay (vg f)) ->
  isnan (at_ (cx f) i j) = at_ (vmsk f) i j /\ isnan (at_ (cy f) i j) = at_ (vmsk f) i j.
Proof.
  intros T Hi Hj. destruct (T (nths (ax (vg f)) i) (nths (ay (vg f)) j) (at_ (cx f) i j) (at_ (cy f) i j) (at_ (vmsk f) i j)) as [A B].
  { exists i, j. repeat split; now apply nths_nth_error. }
  split; now apply clean_isnan.
Qed.
Lemma masked_none (v : onum) (b : bool) : isnan v = b -> (if b then None else v) = v.
Proof. intros <-. destruct v; reflexivity. Qed.
Lemma xf_values f i j : vf_tidy f -> i < length (ax (vg f)) -> j < length (ay (vg f)) ->
  at_ (values (xf f)) i j = at_ (cx f) i j /\ at_ (values (yf f)) i j = at_ (cy f) i j.
Proof. intros T Hi Hj. destruct (tidy_at f i j T Hi Hj) as [A B]. split; cbn; now apply masked_none. Qed.
Lemma xf_clean f : vf_tidy f -> sf_clean (xf f) /\ sf_clean (yf f).
Proof.
  intro T. split; intros x y v m (i & j & E1 & E2 & <- & <-); cbn [sg xf yf] in E1, E2;
    pose proof (nth_error_Some_lt _ _ _ E1) as Li; pose proof (nth_error_Some_lt _ _ _ E2) as Lj;
    destruct (xf_values f i j T Li Lj) as [-> _] || destruct (xf_values f i j T Li Lj) as [_ ->];
    destruct (T _ _ _ _ _ (ex_intro _ i (ex_intro _ j (conj E1 (conj E2 (conj eq_refl (conj eq_refl eq_refl))))))) as [A B]; assumption.
Qed.
Lemma shows_split f x y v w m : grid_sorted (vg f) -> vf_tidy f ->
  (vf_shows f x y v w m <-> sf_shows (xf f) x y v m /\ sf_shows (yf f) x y w m).
Proof.
  intros [SX SY] T. split.
  - intros (i & j & E1 & E2 & <- & <- & <-). pose proof (nth_error_Some_lt _ _ _ E1) as Li. pose proof (nth_error_Some_lt _ _ _ E2) as Lj.
    destruct (xf_values f i j T Li Lj) as [A B]. split; exists i, j; repeat split; auto.
  - intros [(i & j & E1 & E2 & A & B) (i' & j' & E1' & E2' & A' & B')]. cbn [sg xf yf] in *.
    pose proof (nth_error_Some_lt _ _ _ E1) as Li. pose proof (nth_error_Some_lt _ _ _ E2) as Lj.
    pose proof (nth_error_Some_lt _ _ _ E1') as Li'. pose proof (nth_error_Some_lt _ _ _ E2') as Lj'.
    assert (i' = i) as ->. { apply (increasing_inj _ _ _ SX Li' Li). rewrite (nth_error_nths _ _ _ E1), (nth_error_nths _ _ _ E1'). reflexivity. }
    assert (j' = j) as ->. { apply (increasing_inj _ _ _ SY Lj' Lj). rewrite (nth_error_nths _ _ _ E2), (nth_error_nths _ _ _ E2'). reflexivity. }
    destruct (xf_values f i j T Li Lj) as [V W]. exists i, j. rewrite <- A, <- A', V, W. repeat split; auto.
Qed.
(** a field whose components are sums of the components is a sum of fields *)
Lemma sum_by_components f h s sx sy : grid_sorted (vg f) -> grid_sorted (vg h) -> vf_tidy f -> vf_tidy h -> grid_sorted (vg s) -> vf_tidy s ->
  (forall x y v m, sf_shows (xf s) x y v m <-> sf_shows sx x y v m) -> (forall x y v m, sf_shows (yf s) x y v m <-> sf_shows sy x y v m) ->
  (forall x y v m, sf_shows sx x y v m <-> exists v1 m1 v2 m2, sf_shows (xf f) x y v1 m1 /\ sf_shows (xf h) x y v2 m2 /\ m = orb m1 m2 /\
     osum_phys v (vuv f) v1 (vuv f) v2 (vuv h)) ->
  (forall x y v m, sf_shows sy x y v m <-> exists v1 m1 v2 m2, sf_shows (yf f) x y v1 m1 /\ sf_shows (yf h) x y v2 m2 /\ m = orb m1 m2 /\
     osum_phys v (vuv f) v1 (vuv f) v2 (vuv h)) -> shows_sum f h s.
Proof.
  intros Sf Sh Tf Th Ss Ts Ex Ey Hx Hy x y v w m. rewrite (shows_split s) by assumption. rewrite Ex, Ey, Hx, Hy. split.
  - intros [(v1 & m1 & v2 & m2 & A1 & A2 & A3 & A4) (w1 & n1 & w2 & n2 & B1 & B2 & B3 & B4)].
    assert (forall g a b c d e, grid_sorted (vg g) -> sf_shows (xf g) x y a b -> sf_shows (yf g) x y c d -> e = b -> d = e) as U.
    { intros g a b c d e [SX SY] (i & j & E1 & E2 & _ & E4) (i' & j' & E1' & E2' & _ & E4') ->. cbn [sg xf yf msk] in *.
      assert (i' = i) as ->. { apply (increasing_inj _ _ _ SX); eauto using nth_error_Some_lt. rewrite (nth_error_nths _ _ _ E1), (nth_error_nths _ _ _ E1'). reflexivity. }
      assert (j' = j) as ->. { apply (increasing_inj _ _ _ SY); eauto using nth_error_Some_lt. rewrite (nth_error_nths _ _ _ E2), (nth_error_nths _ _ _ E2'). reflexivity. }
      congruence. }
    assert (n1 = m1) as -> by (eapply (U f); eauto). assert (n2 = m2) as -> by (eapply (U h); eauto).
    exists v1, w1, m1, v2, w2, m2. rewrite !shows_split by assumption. auto 10.
  - intros (v1 & w1 & m1 & v2 & w2 & m2 & A & B & -> & P & Q). rewrite shows_split in A, B by assumption. destruct A as [A1 A2], B as [B1 B2]. split.
    + exists v1, m1, v2, m2. auto.
    + exists w1, m1, w2, m2. auto.
Qed.

(** ** the selection of points *)
Lemma fuzzy_iff a b v : well_apart a b -> no_common_zero a b -> In v a -> (fuzzy_in v b = true <-> In v b).
Proof.
  intros W Z Hv. unfold fuzzy_in. rewrite existsb_exists. split.
  - intros (o & Ho & H). apply qltb_lt in H. destruct (Qc_eq_dec v o) as [->|N]; [exact Ho|]. exfalso.
    destruct (W v o Hv Ho N) as [W1 _]. assert (qq 1 10000 * qz 10000 = 1)%num as E by (apply Qc_is_canon; reflexivity).
    assert (qabs v * qq 1 10000 <= qabs (v - o))%num as L.
    { replace (qabs (v - o)) with ((qz 10000 * qabs (v - o)) * qq 1 10000)%num by (transitivity ((qq 1 10000 * qz 10000) * qabs (v - o))%num; [qring|rewrite E; qring]).
      apply qmul_le_r; [discriminate|exact W1]. }
    eapply qlt_irrefl. eapply qlt_le_trans; eassumption.
  - intro H. exists v. split; [exact H|]. apply qltb_lt. assert (v <> 0)%num as N by (intros ->; apply Z; auto).
    replace (v - v)%num with 0%num by qring. replace (qabs 0) with 0%num by reflexivity.
    apply qmul_pos; [|reflexivity]. destruct (qneq_cases _ _ N) as [L|L]; destruct (qabs_spec v) as [[H1 ->]|[H1 ->]]; qlra.
Qed.
Lemma fuzzy_where a b : well_apart a b -> no_common_zero a b -> fuzzy_idx a b = where_in a b.
Proof.
  intros W Z. unfold fuzzy_idx, where_in. apply filter_ext_in. intros i Hi. apply in_seq in Hi.
  apply Bool.eq_iff_eq_true. rewrite memq_In. apply fuzzy_iff with (a := a); auto. apply nth_In. lia.
Qed.
Lemma apart_sym a b : well_apart a b -> well_apart b a.
Proof.
  intros W p q Hp Hq N. destruct (W q p Hq Hp (not_eq_sym N)) as [A B]. replace (qabs (p - q)) with (qabs (q - p)); [auto|].
  replace (p - q)%num with (- (q - p))%num by qring. now rewrite qabs_opp.
Qed.

(** ** numpy's boolean indexing *)
Lemma bsel_length {A} ix iy (a : arr A) : length (bsel ix iy a) = length ix * length iy.
Proof. unfold bsel. induction ix as [|i ix IH]; [reflexivity|]. cbn [flat_map length]. rewrite app_length, map_length, IH. lia. Qed.
Lemma bsel_nth {A} ix iy (a : arr A) d i j : i < length ix -> j < length iy ->
  nth (i * length iy + j) (bsel ix iy a) d = at_ a (nth i ix 0) (nth j iy 0).
Proof.
  unfold bsel. revert i. induction ix as [|k ix IH]; intros i Hi Hj; [simpl in Hi; lia|]. cbn [flat_map].
  assert (L : length (map (fun j => at_ a k j) iy) = length iy) by apply map_length.
  destruct i as [|i].
  - rewrite app_nth1 by lia. cbn [nth Nat.mul Nat.add]. rewrite (nth_indep _ d (at_ a k 0)) by lia. now rewrite (map_nth (fun j => at_ a k j)).
  - rewrite app_nth2 by lia. rewrite L. replace (S i * length iy + j - length iy) with (i * length iy + j) by lia. cbn [nth]. apply IH; simpl in Hi; lia.
Qed.
Lemma bcast_same {A B C} (g : A -> B -> C) l k : length l = length k -> bcast g l k = Ok (map (fun p => g (fst p) (snd p)) (combine l k)).
Proof. intro E. unfold bcast. now rewrite E, Nat.eqb_refl. Qed.
Lemma reshape_sel {A B C D} (g : A -> C -> D) (t : B -> C) ix iy jx jy (a : arr A) (b : arr B) d : length ix = length jx -> length iy = length jy ->
  exists r, (let* l := bcast g (bsel ix iy a) (map t (bsel jx jy b)) in reshape d (length ix) (length iy) l) = Ok r /\
    d0 r = length ix /\ d1 r = length iy /\
    forall i j, i < length ix -> j < length iy -> at_ r i j = g (at_ a (nth i ix 0) (nth j iy 0)) (t (at_ b (nth i jx 0) (nth j jy 0))).
Proof.
  intros Lx Ly. rewrite bcast_same by (rewrite map_length, !bsel_length; congruence). cbn [bind]. unfold reshape.
  rewrite map_length, combine_length, map_length, !bsel_length, <- Lx, <- Ly, Nat.min_id, Nat.eqb_refl. cbn [negb guard].
  eexists. split; [reflexivity|]. split; [reflexivity|]. split; [reflexivity|]. intros i j Hi Hj. cbn [at_].
  assert (K : i * length iy + j < length ix * length iy) by nia.
  apply nth_error_nth. rewrite nth_error_map.
  assert (forall T (l : list T) n x, n < length l -> (forall d', nth n l d' = x) -> nth_error l n = Some x) as NE.
  { intros T l n x Hn Hx. destruct (nth_error l n) as [y|] eqn:E; [|apply nth_error_None in E; lia]. f_equal. rewrite <- (Hx y). symmetry. now apply nth_error_nth. }
  assert (nth_error (combine (bsel ix iy a) (map t (bsel jx jy b))) (i * length iy + j) =
    Some (at_ a (nth i ix 0) (nth j iy 0), t (at_ b (nth i jx 0) (nth j jy 0)))) as ->; [|reflexivity].
  apply NE; [rewrite combine_length, map_length, !bsel_length; nia|]. intros [d1' d2']. rewrite combine_nth by (rewrite map_length, !bsel_length; congruence).
  f_equal; [now apply bsel_nth|]. rewrite (nth_indep _ d2' (t (at_ b 0 0))) by (rewrite map_length, bsel_length; nia). rewrite map_nth. f_equal.
  rewrite Ly. apply bsel_nth; congruence.
Qed.

(** ** the sum *)
Lemma vcompat_guard f h : vcompatible f h ->
  negb (dim_eqb (dim (vuv f)) (dim (vuv h)) && dim_eqb (dim (ux (vg f))) (dim (ux (vg h))) && dim_eqb (dim (uy (vg f))) (dim (uy (vg h))))%bool = false.
Proof. intro C. exact (compat_guard (xf f) (xf h) C). Qed.
Lemma two_len a b : increasing a -> two_common a b -> 2 <= length (where_in a b).
Proof.
  intros Ha (p & q & N & P1 & Q1 & P2 & Q2). destruct (where_in_coords a b Ha) as [_ C].
  assert (In p (map (fun i => nths a i) (where_in a b))) as H1 by (apply C; auto).
  assert (In q (map (fun i => nths a i) (where_in a b))) as H2 by (apply C; auto).
  rewrite <- (map_length (fun i => nths a i)). destruct (map (fun i => nths a i) (where_in a b)) as [|c [|d l]]; simpl in *; try lia; intuition congruence.
Qed.
Lemma orb_nan (a b : onum) k : isnan (oadd a (oscale k b)) = orb (isnan a) (isnan b).
Proof. destruct a, b; reflexivity. Qed.
Lemma shows_ext s t : ax (sg s) = ax (sg t) -> ay (sg s) = ay (sg t) ->
  (forall i j, i < length (ax (sg s)) -> j < length (ay (sg s)) -> at_ (values s) i j = at_ (values t) i j /\ at_ (msk s) i j = at_ (msk t) i j) ->
  forall x y v m, sf_shows s x y v m <-> sf_shows t x y v m.
Proof.
  intros X Y C x y v m. split.
  - intros (i & j & E1 & E2 & E3 & E4). destruct (C i j) as [A B]; [eapply nth_error_Some_lt; eauto|eapply nth_error_Some_lt; eauto|].
    exists i, j. rewrite <- X, <- Y, <- A, <- B. auto.
  - intros (i & j & E1 & E2 & E3 & E4). rewrite <- X in E1. rewrite <- Y in E2. destruct (C i j) as [A B]; [eapply nth_error_Some_lt; eauto|eapply nth_error_Some_lt; eauto|].
    exists i, j. rewrite A, B. auto.
Qed.

Lemma vf_sum_same f h : vcompatible f h -> good_unit (vuv f) -> vf_wf f -> vf_wf h -> vf_tidy f -> vf_tidy h -> grid_sorted (vg f) ->
  ax (vg f) = ax (vg h) -> ay (vg f) = ay (vg h) ->
  exists s, vf_add f h = Ok s /\ vg s = vg f /\ vuv s = vuv f /\ vf_wf s /\ vf_tidy s /\ shows_sum f h s.
Proof.
  intros C G Wf Wh Tf Th Sf EX EY. unfold vf_add. rewrite vcompat_guard by exact C. cbn [guard].
  assert ((list_eqb (ax (vg f)) (ax (vg h)) && list_eqb (ay (vg f)) (ay (vg h)))%bool = true) as ->.
  { rewrite andb_true_iff, !list_eqb_eq. auto. }
  unfold vf_add_same. rewrite vcompat_guard by exact C. cbn [guard].
  destruct C as (C1 & C2 & C3). destruct (conv_spec (vuv h) (vuv f) G) as [K _]. destruct (K (eq_sym C1)) as (k & Ek & Kk).
  rewrite Ek. cbn [bind].
  destruct Wf as ([W1 W2] & [W3 W4] & [W5 W6]).
  assert (Sh : grid_sorted (vg h)) by (unfold grid_sorted in *; rewrite <- EX, <- EY; exact Sf).
  assert (CE : forall i j, i < length (ax (vg f)) -> j < length (ay (vg f)) ->
    isnan (oadd (at_ (cx f) i j) (oscale k (at_ (cx h) i j))) = orb (at_ (vmsk f) i j) (at_ (vmsk h) i j) /\
    isnan (oadd (at_ (cy f) i j) (oscale k (at_ (cy h) i j))) = orb (at_ (vmsk f) i j) (at_ (vmsk h) i j)).
  { intros i j Hi Hj. destruct (tidy_at f i j Tf Hi Hj) as [A B]. destruct (tidy_at h i j Th) as [A' B']; [congruence|congruence|].
    rewrite !orb_nan. split; congruence. }
  eexists. split; [reflexivity|]. split; [reflexivity|]. split; [reflexivity|].
  set (s := mkvf _ _ _ _ _).
  assert (Ts : vf_tidy s).
  { intros x y v w m (i & j & E1 & E2 & <- & <- & <-). cbn [vg s] in E1, E2.
    pose proof (nth_error_Some_lt _ _ _ E1) as Li. pose proof (nth_error_Some_lt _ _ _ E2) as Lj. destruct (CE i j Li Lj) as [A B].
    cbn. destruct (orb (at_ (vmsk f) i j) (at_ (vmsk h) i j)); [tauto|].
    split; (split; [|discriminate]); intro E; [rewrite E in A; discriminate|rewrite E in B; discriminate]. }
  split; [repeat split; cbn; assumption|]. split; [exact Ts|].
  destruct (sf_add_same_lemma (xf f) (xf h)) as (sx & Ex & Gx & Ux & _ & Hx); [split; [exact C1|split; [exact C2|exact C3]]|exact G|apply Sf|apply Sf|exact EX|exact EY|repeat split; assumption|].
  destruct (sf_add_same_lemma (yf f) (yf h)) as (sy & Ey & Gy & Uy & _ & Hy); [split; [exact C1|split; [exact C2|exact C3]]|exact G|apply Sf|apply Sf|exact EX|exact EY|repeat split; assumption|].
  unfold sf_add in Ex, Ey. rewrite compat_guard in Ex, Ey by (split; [exact C1|split; [exact C2|exact C3]]). cbn [guard uv xf yf] in Ex, Ey. rewrite Ek in Ex, Ey. cbn [bind sg xf yf] in Ex, Ey.
  assert ((list_eqb (ax (vg f)) (ax (vg h)) && list_eqb (ay (vg f)) (ay (vg h)))%bool = true) as LE.
  { rewrite andb_true_iff, !list_eqb_eq. auto. }
  rewrite LE in Ex, Ey. apply Ok_inj in Ex, Ey || (injection Ex as Ex; injection Ey as Ey).
  apply (sum_by_components f h s sx sy); auto.
  - apply shows_ext; [now rewrite Gx|now rewrite Gx|]. intros i j Hi Hj. subst sx. cbn [sg xf s vg] in Hi, Hj. destruct (CE i j Hi Hj) as [A B].
    cbn. split; [|reflexivity]. destruct (tidy_at f i j Tf Hi Hj) as [A1 A2]. destruct (tidy_at h i j Th) as [B1 B2]; [congruence|congruence|].
    rewrite (masked_none _ _ A1), (masked_none _ _ B1). rewrite <- A. destruct (oadd (at_ (cx f) i j) (oscale k (at_ (cx h) i j))); reflexivity.
  - apply shows_ext; [now rewrite Gy|now rewrite Gy|]. intros i j Hi Hj. subst sy. cbn [sg yf s vg] in Hi, Hj. destruct (CE i j Hi Hj) as [A B].
    cbn. split; [|reflexivity]. destruct (tidy_at f i j Tf Hi Hj) as [A1 A2]. destruct (tidy_at h i j Th) as [B1 B2]; [congruence|congruence|].
    rewrite (masked_none _ _ A2), (masked_none _ _ B2). rewrite <- B. destruct (oadd (at_ (cy f) i j) (oscale k (at_ (cy h) i j))); reflexivity.
Qed.

Lemma vf_sum_diff f h : vcompatible f h -> good_unit (vuv f) -> vf_wf f -> vf_wf h -> vf_tidy f -> vf_tidy h -> grid_sorted (vg f) -> grid_sorted (vg h) ->
  (ax (vg f) <> ax (vg h) \/ ay (vg f) <> ay (vg h)) ->
  well_apart (ax (vg f)) (ax (vg h)) -> well_apart (ay (vg f)) (ay (vg h)) ->
  no_common_zero (ax (vg f)) (ax (vg h)) -> no_common_zero (ay (vg f)) (ay (vg h)) ->
  two_common (ax (vg f)) (ax (vg h)) -> two_common (ay (vg f)) (ay (vg h)) ->
  exists s, vf_add f h = Ok s /\ vuv s = vuv f /\ ux (vg s) = ux (vg f) /\ uy (vg s) = uy (vg f) /\ vf_wf s /\ vf_tidy s /\ grid_sorted (vg s) /\
    (forall x, In x (ax (vg s)) <-> In x (ax (vg f)) /\ In x (ax (vg h))) /\
    (forall y, In y (ay (vg s)) <-> In y (ay (vg f)) /\ In y (ay (vg h))) /\ shows_sum f h s.
Proof.
  intros C G Wf Wh Tf Th Sf Sh D AX AY ZX ZY TX TY. unfold vf_add. rewrite vcompat_guard by exact C. cbn [guard].
  assert ((list_eqb (ax (vg f)) (ax (vg h)) && list_eqb (ay (vg f)) (ay (vg h)))%bool = false) as LE.
  { apply not_true_iff_false. rewrite andb_true_iff, !list_eqb_eq. tauto. }
  assert (ZX' : no_common_zero (ax (vg h)) (ax (vg f))) by (intros [? ?]; apply ZX; auto).
  assert (ZY' : no_common_zero (ay (vg h)) (ay (vg f))) by (intros [? ?]; apply ZY; auto).
  rewrite LE. rewrite !fuzzy_where by auto using apart_sym.
  set (ix := where_in (ax (vg f)) (ax (vg h))). set (iy := where_in (ay (vg f)) (ay (vg h))).
  set (jx := where_in (ax (vg h)) (ax (vg f))). set (jy := where_in (ay (vg h)) (ay (vg f))).
  destruct C as (C1 & C2 & C3). pose proof (conj C1 (conj C2 C3) : vcompatible f h) as C.
  destruct (conv_spec (vuv h) (vuv f) G) as [K _]. destruct (K (eq_sym C1)) as (k & Ek & Kk).
  destruct Sf as [SX SY], Sh as [RX RY].
  assert (LX : 2 <= length ix) by (now apply two_len). assert (LY : 2 <= length iy) by (now apply two_len).
  assert (Lx : length ix = length jx) by (now apply where_in_length). assert (Ly : length iy = length jy) by (now apply where_in_length).
  assert ((is_nil ix || is_nil iy)%bool = false) as -> by (destruct ix, iy; simpl in LX, LY; try lia; reflexivity).
  cbn [guard]. rewrite Ek. cbn [bind].
  assert (PX : length (pick_axis ix (ax (vg f))) = length ix) by apply map_length.
  assert (PY : length (pick_axis iy (ay (vg f))) = length iy) by apply map_length.
  destruct (reshape_sel oadd (oscale k) ix iy jx jy (cx f) (cx h) None Lx Ly) as (vx & Ex & X0 & X1 & Xc).
  destruct (reshape_sel oadd (oscale k) ix iy jx jy (cy f) (cy h) None Lx Ly) as (vy & Ey & Y0 & Y1 & Yc).
  destruct (reshape_sel orb (fun b => b) ix iy jx jy (vmsk f) (vmsk h) false Lx Ly) as (mm & Em & M0 & M1 & Mc).
  rewrite map_id in Em. rewrite PX, PY.
  destruct (bcast oadd (bsel ix iy (cx f)) (map (oscale k) (bsel jx jy (cx h)))) as [lx|]; [|discriminate]. cbn [bind] in Ex |- *.
  destruct (bcast oadd (bsel ix iy (cy f)) (map (oscale k) (bsel jx jy (cy h)))) as [ly|]; [|discriminate]. cbn [bind] in Ey |- *.
  rewrite Ex. cbn [bind]. rewrite Ey. cbn [bind].
  destruct (bcast orb (bsel ix iy (vmsk f)) (bsel jx jy (vmsk h))) as [lm|]; [|discriminate]. cbn [bind] in Em |- *. rewrite Em. cbn [bind].
  destruct (where_in_coords (ax (vg f)) (ax (vg h)) SX) as [IX CX]. destruct (where_in_coords (ay (vg f)) (ay (vg h)) SY) as [IY CY].
  destruct (vf_import_plain (pick_axis ix (ax (vg f))) (pick_axis iy (ay (vg f))) vx vy mm (ux (vg f)) (uy (vg f)) (vuv f)) as (s & Es & Os & Cs);
    [exact IX|exact IY|now rewrite PX|now rewrite PY|split; congruence|split; congruence|split; congruence|].
  destruct Os as (Gs & Us & Ws). rewrite Es.
  assert (GX : ax (vg s) = pick_axis ix (ax (vg f))) by (now rewrite Gs). assert (GY : ay (vg s) = pick_axis iy (ay (vg f))) by (now rewrite Gs).
  assert (BX : forall a, a < length ix -> nth a ix 0 < length (ax (vg f)) /\ nth a jx 0 < length (ax (vg h))).
  { intros a Ha. split; [apply (in_where_in _ (ax (vg h)))|apply (in_where_in _ (ax (vg f)))]; apply nth_In; fold ix jx; lia. }
  assert (BY : forall a, a < length iy -> nth a iy 0 < length (ay (vg f)) /\ nth a jy 0 < length (ay (vg h))).
  { intros a Ha. split; [apply (in_where_in _ (ay (vg h)))|apply (in_where_in _ (ay (vg f)))]; apply nth_In; fold iy jy; lia. }
  assert (NAN : forall a b, a < length ix -> b < length iy ->
    isnan (at_ vx a b) = at_ mm a b /\ isnan (at_ vy a b) = at_ mm a b).
  { intros a b Ha Hb. rewrite Xc, Yc, Mc, !orb_nan by assumption. destruct (BX a Ha) as [B1 B2], (BY b Hb) as [B3 B4].
    destruct (tidy_at f _ _ Tf B1 B3) as [-> ->]. destruct (tidy_at h _ _ Th B2 B4) as [-> ->]. auto. }
  assert (CE : forall a b, a < length ix -> b < length iy ->
    at_ (vmsk s) a b = at_ mm a b /\ at_ (cx s) a b = at_ vx a b /\ at_ (cy s) a b = at_ vy a b).
  { intros a b Ha Hb. destruct (Cs a b) as (-> & -> & ->). destruct (NAN a b Ha Hb) as [N1 N2]. rewrite N1, N2.
    destruct (at_ mm a b) eqn:Q; cbn [orb]; [|auto]. destruct (at_ vx a b), (at_ vy a b); try discriminate; auto. }
  assert (Ts : vf_tidy s).
  { intros x y v w m (a & b & E1 & E2 & <- & <- & <-).
    assert (a < length ix) as La. { apply nth_error_Some_lt in E1. rewrite GX, PX in E1. exact E1. }
    assert (b < length iy) as Lb. { apply nth_error_Some_lt in E2. rewrite GY, PY in E2. exact E2. }
    destruct (CE a b La Lb) as (-> & -> & ->). destruct (NAN a b La Lb) as [N1 N2]. rewrite <- N1 at 1. rewrite <- N2.
    destruct (at_ vx a b), (at_ vy a b); cbn; split; split; congruence. }
  exists s. split; [reflexivity|]. split; [exact Us|]. split; [now rewrite Gs|]. split; [now rewrite Gs|]. split; [exact Ws|]. split; [exact Ts|].
  split; [split; [now rewrite GX|now rewrite GY]|]. split; [intro x; rewrite GX; apply CX|]. split; [intro y; rewrite GY; apply CY|].
  assert (KX : 2 <= length (filter (fun x => memq x (ax (vg h))) (ax (vg f))) /\ 2 <= length (filter (fun x => memq x (ay (vg h))) (ay (vg f)))).
  { assert (forall a b, two_common a b -> 2 <= length (filter (fun x => memq x b) a)) as FF.
    { intros a b (p & q & N & P1 & Q1 & P2 & Q2).
      assert (In p (filter (fun x => memq x b) a)) as H1 by (apply filter_In; split; [auto|now apply memq_In]).
      assert (In q (filter (fun x => memq x b) a)) as H2 by (apply filter_In; split; [auto|now apply memq_In]).
      destruct (filter (fun x => memq x b) a) as [|c [|d l]]; simpl in *; try lia; intuition congruence. }
    split; apply FF; assumption. }
  destruct (xf_clean f Tf) as [F1 F2], (xf_clean h Th) as [H1 H2].
  destruct (sf_add_diff_lemma (xf f) (xf h) C G (conj SX SY) (conj RX RY) D (proj1 KX) (proj2 KX)) as (sx & E1 & _ & _ & _ & _ & _ & _ & _ & Hx).
  destruct (sf_add_diff_lemma (yf f) (yf h) C G (conj SX SY) (conj RX RY) D (proj1 KX) (proj2 KX)) as (sy & E2 & _ & _ & _ & _ & _ & _ & _ & Hy).
  assert (forall (c d : arr onum), let F := mksf (vg f) c (vmsk f) (vuv f) in let H := mksf (vg h) d (vmsk h) (vuv h) in
     exists r, sf_add F H = Ok r /\ ax (sg r) = pick_axis ix (ax (vg f)) /\ ay (sg r) = pick_axis iy (ay (vg f)) /\
       forall a b, let w := oadd (at_ (values F) (nth a ix 0) (nth b iy 0)) (oscale k (at_ (values H) (nth a jx 0) (nth b jy 0))) in
         let q := orb (orb (at_ (vmsk f) (nth a ix 0) (nth b iy 0)) (at_ (vmsk h) (nth a jx 0) (nth b jy 0))) (isnan w) in
         at_ (msk r) a b = q /\ at_ (values r) a b = if q then None else w) as RUN.
  { intros c d F H. unfold sf_add. rewrite (compat_guard F H) by exact C. cbn [guard uv F H]. rewrite Ek. cbn [bind sg F H]. rewrite LE.
    fold ix iy jx jy. assert ((match ix with [] => true | _ => false end || match iy with [] => true | _ => false end)%bool = false) as ->.
    { destruct ix, iy; simpl in LX, LY; try lia; reflexivity. }
    rewrite <- Lx, <- Ly, !Nat.eqb_refl. cbn [andb negb guard].
    rewrite sf_import_plain; [|exact IX|exact IY|now rewrite map_length|now rewrite map_length|cbn; now rewrite map_length|cbn; now rewrite map_length].
    eexists. split; [reflexivity|]. split; [reflexivity|]. split; [reflexivity|]. intros a b. split; reflexivity. }
  apply (sum_by_components f h s sx sy); auto; try (split; assumption); try (split; [now rewrite GX|now rewrite GY]).
  - destruct (RUN (cx f) (cx h)) as (r & Er & R1 & R2 & Rc). assert (r = sx) as -> by (cbv zeta in Er; unfold xf in E1; congruence).
    apply shows_ext; [cbn; congruence|cbn; congruence|]. intros a b Ha Hb. cbn [sg xf] in Ha, Hb. rewrite GX, PX in Ha. rewrite GY, PY in Hb.
    destruct (Rc a b) as [-> ->]. destruct (CE a b Ha Hb) as (V1 & V2 & V3). destruct (NAN a b Ha Hb) as [N1 N2].
    destruct (BX a Ha) as [B1 B2], (BY b Hb) as [B3 B4]. destruct (tidy_at f _ _ Tf B1 B3) as [I1 I2]. destruct (tidy_at h _ _ Th B2 B4) as [I3 I4].
    cbn [values at_ msk raw xf]. rewrite (masked_none _ _ I1), (masked_none _ _ I3). rewrite <- (Xc a b Ha Hb), N1, V1, V2.
    rewrite <- (Mc a b Ha Hb). rewrite Bool.orb_diag. auto.
  - destruct (RUN (cy f) (cy h)) as (r & Er & R1 & R2 & Rc). assert (r = sy) as -> by (cbv zeta in Er; unfold yf in E2; congruence).
    apply shows_ext; [cbn; congruence|cbn; congruence|]. intros a b Ha Hb. cbn [sg yf] in Ha, Hb. rewrite GX, PX in Ha. rewrite GY, PY in Hb.
    destruct (Rc a b) as [-> ->]. destruct (CE a b Ha Hb) as (V1 & V2 & V3). destruct (NAN a b Ha Hb) as [N1 N2].
    destruct (BX a Ha) as [B1 B2], (BY b Hb) as [B3 B4]. destruct (tidy_at f _ _ Tf B1 B3) as [I1 I2]. destruct (tidy_at h _ _ Th B2 B4) as [I3 I4].
    cbn [values at_ msk raw yf]. rewrite (masked_none _ _ I2), (masked_none _ _ I4). rewrite <- (Yc a b Ha Hb), N2, V1, V3.
    rewrite <- (Mc a b Ha Hb). rewrite Bool.orb_diag. auto.
Qed.
(** units of other dimensions are refused *)
Lemma vf_sum_incompatible f h : ~ vcompatible f h -> vf_add f h = Err ValueErr.
Proof. intro C. unfold vf_add. pose proof (compat_guard_not (xf f) (xf h) C) as E. cbn [uv sg xf] in E. now rewrite E. Qed.
(** no common coordinate along an axis *)
Lemma vf_sum_disjoint f h : grid_sorted (vg f) -> grid_sorted (vg h) -> vcompatible f h -> good_unit (vuv f) ->
  (ax (vg f) <> ax (vg h) \/ ay (vg f) <> ay (vg h)) ->
  well_apart (ax (vg f)) (ax (vg h)) -> well_apart (ay (vg f)) (ay (vg h)) ->
  ((forall x, In x (ax (vg f)) -> ~ In x (ax (vg h))) \/ (forall y, In y (ay (vg f)) -> ~ In y (ay (vg h)))) -> vf_add f h = Err ValueErr.
Proof.
  intros [SX SY] [RX RY] C G D AX AY N. unfold vf_add. rewrite vcompat_guard by exact C. cbn [guard].
  assert ((list_eqb (ax (vg f)) (ax (vg h)) && list_eqb (ay (vg f)) (ay (vg h)))%bool = false) as ->.
  { apply not_true_iff_false. rewrite andb_true_iff, !list_eqb_eq. tauto. }
  assert (forall a b, (forall x, In x a -> ~ In x b) -> no_common_zero a b) as NZ by (intros a b H [H1 H2]; exact (H _ H1 H2)).
  destruct N as [N|N].
  - rewrite (fuzzy_where (ax (vg f)) (ax (vg h))) by auto. rewrite (proj2 (common_nil _ _ SX) N). reflexivity.
  - rewrite (fuzzy_where (ay (vg f)) (ay (vg h))) by auto. rewrite (proj2 (common_nil _ _ SY) N). now rewrite orb_true_r.
Qed.
