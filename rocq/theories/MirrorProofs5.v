(** * MirrorProofs5: mirroring of a scalar field *)
From Verif Require Import Num Res ListLib Arr FieldModel FieldSpec FieldProofs FieldProofs2 FieldProofs3 ScalarFieldModel ScalarProofs
  BlModel MirrorModel MirrorSpec MirrorProofs MirrorProofs2 MirrorProofs3 MirrorProofs4.
Open Scope num_scope.

Lemma mirror_cell_grid ci d p coef f ij r : mirror_cell ci d p coef f ij = Ok r -> sg r = sg f.
Proof.
  unfold mirror_cell. destruct (negb _); [now intros [= <-]|]. destruct (mirror_point _ _ _ _) as [mx my].
  destruct (_ || _)%bool; [now intros [= <-]|]. destruct (get_value ci f mx my) as [[q|]|]; cbn; intros [= <-]; reflexivity.
Qed.
Lemma mirror_loop_grid ci d p coef l : forall f r, mirror_loop ci d p coef l f = Ok r -> sg r = sg f.
Proof.
  induction l as [|ij l IH]; intros f r; cbn [mirror_loop]; [now intros [= <-]|].
  destruct (mirror_cell ci d p coef f ij) as [f'|] eqn:E; cbn [bind]; [|discriminate]. intro H.
  rewrite (IH _ _ H). now apply mirror_cell_grid in E.
Qed.
Lemma image_point d p x y : mirror_point d p x y = image d p x y.
Proof. unfold mirror_point, image. destruct d; f_equal; qring. Qed.
Lemma inr_of f x y i j : nth_error (ax (sg f)) i = Some x -> nth_error (ay (sg f)) j = Some y -> inr f i j.
Proof. intros H1 H2. split; eapply nth_error_Some_lt; eauto. Qed.
Lemma coord_idx f d i j x y : nth_error (ax (sg f)) i = Some x -> nth_error (ay (sg f)) j = Some y ->
  nths (pos_axis f d) (idx d i j) = coord d x y.
Proof. intros H1 H2. destruct d; cbn [pos_axis idx coord]; now apply nth_error_nths. Qed.
Lemma coord_in f d x y : (In x (ax (sg f)) /\ In y (ay (sg f))) <->
  (In (coord d x y) (pos_axis f d) /\ In (coord (match d with DX => DY | DY => DX end) x y) (run_axis f d)).
Proof. destruct d; cbn; tauto. Qed.

(** the loop on the extension of the kept part *)
Lemma images_lemma ci d p coef k s n e dl :
  sf_wf k -> sf_clean k -> grid_sorted (sg k) -> mirror_extend k d s n = Ok e ->
  (2 <= length (ax (sg e)))%nat -> (2 <= length (ay (sg e)))%nat -> axis_evenly (pos_axis k d) dl ->
  (forall c, In c (pos_axis k d) -> 0 <= sgn s * (c - p)) ->
  exists r c, mirror_loop ci d p coef (aidx (length (ax (sg e))) (length (ay (sg e)))) e = Ok r /\
    Z.of_nat c = n /\ sf_wf r /\ sf_clean r /\ grid_sorted (sg r) /\
    axis_extends (pos_axis k d) (pos_axis r d) (lo_of s c) (hi_of s c) /\ run_axis r d = run_axis k d /\
    ux (sg r) = ux (sg k) /\ uy (sg r) = uy (sg k) /\ uv r = uv k /\ with_images ci d p coef k r.
Proof.
  intros W C S H LX LY HE HP.
  destruct (mirror_extend_spec k d s n e W C S H LX LY) as (c & Ec & We & Ce & Se & AX & RA & LK & LR & SH1 & SH2 & U1 & U2 & U3).
  set (K := pos_axis k d) in *. set (A := pos_axis e d) in *.
  assert (increasing K) as HK by (destruct S; unfold K; now destruct d).
  assert (0 < dl) as Hd by (exact (ext_pos K A s c p dl HK LK AX HE HP)).
  pose proof (ext_even K A s c p dl HK LK AX HE HP) as EE.
  pose proof (ext_inc K A s c p dl HK LK AX HE HP) as HA.
  set (be := bet K A s c p) in *.
  assert (sgn s = 1 \/ sgn s = - (1)) as Hs by (destruct s; auto).
  pose proof (bidx_lt K A s c p dl HK LK AX HE HP) as Hb.
  assert (0 <= be) as Hb0 by exact (bet_nonneg K A s c p dl HK LK AX HE HP).
  assert (forall i j, inr e i j -> kept A p (sgn s) be (idx d i j) = false -> at_ (values e) i j = None) as H0.
  { intros i j R Q. pose proof (shows_idx e i j R) as SI.
    apply (SH2 _ _ _ _ SI). rewrite (coord_in k d). intros [I _]. fold K in I.
    assert (nths A (idx d i j) = coord d (nths (ax (sg e)) i) (nths (ay (sg e)) j)) as EQ by (unfold A; now destruct d).
    rewrite <- EQ in I. apply (in_K_kept K A s c p dl HK LK AX HE HP) in I. fold be in I.
    apply kept_no in Q. qlra. }
  destruct (loop_lemma ci d p coef e dl (sgn s) be (bidx K s c) Se We (clean_cells e Ce) Hd EE Hs Hb eq_refl Hb0 H0)
    as (r & Er & G & U & Wr & Cr & V).
  exists r, c. split; [exact Er|]. split; [exact Ec|]. split; [exact Wr|]. split; [now apply cells_clean_sf|].
  assert (pos_axis r d = A) as PA by (unfold A, pos_axis; now rewrite G).
  rewrite G, PA. split; [exact Se|]. split; [exact AX|]. split; [unfold run_axis; rewrite G; exact RA|].
  split; [exact U1|]. split; [exact U2|]. split; [now rewrite U|].
  assert (forall i j x y, nth_error (ax (sg e)) i = Some x -> nth_error (ay (sg e)) j = Some y ->
    at_ (msk r) i j = isnan (fin d p coef e (sgn s) be i j)) as MR.
  { intros i j x y E1 E2. rewrite Cr by (unfold inr; rewrite G; eapply inr_of; eauto). f_equal. apply V. eapply inr_of; eauto. }
  split.
  - intros x y v m Sk. pose proof (SH1 _ _ _ _ Sk) as (i & j & E1 & E2 & Ev & Em).
    pose proof (inr_of e x y i j E1 E2) as R.
    exists i, j. rewrite G. split; [exact E1|]. split; [exact E2|]. rewrite (V i j R), (MR i j x y E1 E2).
    assert (fin d p coef e (sgn s) be i j = v) as ->.
    { unfold fin. rewrite final_kept; [rewrite line_idx; exact Ev|].
      apply kept_iff. fold A. unfold A. rewrite (coord_idx e d i j x y E1 E2). fold A. unfold be.
      apply (in_K_kept K A s c p dl HK LK AX HE HP). destruct Sk as (i' & j' & F1 & F2 & _).
      unfold K. destruct d; cbn; eapply nth_error_In; eauto. }
    split; [reflexivity|]. destruct (C x y v m Sk) as [Q1 Q2].
    destruct v, m; cbn; try reflexivity; [specialize (Q2 eq_refl)|specialize (Q1 eq_refl)]; discriminate.
  - intros x y v m (i & j & E1 & E2 & <- & <-) N. rewrite G in E1, E2. pose proof (inr_of e x y i j E1 E2) as R.
    pose proof (coord_idx e d i j x y E1 E2) as CI. fold A in CI.
    assert (In (coord (match d with DX => DY | DY => DX end) x y) (run_axis k d)) as IR.
    { rewrite <- RA. destruct d; cbn; eapply nth_error_In; eauto. }
    assert (~ In (coord d x y) K) as NK by (intro Q; apply N, (coord_in k d); auto).
    pose proof (idx_lt e d i j R) as IL. fold A in IL.
    assert (kept A p (sgn s) be (idx d i j) = false) as KF.
    { apply (added_not_kept K A s c p dl HK LK AX HE HP); [exact IL|]. now rewrite CI. }
    set (q := mpos A p (idx d i j)).
    assert (fin d p coef e (sgn s) be i j = if hull A p (sgn s) be q then oscale coef (lval A (line e d i j) q) else None) as FE.
    { unfold fin, final. fold A. rewrite KF. reflexivity. }
    rewrite (V i j R), (MR i j x y E1 E2), FE. clear FE.
    assert (q = coord d (fst (image d p x y)) (snd (image d p x y))) as EQ.
    { unfold q, mpos. rewrite CI. destruct d; cbn; qring. }
    assert (inside k (fst (image d p x y)) (snd (image d p x y)) <-> nths K 0 <= q /\ q <= last K (qz 0)) as IN.
    { unfold inside. rewrite EQ. unfold K. destruct S as [SX SY].
      destruct d; cbn [image fst snd coord pos_axis run_axis] in *.
      - split; [tauto|]. intros [Q1 Q2]. split; [exact Q1|]. split; [exact Q2|].
        apply (In_nth _ _ (qz 0)) in IR. destruct IR as (t & Lt & Et). rewrite <- Et. now apply last_le_nth.
      - split; [tauto|]. intros [Q1 Q2]. split; [|split; [|split; [exact Q1|exact Q2]]];
        apply (In_nth _ _ (qz 0)) in IR; destruct IR as (t & Lt & Et); rewrite <- Et; now apply last_le_nth. }
    destruct (hull A p (sgn s) be q) eqn:HH.
    + apply (hull_range K A s c p dl HK LK AX HE HP) in HH. exists (lval A (line e d i j) q).
      split; [|split; reflexivity].
      left. split; [now apply IN|]. destruct HH as [B1 B2].
      (* the line of k that corresponds *)
      destruct d; cbn [image fst snd coord pos_axis run_axis line idx] in *.
      * apply In_nth_error in IR. destruct IR as (t & Et).
        rewrite <- EQ. rewrite (gv_line_x ci k q y t S) by (try assumption; intro Q; unfold K in LK; rewrite Q in LK; cbn in LK; lia).
        f_equal. symmetry. apply (lval_ext K A s c p dl HK LK AX HE HP); auto.
        intros a La. pose proof (nth_error_Some_lt _ _ _ Et) as Lt.
        pose proof (SH1 _ _ _ _ (shows_idx k a t (conj La Lt))) as (a' & t' & F1 & F2 & F3 & _). rewrite <- F3.
        assert (a' = lo_of s c + a)%nat as ->.
        { pose proof (nth_error_Some_lt _ _ _ F1) as L1. apply nth_error_nths in F1. apply (increasing_inj A); auto.
          - fold A. rewrite (ext_len K A s c p dl HK LK AX HE HP). destruct s; cbn; lia.
          - change (nths A a' = nths (ax (sg k)) a) in F1. rewrite F1. now rewrite (ext_nth K A s c p dl HK LK AX HE HP). }
        assert (t' = j) as ->; [|reflexivity].
        { pose proof (nth_error_Some_lt _ _ _ F2) as L2. pose proof (nth_error_Some_lt _ _ _ E2). apply nth_error_nths in F2, E2, Et.
          apply (increasing_inj (ay (sg e))); auto; [apply Se|]. rewrite F2, E2, <- Et. reflexivity. }
      * apply In_nth_error in IR. destruct IR as (t & Et).
        rewrite <- EQ. rewrite (gv_line_y ci k q x t S) by (try assumption; intro Q; unfold K in LK; rewrite Q in LK; cbn in LK; lia).
        f_equal. symmetry. apply (lval_ext K A s c p dl HK LK AX HE HP); auto.
        intros a La. pose proof (nth_error_Some_lt _ _ _ Et) as Lt.
        pose proof (SH1 _ _ _ _ (shows_idx k t a (conj Lt La))) as (t' & a' & F1 & F2 & F3 & _). rewrite <- F3.
        assert (a' = lo_of s c + a)%nat as ->.
        { pose proof (nth_error_Some_lt _ _ _ F2) as L1. apply nth_error_nths in F2. apply (increasing_inj A); auto.
          - fold A. rewrite (ext_len K A s c p dl HK LK AX HE HP). destruct s; cbn; lia.
          - change (nths A a' = nths (ay (sg k)) a) in F2. rewrite F2. now rewrite (ext_nth K A s c p dl HK LK AX HE HP). }
        assert (t' = i) as ->; [|reflexivity].
        { pose proof (nth_error_Some_lt _ _ _ F1) as L2. pose proof (nth_error_Some_lt _ _ _ E1). apply nth_error_nths in F1, E1, Et.
          apply (increasing_inj (ax (sg e))); auto; [apply Se|]. rewrite F1, E1, <- Et. reflexivity. }
    + exists None. split; [right; split; [|reflexivity]|split; reflexivity].
      rewrite IN. intro Q. apply (hull_range K A s c p dl HK LK AX HE HP) in Q. fold be in Q. congruence.
Qed.
