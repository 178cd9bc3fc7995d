(** * PotProofs6: the flow around a square. *)
From Coq Require Import Reals List Bool Lra Lia Psatz.
From Verif Require Import Res PotModel PotSpec PotProofs PotProofs2 PotProofs3 PotProofs4 PotProofs5.
Import ListNotations.
#[local] Open Scope R_scope.

Lemma middle_linear : linear_quad middle.
Proof. split; intros; unfold middle; [ring|]. rewrite H. reflexivity. Qed.
Lemma solvesb_ok : forall A b s, solvesb A b s = true -> Forall2 (fun row c => times row s = c) A b.
Proof.
  induction A as [|row A IH]; intros [|c b] s E; cbn in E; try discriminate E; [constructor|]. apply andb_true_iff in E as [E1 E2].
  constructor; [|apply IH, E2]. destruct (Req_EM_T (times row s) c); [assumption|discriminate E1].
Qed.
Lemma solvesb_yes : forall A b s, Forall2 (fun row c => times row s = c) A b -> solvesb A b s = true.
Proof. induction 1 as [|row c A b E _ IH]; [reflexivity|]. cbn [solvesb]. rewrite IH. destruct (Req_EM_T (times row s) c); [reflexivity|contradiction]. Qed.
Lemma multiple_exact : forall ms, exact_solve (multiple ms).
Proof.
  intros ms A b s. induction ms as [|m ms IH]; intro E; [discriminate E|]. cbn [multiple] in E. cbv zeta in E. destruct (solvesb A b (map (Rmult m) b)) eqn:S; [|apply IH, E].
  injection E as <-. split; [apply map_length|]. apply solvesb_ok, S.
Qed.

Definition pa : panel := mkpanel (0, 0) (1, 0) 0 0.
Definition pb : panel := mkpanel (1, 0) (1, 1) 0 0.
Definition pc : panel := mkpanel (1, 1) (0, 1) 0 0.
Definition pd : panel := mkpanel (0, 1) (0, 0) 0 0.
(** reversed *)
Definition ra : panel := mkpanel (0, 0) (0, 1) 0 0.
Definition rb : panel := mkpanel (0, 1) (1, 1) 0 0.
Definition rc : panel := mkpanel (1, 1) (1, 0) 0 0.
Definition rd : panel := mkpanel (1, 0) (0, 0) 0 0.
Ltac neq := let H := fresh in intro H; cbn in H; injection H; intros; lra.
Ltac plen := rewrite p_len_dist; unfold dist2; cbn [p_a p_b fst snd pa pb pc pd ra rb rc rd]; match goal with |- sqrt ?e = _ => replace e with 1 by ring end; apply sqrt_1.
Lemma len_a : p_len pa = 1. Proof. plen. Qed.
Lemma len_b : p_len pb = 1. Proof. plen. Qed.
Lemma len_c : p_len pc = 1. Proof. plen. Qed.
Lemma len_d : p_len pd = 1. Proof. plen. Qed.
Lemma rlen_a : p_len ra = 1. Proof. plen. Qed.
Lemma rlen_b : p_len rb = 1. Proof. plen. Qed.
Lemma rlen_c : p_len rc = 1. Proof. plen. Qed.
Lemma rlen_d : p_len rd = 1. Proof. plen. Qed.
Ltac pcs L := try unfold p_cos; try unfold p_sin; first [rewrite panel_cos by neq | rewrite panel_sin by neq]; rewrite L; cbn [p_a p_b fst snd pa pb pc pd ra rb rc rd]; field.
Lemma cos_a : cos (p_beta pa) = 0. Proof. pcs len_a. Qed.
Lemma sin_a : sin (p_beta pa) = -1. Proof. pcs len_a. Qed.
Lemma cos_b : cos (p_beta pb) = 1. Proof. pcs len_b. Qed.
Lemma sin_b : sin (p_beta pb) = 0. Proof. pcs len_b. Qed.
Lemma cos_c : cos (p_beta pc) = 0. Proof. pcs len_c. Qed.
Lemma sin_c : sin (p_beta pc) = 1. Proof. pcs len_c. Qed.
Lemma cos_d : cos (p_beta pd) = -1. Proof. pcs len_d. Qed.
Lemma sin_d : sin (p_beta pd) = 0. Proof. pcs len_d. Qed.
Lemma rcos_a : cos (p_beta ra) = 1. Proof. pcs rlen_a. Qed.
Lemma rsin_a : sin (p_beta ra) = 0. Proof. pcs rlen_a. Qed.
Lemma rcos_b : cos (p_beta rb) = 0. Proof. pcs rlen_b. Qed.
Lemma rsin_b : sin (p_beta rb) = -1. Proof. pcs rlen_b. Qed.
Lemma rcos_c : cos (p_beta rc) = -1. Proof. pcs rlen_c. Qed.
Lemma rsin_c : sin (p_beta rc) = 0. Proof. pcs rlen_c. Qed.
Lemma rcos_d : cos (p_beta rd) = 0. Proof. pcs rlen_d. Qed.
Lemma rsin_d : sin (p_beta rd) = 1. Proof. pcs rlen_d. Qed.
Definition sq : list panel := [pa; pb; pc; pd].
Definition rsq : list panel := [ra; rb; rc; rd].
Ltac vals := rewrite ?cos_a, ?sin_a, ?cos_b, ?sin_b, ?cos_c, ?sin_c, ?cos_d, ?sin_d, ?len_a, ?len_b, ?len_c, ?len_d, ?rcos_a, ?rsin_a, ?rcos_b, ?rsin_b, ?rcos_c, ?rsin_c, ?rcos_d, ?rsin_d, ?rlen_a, ?rlen_b, ?rlen_c, ?rlen_d.
Ltac infl := unfold integral, middle, integrand, p_cos, p_sin; cbv zeta; vals; unfold p_xc, p_yc; cbn [p_a p_b fst snd pa pb pc pd ra rb rc rd]; field.
Lemma PI_big : 3 < PI.
Proof. pose proof PI2_3_2. lra. Qed.
Lemma entry : forall z c, z = c -> / 2 / PI * z = / 2 / PI * c.
Proof. intros z c ->. reflexivity. Qed.
Lemma square_matrix : let w := / 2 / PI * 1 in normal_matrix middle sq = [[/ 2; w; w; w]; [w; / 2; w; w]; [w; w; / 2; w]; [w; w; w; / 2]].
Proof.
  cbv zeta. unfold normal_matrix, sq. cbn [indexed map Nat.eqb fst snd].
  repeat (apply f_equal2; [repeat (apply f_equal2; [reflexivity || (apply entry; infl)|]); reflexivity|]). reflexivity.
Qed.
Lemma reversed_matrix : let w := / 2 / PI * -1 in normal_matrix middle rsq = [[/ 2; w; w; w]; [w; / 2; w; w]; [w; w; / 2; w]; [w; w; w; / 2]].
Proof.
  cbv zeta. unfold normal_matrix, rsq. cbn [indexed map Nat.eqb fst snd].
  repeat (apply f_equal2; [repeat (apply f_equal2; [reflexivity || (apply entry; infl)|]); reflexivity|]). reflexivity.
Qed.
Lemma solved_sigma : forall quad solve u alpha ps sg, exact_solve solve ->
  solve (normal_matrix quad ps) (map (fun p => - u * cos (alpha - p_beta p)) ps) = Ok sg ->
  exists qs, solved_panels quad solve u alpha ps = Ok qs /\ map blank qs = map blank ps /\ map p_sigma qs = sg.
Proof.
  intros quad solve u alpha ps sg EX S. unfold solved_panels. rewrite S. cbn [bind]. eexists. split; [reflexivity|].
  pose proof (EX _ _ _ S) as [L _]. rewrite map_length in L.
  set (vt := map _ (combine (tangent_matrix quad ps) ps)).
  assert (V : length vt = length ps).
  { unfold vt. rewrite map_length, combine_length. unfold tangent_matrix. rewrite map_length, indexed_length. lia. }
  split; [|apply combine_strengths; assumption].
  clearbody vt. rewrite map_map. unfold blank at 1. cbn [p_a p_b]. clear S.
  revert sg vt L V. induction ps as [|p ps IH]; intros [|x sg] [|y vt] L V; cbn in L, V; try discriminate L; try discriminate V; [reflexivity|].
  cbn [combine map fst]. f_equal. apply IH; lia.
Qed.
Definition m1 : R := 2 * PI / (PI - 1).
Definition m2 : R := 2 * PI / (PI + 1).
Definition two_multiples : list (list R) -> list R -> res (list R) := multiple [m1; m2].
Definition sq_nodes : list pt := [(0, 0); (1, 0); (1, 1); (0, 1); (0, 0)].
Lemma closed_square : closed_path square = sq_nodes.
Proof. unfold closed_path, square, pt_eqb. cbn [last fst snd]. destruct (Req_EM_T 0 0) as [_|N]; [|exfalso; apply N; reflexivity]. destruct (Req_EM_T 0 1) as [E|_]; [exfalso; lra|]. reflexivity. Qed.
Ltac pneq := let H := fresh in intro H; injection H; intros; lra.
Lemma square_segments : no_empty_segment (closed_path square).
Proof. rewrite closed_square. unfold no_empty_segment, sq_nodes. cbn [ends_of]. repeat (constructor; [cbn [fst snd]; pneq|]). constructor. Qed.
Lemma add_square : forall rnd u alpha, rnd 1 = 1%nat -> add_object rnd (new_system u alpha) 2 square true 1 = Ok (mksys u alpha [] [mkobj sq_nodes sq true] true).
Proof.
  intros rnd u alpha H. unfold add_object, new_obj. rewrite closed_square. unfold refine, sq_nodes. cbn [seg_lens].
  assert (L1 : seg_len (0, 0) (1, 0) = 1) by (unfold seg_len; cbn [fst snd]; match goal with |- sqrt ?e = _ => replace e with 1 by ring end; apply sqrt_1).
  assert (L2 : seg_len (1, 0) (1, 1) = 1) by (unfold seg_len; cbn [fst snd]; match goal with |- sqrt ?e = _ => replace e with 1 by ring end; apply sqrt_1).
  assert (L3 : seg_len (1, 1) (0, 1) = 1) by (unfold seg_len; cbn [fst snd]; match goal with |- sqrt ?e = _ => replace e with 1 by ring end; apply sqrt_1).
  assert (L4 : seg_len (0, 1) (0, 0) = 1) by (unfold seg_len; cbn [fst snd]; match goal with |- sqrt ?e = _ => replace e with 1 by ring end; apply sqrt_1).
  cbn [segments]. unfold one_segment. rewrite L1, L2, L3, L4. cbn [min_of]. assert (MM : Rmin 1 1 = 1) by (apply Rmin_left; lra). rewrite !MM. replace (1 / INR 1) with 1 by (cbn [INR]; field).
  destruct (Req_EM_T 1 0) as [E|_]; [exfalso; lra|]. cbv zeta. replace (1 / 1) with 1 by field. rewrite H. cbn [Nat.leb bind app].
  rewrite panels_of_ok; [reflexivity|]. pose proof square_segments as Q. rewrite closed_square in Q. exact Q.
Qed.
Lemma cos_zero_minus : forall b, cos (0 - b) = cos b.
Proof. intro b. rewrite cos_minus, cos_0, sin_0. ring. Qed.
Lemma square_rhs : forall u, map (fun p => - u * cos (0 - p_beta p)) sq = [- u * 0; - u * 1; - u * 0; - u * -1].
Proof. intro u. unfold sq. cbn [map]. rewrite !cos_zero_minus. vals. reflexivity. Qed.
Lemma reversed_rhs : forall u, map (fun p => - u * cos (0 - p_beta p)) rsq = [- u * 1; - u * 0; - u * -1; - u * 0].
Proof. intro u. unfold rsq. cbn [map]. rewrite !cos_zero_minus. vals. reflexivity. Qed.
Lemma square_solved : forall u, exists qs, solved_panels middle two_multiples u 0 sq = Ok qs /\ map blank qs = sq /\ map p_sigma qs = map (Rmult m1) [- u * 0; - u * 1; - u * 0; - u * -1].
Proof.
  intro u. apply solved_sigma; [apply multiple_exact|]. rewrite square_matrix, square_rhs. unfold two_multiples. cbn [multiple]. cbv zeta.
  rewrite solvesb_yes; [reflexivity|]. pose proof PI_big. repeat (constructor; [cbn [times map]; unfold m1; field; lra|]). constructor.
Qed.
Lemma reversed_solved : exists qs, solved_panels middle two_multiples 1 0 rsq = Ok qs /\ map blank qs = rsq /\ map p_sigma qs = map (Rmult m2) [- (1) * 1; - (1) * 0; - (1) * -1; - (1) * 0].
Proof.
  apply solved_sigma; [apply multiple_exact|]. rewrite reversed_matrix, reversed_rhs. unfold two_multiples. cbn [multiple]. cbv zeta. pose proof PI_big as P.
  destruct (solvesb _ _ (map (Rmult m1) _)) eqn:S.
  - exfalso. apply solvesb_ok in S. inversion S as [|? ? ? ? Z _]; subst. cbn [times map] in Z.
    assert (Y : m1 * (PI + 1) = 2 * PI).
    { apply Rmult_eq_reg_r with (/ (2 * PI)); [|apply Rinv_neq_0_compat; lra].
      transitivity (- (/ 2 * (m1 * (- (1) * 1)) + (/ 2 / PI * -1 * (m1 * (- (1) * 0)) + (/ 2 / PI * -1 * (m1 * (- (1) * -1)) + (/ 2 / PI * -1 * (m1 * (- (1) * 0)) + 0))))); [field; lra|]. rewrite Z. field. lra. }
    unfold m1 in Y. assert (W : 2 * PI / (PI - 1) * (PI - 1) = 2 * PI) by (field; lra). nra.
  - rewrite solvesb_yes; [reflexivity|]. repeat (constructor; [cbn [times map]; unfold m2; field; lra|]). constructor.
Qed.
Lemma far_from : forall p x y, p_len p ^ 2 / 2 < (p_xc p - x) ^ 2 + (p_yc p - y) ^ 2 -> on_panel p x y = false.
Proof. intros p x y H. unfold on_panel. destruct (Rlt_dec _ _) as [_|N]; [reflexivity|contradiction]. Qed.
Lemma inverse_square : forall o, o_nodes o = sq_nodes -> inverse_normals o = Ok (mkobj (rev sq_nodes) rsq (o_wall o)).
Proof.
  intros o N. unfold inverse_normals. cbv zeta. rewrite N. rewrite panels_of_ok; [reflexivity|]. apply no_empty_rev. pose proof square_segments as Q. rewrite closed_square in Q. exact Q.
Qed.
(** the flow computed after the normals are reversed, when it was never computed before *)
Lemma reversed_square : forall rnd, rnd 1 = 1%nat -> exists v, velocity_after rnd middle two_multiples 1 0 [Add 2 square true 1; Inverse 0] 2 (/ 2) = Some (Ok v) /\ fst v <> 1.
Proof.
  intros rnd H. unfold velocity_after, after. rewrite plays_fst. cbn [fold_left play]. rewrite add_square by exact H. cbn [fst s_2d nth_error].
  rewrite inverse_square by reflexivity.
  cbn [bind fst s_u s_alpha s_1d s_2d s_refresh replace_at o_wall]. unfold compute_velocity, refreshed. cbn [s_refresh].
  destruct reversed_solved as [qs [S [B G]]].
  destruct (solving_sigma middle two_multiples _) as [t|e] eqn:E.
  2: { exfalso. unfold solving_sigma in E. cbn [s_u s_alpha] in E. match type of E with context [solid_panels ?z] => change (solid_panels z) with rsq in E end. rewrite S in E. discriminate E. }
  destruct (solving_ok middle two_multiples (multiple_exact _) _ _ E) as [[U [A _]] [_ P]]. cbn [s_u s_alpha] in U, A, P. match type of P with solved_panels _ _ _ _ ?z = _ => change z with rsq in P end.
  rewrite S in P. injection P as P. cbn [bind snd]. eexists. split; [reflexivity|]. rewrite U, A, <- P. clear P S E U A t.
  destruct qs as [|q0 [|q1 [|q2 [|q3 [|q4 qs]]]]]; try discriminate B. unfold rsq in B. injection B as B1 B2 B3 B4 B5 B6 B7 B8. cbn [map] in G. injection G as G0 G1 G2 G3.
  destruct q0 as [a0 b0 s0 w0], q1 as [a1 b1 s1 w1], q2 as [a2 b2 s2 w2], q3 as [a3 b3 s3 w3]. cbn [p_a p_b p_sigma] in *. subst a0 a1 a2 a3 b0 b1 b2 b3.
  unfold velocity_with. cbn [find].
  change (on_panel (mkpanel (0, 0) (0, 1) s0 w0) 2 (/ 2)) with (on_panel ra 2 (/ 2)). change (on_panel (mkpanel (0, 1) (1, 1) s1 w1) 2 (/ 2)) with (on_panel rb 2 (/ 2)).
  change (on_panel (mkpanel (1, 1) (1, 0) s2 w2) 2 (/ 2)) with (on_panel rc 2 (/ 2)). change (on_panel (mkpanel (1, 0) (0, 0) s3 w3) 2 (/ 2)) with (on_panel rd 2 (/ 2)).
  rewrite !far_from by (vals; unfold p_xc, p_yc; cbn [p_a p_b fst snd ra rb rc rd]; lra).
  cbv zeta. cbn [map sum_list p_sigma].
  change (integral middle 2 (/ 2) (mkpanel (0, 0) (0, 1) s0 w0) 1 0) with (integral middle 2 (/ 2) ra 1 0). change (integral middle 2 (/ 2) (mkpanel (0, 1) (1, 1) s1 w1) 1 0) with (integral middle 2 (/ 2) rb 1 0).
  change (integral middle 2 (/ 2) (mkpanel (1, 1) (1, 0) s2 w2) 1 0) with (integral middle 2 (/ 2) rc 1 0). change (integral middle 2 (/ 2) (mkpanel (1, 0) (0, 0) s3 w3) 1 0) with (integral middle 2 (/ 2) rd 1 0).
  assert (I0 : integral middle 2 (/ 2) ra 1 0 = / 2) by infl. assert (I2 : integral middle 2 (/ 2) rc 1 0 = 1) by infl.
  rewrite I0, I2. 
  assert (Z : 1 * cos 0 + / 2 / PI * (s0 * / 2 + (s1 * integral middle 2 (/ 2) rb 1 0 + (s2 * 1 + (s3 * integral middle 2 (/ 2) rd 1 0 + 0)))) = 1 + / 2 / (PI + 1)).
  { rewrite G0, G1, G2, G3, cos_0. pose proof PI_big. unfold m2. field. split; lra. }
  rewrite Z. assert (W : 0 < / 2 / (PI + 1)) by (pose proof PI_big; apply Rdiv_lt_0_compat; lra).
  destruct (Rlt_dec _ _); [cbn [fst]; lra|]. destruct (Rlt_dec _ _); [cbn [fst]; lra|]. cbn [fst]. lra.
Qed.
Lemma square_velocity : forall rnd u x y, rnd 1 = 1%nat -> exists v, velocity_after rnd middle two_multiples u 0 [Add 2 square true 1] x y = Some (Ok v).
Proof.
  intros rnd u x y H. unfold velocity_after, after. rewrite plays_fst. cbn [fold_left play]. rewrite add_square by exact H. cbn [fst]. unfold compute_velocity, refreshed. cbn [s_refresh].
  destruct (square_solved u) as [qs [S _]]. destruct (solving_sigma middle two_multiples _) as [t|e] eqn:E; [cbn [bind snd]; eexists; reflexivity|].
  exfalso. unfold solving_sigma in E. cbn [s_u s_alpha] in E. match type of E with context [solid_panels ?z] => change (solid_panels z) with sq in E end. rewrite S in E. discriminate E.
Qed.
(** asking for the flow before reversing the normals changes it *)
Lemma stale_square : forall rnd, rnd 1 = 1%nat -> exists x y v w,
  velocity_after rnd middle two_multiples 1 0 [Add 2 square true 1; Inverse 0] x y = Some (Ok v)
  /\ velocity_after rnd middle two_multiples 1 0 [Add 2 square true 1; Velocity 3 3; Inverse 0] x y = Some (Ok w) /\ v <> w.
Proof.
  intros rnd H. destruct (reversed_square rnd H) as [v [V N]]. exists 2, (/ 2), v, (1 * cos 0, 1 * sin 0). split; [exact V|]. split.
  - destruct (square_velocity rnd 1 3 3 H) as [v0 V0].
    apply (forgotten_solid rnd middle two_multiples (multiple_exact _) 1 0 square 1 3 3 v0 2 (/ 2)); [cbn; lia|lia|apply square_segments| |exact V0|].
    + rewrite Rabs_R1. apply pow_R1_Rle. lra.
    + unfold after. rewrite plays_fst. cbn [fold_left]. 
      set (s1 := fst (play rnd middle two_multiples (new_system 1 0) (Add 2 square true 1))).
      assert (S1 : s1 = mksys 1 0 [] [mkobj sq_nodes sq true] true) by (unfold s1; cbn [play]; rewrite add_square by exact H; reflexivity).
      set (s2 := fst (play rnd middle two_multiples s1 (Velocity 3 3))).
      assert (S2 : same_sys s2 s1).
      { unfold s2. cbn [play]. unfold compute_velocity, refreshed. rewrite S1. cbn [s_refresh]. destruct (solving_sigma middle two_multiples _) as [t|e] eqn:E; cbn [bind fst]; [|apply same_sys_refl].
        apply (solving_ok middle two_multiples (multiple_exact _) _ _ E). }
      clearbody s2. rewrite S1 in S2. destruct S2 as [_ [_ [F1 F2]]]. cbn [s_1d s_2d] in *. inversion F1 as [Z1|]; subst. inversion F2 as [|o o1 os os1 SO F3 Z2 Z3]; subst. inversion F3; subst.
      destruct SO as [NO [W _]]. cbn [o_nodes o_wall] in NO, W. cbn [play]. rewrite <- Z2. cbn [nth_error]. rewrite inverse_square by exact NO.
      cbn [bind fst]. unfold solid_panels. cbn [s_1d s_2d]. rewrite <- Z1. cbn [replace_at wall_panels flat_map o_wall o_panels app]. rewrite W. cbn [app existsb rsq].
      rewrite !far_from by (vals; unfold p_xc, p_yc; cbn [p_a p_b fst snd ra rb rc rd]; lra). reflexivity.
  - intro E. apply N. rewrite E. cbn [fst]. rewrite cos_0. ring.
Qed.

Lemma square_determined : determined (normal_matrix middle sq).
Proof.
  rewrite square_matrix. cbv zeta. pose proof PI_big as P. set (w := / 2 / PI * 1).
  assert (W : 0 < w < / 2).
  { unfold w. split; [rewrite Rmult_1_r; apply Rdiv_lt_0_compat; lra|]. apply Rmult_lt_reg_r with (2 * PI); [lra|]. replace (/ 2 / PI * 1 * (2 * PI)) with 1 by (field; lra). lra. }
  clearbody w. intros s t LS LT F. cbn [length] in LS, LT.
  destruct s as [|s0 [|s1 [|s2 [|s3 [|s4 s]]]]]; try discriminate LS. destruct t as [|t0 [|t1 [|t2 [|t3 [|t4 t]]]]]; try discriminate LT.
  inversion F as [|? ? F0 G0]; subst. inversion G0 as [|? ? F1 G1]; subst. inversion G1 as [|? ? F2 G2]; subst. inversion G2 as [|? ? F3 G3]; subst. cbn [times] in F0, F1, F2, F3.
  assert (D : (/ 2 + 3 * w) * ((s0 - t0) + (s1 - t1) + (s2 - t2) + (s3 - t3)) = 0) by lra.
  assert (S : (s0 - t0) + (s1 - t1) + (s2 - t2) + (s3 - t3) = 0).
  { apply Rmult_eq_reg_l with (/ 2 + 3 * w); [|lra]. lra. }
  assert (K : forall z z', (/ 2 - w) * (z - z') = 0 -> z = z').
  { intros z z' H. apply Rminus_diag_uniq. apply Rmult_eq_reg_l with (/ 2 - w); [|lra]. lra. }
  assert (E0 : s0 = t0). { apply K. transitivity (/ 2 * s0 + (w * s1 + (w * s2 + (w * s3 + 0))) - (/ 2 * t0 + (w * t1 + (w * t2 + (w * t3 + 0)))) - w * ((s0 - t0) + (s1 - t1) + (s2 - t2) + (s3 - t3))); [ring|]. rewrite F0, S. ring. }
  assert (E1 : s1 = t1). { apply K. transitivity (w * s0 + (/ 2 * s1 + (w * s2 + (w * s3 + 0))) - (w * t0 + (/ 2 * t1 + (w * t2 + (w * t3 + 0)))) - w * ((s0 - t0) + (s1 - t1) + (s2 - t2) + (s3 - t3))); [ring|]. rewrite F1, S. ring. }
  assert (E2 : s2 = t2). { apply K. transitivity (w * s0 + (w * s1 + (/ 2 * s2 + (w * s3 + 0))) - (w * t0 + (w * t1 + (/ 2 * t2 + (w * t3 + 0)))) - w * ((s0 - t0) + (s1 - t1) + (s2 - t2) + (s3 - t3))); [ring|]. rewrite F2, S. ring. }
  assert (E3 : s3 = t3). { apply K. transitivity (w * s0 + (w * s1 + (w * s2 + (/ 2 * s3 + 0))) - (w * t0 + (w * t1 + (w * t2 + (/ 2 * t3 + 0)))) - w * ((s0 - t0) + (s1 - t1) + (s2 - t2) + (s3 - t3))); [ring|]. rewrite F3, S. ring. }
  subst. reflexivity.
Qed.
(** the velocity and the pressure coefficient when the free stream is multiplied *)
Lemma pressure_of_scaled : forall quad solve, exact_solve solve -> forall k u alpha o1 o2 x y t v t' w, u <> 0 -> k <> 0 ->
  determined (normal_matrix quad (solid_panels (mksys u alpha o1 o2 true))) ->
  compute_velocity quad solve (mksys u alpha o1 o2 true) x y = Ok (t, v) -> compute_velocity quad solve (mksys (k * u) alpha o1 o2 true) x y = Ok (t', w) ->
  v <> (0, 0) -> w <> (0, 0) ->
  w = (k * fst v, k * snd v) /\ pressure (k * u) (fst w) (snd w) = pressure u (fst v) (snd v).
Proof.
  intros quad solve EX k u alpha o1 o2 x y t v t' w U K D E1 E2 N1 N2. destruct (flow_scaled quad solve EX k u alpha o1 o2 x y t v t' w D E1 E2) as [H|[H|H]]; try contradiction.
  split; [exact H|]. rewrite H. cbn [fst snd]. apply pressure_scaled; assumption.
Qed.
(** past the ends of a panel *)
Lemma past_the_end : forall p t, p_a p <> p_b p -> 1 <= t <= 6 / 5 -> let q := along (p_a p) (p_b p) t in on_panel p (fst q) (snd q) = true.
Proof. intros p t H T. apply on_panel_line; [exact H|]. nra. Qed.
Lemma find_app_none : forall {X} (f : X -> bool) l1 q l2, (forall p, In p l1 -> f p = false) -> f q = true -> find f (l1 ++ q :: l2) = Some q.
Proof. induction l1 as [|x l1 IH]; intros q l2 H Q; cbn [app find]; [rewrite Q; reflexivity|]. rewrite (H x (or_introl eq_refl)). apply IH; [|exact Q]. intros p I. apply H. right. exact I. Qed.
Lemma walls_state : forall quad solve, linear_quad quad -> exact_solve solve -> forall s x y t v l1 q l2, s_refresh s = true ->
  compute_velocity quad solve s x y = Ok (t, v) -> solid_panels t = l1 ++ q :: l2 -> p_a q <> p_b q ->
  let c := centre_velocity quad (s_u s) (s_alpha s) (l1 ++ l2) q in
  scalar c (normal_of (p_a q) (p_b q)) = 0
  /\ ((forall p, In p l1 -> on_panel p (p_xc q) (p_yc q) = false) -> compute_velocity quad solve t (p_xc q) (p_yc q) = Ok (t, c)).
Proof.
  intros quad solve LQ EX s x y t v l1 q l2 R E S N c. pose proof E as E'. apply (velocity_solved quad solve EX) in E as [P _]; [|exact R].
  destruct (walls_hold quad solve EX LQ _ _ _ _ l1 q l2 P S) as [A [_ B]]. split.
  - rewrite <- panel_normal by exact N. exact A.
  - intro O. unfold compute_velocity, refreshed in *. rewrite R in E'. destruct (solving_sigma quad solve s) as [t'|e] eqn:G; cbn [bind] in E'; [|discriminate E'].
    injection E' as -> _. destruct (solving_ok quad solve EX _ _ G) as [_ [F _]]. rewrite F. cbn [bind]. do 2 f_equal. unfold velocity_with. rewrite S.
    rewrite find_app_none with (1 := O).
    + symmetry. exact B.
    + pose proof (on_panel_segment q (/ 2) N) as Z. unfold along in Z. cbn [fst snd] in Z.
      replace (fst (p_a q) + / 2 * (fst (p_b q) - fst (p_a q))) with (p_xc q) in Z by (unfold p_xc; field).
      replace (snd (p_a q) + / 2 * (snd (p_b q) - snd (p_a q))) with (p_yc q) in Z by (unfold p_yc; field). apply Z. lra.
Qed.
Lemma velocity_on_segment : forall quad u alpha ps p t, Forall (fun p => p_a p <> p_b p) ps -> In p ps -> 0 <= t <= 1 ->
  let z := along (p_a p) (p_b p) t in
  exists q, In q ps /\ on_panel q (fst z) (snd z) = true /\ velocity_with quad u alpha ps (fst z) (snd z) = p_vector q /\ scalar (velocity_with quad u alpha ps (fst z) (snd z)) (normal_of (p_a q) (p_b q)) = 0.
Proof.
  intros quad u alpha ps p t W I T z. apply velocity_on_wall; [exact W|]. apply existsb_exists. exists p. split; [exact I|]. apply on_panel_segment; [|exact T]. rewrite Forall_forall in W. apply W, I.
Qed.
