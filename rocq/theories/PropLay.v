(** * PropLay: the boundary layers of Blasius (C272-C283) and of Thwaites (C284-C286). *)
From Coq Require Import Reals List Bool ZArith Lra Lia.
From Verif Require Import Res LayModel LaySpec LayProofs LayProofs2.
Import ListNotations.
#[local] Open Scope R_scope.

Definition unit_bl : blasius := mkbl 1 1 1.
Lemma unit_ok : physical unit_bl. Proof. split; cbn; lra. Qed.

(** C272: where the flow is laminar, each position gets the layer of Blasius. *)
Theorem C272_laminar b p xs : physical b -> p <> POther -> Forall (fun x => 0 <= x /\ laminar b x) xs ->
  exists ls, get_BL_properties b xs false p = Ok ls /\ Forall2 (blasius_law b (match p with P95 => 3.92 | _ => 4.91 end)) xs ls.
Proof. intros PH. exact (laminar_all b PH p xs). Qed.
Print Assumptions C272_laminar.
Theorem C272_other b xs turb : get_BL_properties b xs turb POther = Err ValueErr.
Proof. reflexivity. Qed.
Example C272_example : physical unit_bl /\ Forall (fun x => 0 <= x /\ laminar unit_bl x) [0; 1; 2.5].
Proof. split; [exact unit_ok|]. repeat constructor; unfold laminar; cbn; lra. Qed.

(** C273: the thickness increases along the plate, also through the transition to turbulence. *)
Theorem C273_growth b turb x y lx ly : physical b -> 0 <= x < y ->
  get_BL_properties b [x; y] turb P99 = Ok [lx; ly] -> delta lx < delta ly.
Proof.
  intros PH XY E. cbn [get_BL_properties mapM] in E. destruct (bl_at b turb P99 4.91 x) as [l1|] eqn:E1; [|discriminate E]. cbn [bind] in E.
  destruct (bl_at b turb P99 4.91 y) as [l2|] eqn:E2; [|discriminate E]. cbn [bind] in E. injection E as <- <-. exact (growth b PH turb x y l1 l2 XY E1 E2).
Qed.
Print Assumptions C273_growth.
(** such a result always exists *)
Theorem C273_total b turb xs : physical b -> exists ls, get_BL_properties b xs turb P99 = Ok ls /\ length ls = length xs.
Proof.
  intros PH. cbn [get_BL_properties]. destruct (mapM_F2 (bl_at b turb P99 4.91) (fun _ _ => True) xs) as (r & E & F).
  - intros x _. destruct (Req_EM_T x 0) as [->|N]; [rewrite at_zero; eexists; split; [reflexivity|exact I]|].
    destruct turb; [rewrite at_turb by (try exact N; left; reflexivity); eexists; split; [reflexivity|exact I]|].
    destruct (Rlt_dec (re b x) 500000) as [L|L]; [rewrite at_lam by assumption|rewrite at_turb by (try exact N; right; lra)]; eexists; (split; [reflexivity|exact I]).
  - exists r. split; [exact E|]. clear E. induction F as [|x l xs ls _ _ IH]; [reflexivity|cbn; rewrite IH; reflexivity].
Qed.
Print Assumptions C273_total.

(** C274: get_x_from_delta gives back the position of a laminar layer.  Refuted: 4.92 is used where the thickness is computed with 4.91. *)
Theorem C274_position_refuted : exists b x l, physical b /\ 0 < x /\ laminar b x /\ get_BL_properties b [x] false P99 = Ok [l] /\
  get_x_from_delta b (delta l) false <> x.
Proof.
  exists unit_bl, 1, (lam_layer unit_bl 4.91 1). split; [exact unit_ok|]. split; [lra|]. split; [unfold laminar; cbn; lra|].
  assert (L : re unit_bl 1 < 500000) by (unfold re; cbn; lra). split.
  - cbn [get_BL_properties mapM]. rewrite at_lam by (try lra; exact L). reflexivity.
  - rewrite (inverse_lam unit_bl unit_ok 1 ltac:(lra) L). lra.
Qed.
Print Assumptions C274_position_refuted.
(** it is wrong by 0.4 %, everywhere *)
Theorem C274_position_partial b x l : physical b -> 0 < x -> laminar b x -> get_BL_properties b [x] false P99 = Ok [l] ->
  get_x_from_delta b (delta l) false = (4.91 / 4.92) ^ 2 * x.
Proof.
  intros PH X L E. cbn [get_BL_properties mapM] in E. rewrite (at_lam b P99 4.91 x ltac:(lra) L) in E. injection E as <-. exact (inverse_lam b PH x X L).
Qed.
Print Assumptions C274_position_partial.

(** C275: get_x_from_delta gives back the position of a turbulent layer. *)
Theorem C275_position b turb x l : physical b -> 0 < x -> turb = true \/ ~ laminar b x -> get_BL_properties b [x] turb P99 = Ok [l] ->
  get_x_from_delta b (delta l) turb = x.
Proof.
  intros PH X L E. assert (L' : turb = true \/ 500000 <= re b x) by (destruct L as [L|L]; [left; exact L|right; unfold laminar in L; unfold re; lra]).
  cbn [get_BL_properties mapM] in E. rewrite (at_turb b turb 4.91 x ltac:(lra) L') in E. injection E as <-. exact (inverse_turb b PH turb x X L').
Qed.
Print Assumptions C275_position.
Example C275_example : ~ laminar unit_bl 600000 /\ exists l, get_BL_properties unit_bl [600000] false P99 = Ok [l].
Proof.
  split; [unfold laminar; cbn; lra|]. eexists. cbn [get_BL_properties mapM]. rewrite at_turb; [reflexivity|lra|right; unfold re; cbn; lra].
Qed.

(** C276: the laminar layer satisfies the momentum equation: along the plate, the momentum thickness grows by half the friction coefficient. *)
Theorem C276_momentum b : physical b -> exists d2 : R -> R,
  (forall x, 0 <= x -> laminar b x -> exists l, get_BL_properties b [x] false P99 = Ok [l] /\ delta2 l = d2 x /\
     (0 < x -> derivable_pt_lim d2 x (Cf l / 2))).
Proof.
  intros PH. exists (fun t => 0.664 * sqrt (nu b * t / Uinf b)). intros x X L. cbn [get_BL_properties mapM]. destruct (Req_EM_T x 0) as [->|N].
  - rewrite at_zero. eexists. split; [reflexivity|]. split; [|lra]. cbn. replace (nu b * 0 / Uinf b) with 0 by (unfold Rdiv; ring). rewrite sqrt_0. ring.
  - rewrite (at_lam b P99 4.91 x N L). eexists. split; [reflexivity|]. split; [|exact (momentum_eq b PH x)]. cbn. f_equal. apply pw_half_sqrt.
    destruct PH as [HU Hn]. apply Rmult_le_pos; [apply Rmult_le_pos; lra|left; apply Rinv_0_lt_compat; exact HU].
Qed.
Print Assumptions C276_momentum.

(** C277: the momentum and displacement thicknesses are positive.  Refuted for turbulent layers. *)
Theorem C277_positive_refuted : exists b x l, physical b /\ 0 < x /\ get_BL_properties b [x] false P99 = Ok [l] /\ delta2 l = 0 /\ delta_star l = 0 /\ 0 < delta l.
Proof.
  exists unit_bl, 600000, (turb_layer unit_bl 600000). split; [exact unit_ok|]. split; [lra|]. split.
  { cbn [get_BL_properties mapM]. rewrite at_turb; [reflexivity|lra|right; unfold re; cbn; lra]. }
  cbn. split; [reflexivity|]. split; [ring|]. rewrite pw_pos by (unfold re; cbn; lra). apply Rdiv_lt_0_compat; [lra|apply Rpower_pos].
Qed.
Print Assumptions C277_positive_refuted.
Theorem C277_positive_partial b x l : physical b -> 0 < x -> laminar b x -> get_BL_properties b [x] false P99 = Ok [l] -> 0 < delta2 l < delta_star l /\ delta_star l < delta l.
Proof.
  intros PH X L E. cbn [get_BL_properties mapM] in E. rewrite (at_lam b P99 4.91 x ltac:(lra) L) in E. injection E as <-.
  pose proof (law_lam b PH 4.91 x ltac:(lra) X) as (D0 & D1 & E0 & E1 & S1 & _). set (l := lam_layer b 4.91 x) in *. clearbody l. destruct PH as [HU Hn].
  assert (NX : 0 < nu b * x) by (apply Rmult_lt_0_compat; assumption).
  assert (P : 0 < delta2 l) by (destruct (Req_EM_T (delta2 l) 0) as [Z|Z]; [rewrite Z in E1; nra|lra]).
  split; [lra|]. rewrite S1. apply Rsqr_incrst_0; [|lra|exact D0]. unfold Rsqr. apply (Rmult_lt_reg_r (Uinf b)); [exact HU|].
  replace (2.59 * delta2 l * (2.59 * delta2 l) * Uinf b) with (2.59 ^ 2 * (delta2 l ^ 2 * Uinf b)) by ring. rewrite E1.
  replace (delta l * delta l * Uinf b) with (delta l ^ 2 * Uinf b) by ring. rewrite D1. nra.
Qed.
Print Assumptions C277_positive_partial.

(** C278: the thickness at 95 % is refused as soon as a position is turbulent. *)
Theorem C278_refused b turb xs x : physical b -> In x xs -> 0 < x -> turb = true \/ ~ laminar b x ->
  get_BL_properties b xs turb P95 = Err GenericErr.
Proof.
  intros PH H X L. cbn [get_BL_properties]. induction xs as [|a xs IH]; [destruct H|]. cbn [mapM].
  assert (C : forall z, (exists l, bl_at b turb P95 3.92 z = Ok l) \/ bl_at b turb P95 3.92 z = Err GenericErr).
  { intros z. destruct (Req_EM_T z 0) as [->|N]; [left; eexists; apply at_zero|]. destruct turb; [right; apply at_turb95; [exact N|left; reflexivity]|].
    destruct (Rlt_dec (re b z) 500000) as [Q|Q]; [left; eexists; apply at_lam; assumption|right; apply at_turb95; [exact N|right; lra]]. }
  destruct H as [->|H].
  - rewrite at_turb95; [reflexivity|lra|]. destruct L as [L|L]; [left; exact L|right; unfold laminar in L; unfold re; lra].
  - destruct (C a) as [[l E]|E]; rewrite E; cbn [bind]; [rewrite (IH H); reflexivity|reflexivity].
Qed.
Print Assumptions C278_refused.

(** C279: confinement reduces the thickness, by at most 26.547 % when the layer fits in the depth. *)
Theorem C279_confined b xs h turb ls : physical b -> 0 < h -> get_BL_properties b xs turb P99 = Ok ls ->
  exists r, with_confinement b xs h turb = Ok r /\
    forall i x l, nth_error xs i = Some x -> nth_error ls i = Some l -> exists d, nth_error r i = Some (x, d) /\ d = delta l - 0.26547 * delta l ^ 2 / h /\
      (0 <= delta l <= h -> (1 - 0.26547) * delta l <= d <= delta l).
Proof.
  intros PH H E. eexists. split; [exact (confined b xs h turb ls E)|]. intros i x l Hx Hl. rewrite combine_nth_error, Hx, nth_error_map, Hl. cbn [option_map].
  eexists. split; [reflexivity|]. split; [field; lra|]. intros D. exact (confined_bounds (delta l) h H D).
Qed.
Print Assumptions C279_confined.
Example C279_example : exists l, get_BL_properties unit_bl [1] false P99 = Ok [l] /\ 0 <= delta l <= 5.
Proof.
  assert (L : re unit_bl 1 < 500000) by (unfold re; cbn; lra). eexists. split; [cbn [get_BL_properties mapM]; rewrite at_lam by (try lra; exact L); reflexivity|].
  destruct (law_lam unit_bl unit_ok 4.91 1 ltac:(lra) ltac:(lra)) as (D0 & D1 & _). cbn [Uinf nu unit_bl] in D1. split; [exact D0|]. set (d := delta _) in *. clearbody d. nra.
Qed.

(** C280: the confined thickness is not negative.  Refuted for layers thicker than about four depths. *)
Theorem C280_negative_refuted : exists b x h d, physical b /\ 0 < x /\ 0 < h /\ laminar b x /\ with_confinement b [x] h false = Ok [(x, d)] /\ d < 0.
Proof.
  assert (L : re unit_bl 1 < 500000) by (unfold re; cbn; lra).
  destruct (law_lam unit_bl unit_ok 4.91 1 ltac:(lra) ltac:(lra)) as (D0 & D1 & _). cbn [Uinf nu unit_bl] in D1. 
  exists unit_bl, 1, 1, (delta (lam_layer unit_bl 4.91 1) * (1 - 0.26547 * delta (lam_layer unit_bl 4.91 1) / 1)).
  split; [exact unit_ok|]. split; [lra|]. split; [lra|]. split; [unfold laminar; cbn; lra|]. split.
  - erewrite confined; [|cbn [get_BL_properties mapM]; rewrite at_lam by (try lra; exact L); reflexivity]. reflexivity.
  - set (d := delta _) in *. clearbody d. assert (4.9 < d) by nra. unfold Rdiv. rewrite Rinv_1. nra.
Qed.
Print Assumptions C280_negative_refuted.

(** C281: profiles asked from the wall are those of Blasius: they only depend on y / sqrt(x nu / U), and the velocity is null at the wall. *)
Theorem C281_blasius odeint Phi b x r : odeint_ok odeint Phi -> physical b -> 0 < x ->
  get_profile odeint b x (0 :: r) false = Ok (map (fun y => (y, snd (fst (Phi (y / (sqrt x * sqrt (nu b / Uinf b))))) * Uinf b)) (0 :: r)).
Proof. intros O _ _. exact (profile_wall odeint Phi O b x r). Qed.
Print Assumptions C281_blasius.
Theorem C281_no_slip odeint Phi b x r : odeint_ok odeint Phi -> from_wall Phi -> physical b -> 0 < x ->
  exists q, get_profile odeint b x (0 :: r) false = Ok ((0, 0) :: q) /\ map fst q = r.
Proof.
  intros O [W _] P X. rewrite (profile_wall odeint Phi O b x r). cbn [map]. replace (0 / len b x) with 0 by (unfold Rdiv; ring). rewrite W. cbn [fst snd]. rewrite Rmult_0_l.
  eexists. split; [reflexivity|]. rewrite map_map. cbn. apply map_id.
Qed.
Print Assumptions C281_no_slip.
Theorem C281_similar odeint Phi b k x y0 r : odeint_ok odeint Phi -> physical b -> 0 < k -> 0 < x -> exists us,
  get_profile odeint b x (y0 :: r) false = Ok (combine (y0 :: r) us) /\ length us = length (y0 :: r) /\
  get_profile odeint b (k * x) (map (fun v => sqrt k * v) (y0 :: r)) false = Ok (combine (map (fun v => sqrt k * v) (y0 :: r)) us).
Proof. intros O P. exact (profile_similar odeint Phi O b P k x y0 r). Qed.
Print Assumptions C281_similar.
Definition ex_Phi (t : R) : state := (0.166 * t ^ 2, 0.332 * t, 0.332).
Definition ex_odeint (f : state -> state) (s : state) (l : list R) : list state := map (fun t => ex_Phi (t - hd 0 l)) l.
Example C281_example : odeint_ok ex_odeint ex_Phi /\ from_wall ex_Phi.
Proof.
  split; [intros d t0 r _; reflexivity|]. split; [unfold ex_Phi; f_equal; f_equal; ring|]. cbn [ex_Phi fst snd].
  pose proof (derivable_pt_lim_scal id 0.332 0 1 (derivable_pt_lim_id 0)) as Z. rewrite Rmult_1_r in Z. exact Z.
Qed.

(** C282: the velocity at a point does not depend on the other points asked.  Refuted: whatever the exact solution, the first point asked
    is treated as the wall. *)
Theorem C282_points_refuted odeint Phi b x : odeint_ok odeint Phi -> from_wall Phi -> physical b -> 0 < x -> exists y1 u1, 0 < y1 /\ 0 < u1 /\
  get_profile odeint b x [0; y1] false = Ok [(0, 0); (y1, u1)] /\ get_profile odeint b x [y1] false = Ok [(y1, 0)].
Proof. intros O W P. exact (slip odeint Phi O b P W x). Qed.
Print Assumptions C282_points_refuted.

(** C283: turbulent profiles are available.  Refuted: they always raise AttributeError. *)
Theorem C283_turbulent_refuted odeint b x y : get_profile odeint b x y true = Err AttrErr.
Proof. reflexivity. Qed.
Print Assumptions C283_turbulent_refuted.

(** C284: Thwaites' momentum thickness: d^2 u^5.68 = 0.441 nu (integral of u^4.68 from the leading edge), and in a uniform flow
    d^2 U = 0.441 nu x; there is none where the external flow stops. *)
Theorem C284_momentum quad ue nu x F : 0 <= nu -> 0 <= x -> 0 < ue x ->
  quad_exact quad (fun t => pw (ue t) 4.68) 0 x -> (forall t, 0 <= t <= x -> derivable_pt_lim F t (pw (ue t) 4.68)) ->
  exists d, momentum quad ue nu x = Some d /\ 0 <= d /\ d ^ 2 * Rpower (ue x) 5.68 = 0.441 * nu * (F x - F 0).
Proof.
  intros N X P Q D. apply momentum_ok; try assumption. apply (increasing_prim F (fun t => pw (ue t) 4.68) x X D). intros t. apply pw_nonneg.
Qed.
Print Assumptions C284_momentum.
Theorem C284_uniform quad U nu x : 0 <= nu -> 0 <= x -> 0 < U -> quad_exact quad (fun _ => pw U 4.68) 0 x ->
  exists d, momentum quad (fun _ => U) nu x = Some d /\ 0 <= d /\ d ^ 2 * U = 0.441 * nu * x.
Proof. exact (momentum_const quad U nu x). Qed.
Print Assumptions C284_uniform.
Theorem C284_stopped quad ue nu x : ue x = 0 -> momentum quad ue nu x = None.
Proof. exact (momentum_none quad ue nu x). Qed.
Print Assumptions C284_stopped.
Example C284_example : quad_exact (fun _ a b => prim b - prim a) (fun t => pw (1 + 1 * t) 4.68) 0 1 /\
  (forall t, 0 <= t <= 1 -> derivable_pt_lim prim t (pw (1 + 1 * t) 4.68)) /\
  quad_exact (fun _ a b => pw 1 4.68 * (b - a)) (fun _ => pw 1 4.68) 0 1.
Proof.
  split; [apply quad_prim; lra|]. split; [intros t [T _]; apply prim_d; exact T|]. intros F D.
  rewrite <- (prim_unique (fun t => pw 1 4.68 * t) F (fun _ => pw 1 4.68) 0 1 ltac:(lra)); [ring| |exact D].
  intros t _. pose proof (derivable_pt_lim_scal id (pw 1 4.68) t 1 (derivable_pt_lim_id t)) as Z. rewrite Rmult_1_r in Z. exact Z.
Qed.

(** C285: lambda is d^2 / nu times the slope of the external velocity.  Refuted: it depends on the step of the positions asked. *)
Theorem C285_lambda_refuted : exists quad a c nu xs r l1, 0 < nu /\ le 2 (length xs) /\ stepped 0.5 xs /\ c <> 0 /\
  (forall x, In x xs -> 0 <= x /\ quad_exact quad (fun t => pw (a + c * t) 4.68) 0 x) /\
  thw_properties quad (fun t => a + c * t) nu xs = Ok r /\ In l1 r /\
  exists d l, t_delta2 l1 = Some d /\ t_lambda l1 = Some l /\ l <> d ^ 2 / nu * c.
Proof.
  exists (fun _ a b => prim b - prim a), 1, 1, 1, [0.5; 1]. eexists. exists (thw_at (fun _ a b => prim b - prim a) (fun t => 1 + 1 * t) 1 1 (1 * 0.5)).
  assert (S : stepped 0.5 [0.5; 1]) by (intros [|i] Hi; [cbn; lra|cbn in Hi; lia]). 
  split; [lra|]. split; [cbn; lia|]. split; [exact S|]. split; [lra|]. split.
  { intros x [<-|[<-|[]]]; (split; [lra|apply quad_prim; lra]). }
  split; [apply (thw_linear _ 1 1 1 0.5 [0.5; 1] ltac:(cbn; lia) S)|]. split; [right; left; reflexivity|].
  destruct (momentum_ok (fun _ a b => prim b - prim a) (fun t => 1 + 1 * t) 1 1 prim ltac:(lra) ltac:(lra) ltac:(lra) ltac:(pose proof prim_grow; lra) ltac:(apply quad_prim; lra)) as (d & E & D & Q).
  { intros t [T _]. apply prim_d. exact T. }
  exists d, (d ^ 2 / 1 * (1 * 0.5)). cbn [thw_at t_delta2 t_lambda]. rewrite E. split; [reflexivity|]. split; [reflexivity|].
  assert (0 < d ^ 2). { pose proof prim_grow. destruct (Req_EM_T d 0) as [->|Z]; [exfalso; rewrite pow_i in Q by lia; lra|nra]. }
  unfold Rdiv. rewrite Rinv_1. lra.
Qed.
Print Assumptions C285_lambda_refuted.
(** it is the right one multiplied by the step *)
Theorem C285_lambda_partial quad a c nu h xs : le 2 (length xs) -> stepped h xs -> exists r,
  thw_properties quad (fun t => a + c * t) nu xs = Ok r /\ 
  Forall2 (fun x t => t_delta2 t = momentum quad (fun t => a + c * t) nu x /\ t_lambda t = option_map (fun d => d ^ 2 / nu * (c * h)) (t_delta2 t)) xs r.
Proof.
  intros L S. eexists. split; [exact (thw_linear quad a c nu h xs L S)|]. clear L S. induction xs as [|x xs IH]; cbn; [constructor|]. constructor; [split; reflexivity|exact IH].
Qed.
Print Assumptions C285_lambda_partial.

(** C286: the shape factor is between 2.2 and 4 where |lambda| < 0.1 and unknown elsewhere; the displacement thickness is H times the
    momentum thickness; in a uniform flow H = 2.61. *)
Theorem C286_shape quad ue nu xs : le 2 (length xs) -> exists r, thw_properties quad ue nu xs = Ok r /\ length r = length xs /\
  forall t, In t r -> (forall d, t_delta2 t = Some d -> exists l, t_lambda t = Some l /\
       (-0.1 < l < 0.1 -> exists h, t_H t = Some h /\ 2.2 < h < 4 /\ t_star t = Some (h * d)) /\
       (l <= -0.1 \/ 0.1 <= l -> t_H t = None /\ t_star t = None)) /\
     (t_delta2 t = None -> t_star t = None).
Proof.
  intros L. destruct (thw_run quad ue nu xs L) as (r & E & LR & P). exists r. split; [exact E|]. split; [exact LR|]. intros t Ht. apply In_nth_error in Ht. destruct Ht as [i Hi].
  destruct (nth_error xs i) as [x|] eqn:Ex; [|exfalso; apply nth_error_None in Ex; assert (lt i (length r)) by (apply nth_error_Some; congruence); lia].
  destruct (P i x Ex) as [g Eg]. assert (t = thw_at quad ue nu x g) as -> by congruence. destruct (thw_at_star quad ue nu x g) as [A B]. split; [|exact B].
  intros d Hd. destruct (A d Hd) as (l & El & Eh & Es). exists l. split; [exact El|]. rewrite Eh, Es. split.
  - intros R. destruct (Rlt_dec l 0) as [N|N]; [rewrite h_neg by lra|rewrite h_small by lra]; (eexists; split; [reflexivity|]; split; [|reflexivity]); apply (h_range l);
      [rewrite h_neg by lra|rewrite h_small by lra]; reflexivity.
  - intros R. rewrite h_out by exact R. split; reflexivity.
Qed.
Print Assumptions C286_shape.
Theorem C286_uniform quad U nu h xs : le 2 (length xs) -> stepped h xs -> 0 < U -> 0 <= nu ->
  (forall x, In x xs -> 0 <= x /\ quad_exact quad (fun _ => pw U 4.68) 0 x) -> exists r, thw_properties quad (fun _ => U) nu xs = Ok r /\
  Forall2 (fun x t => t_lambda t = Some 0 /\ t_H t = Some 2.61 /\ exists d, t_delta2 t = Some d /\ t_star t = Some (2.61 * d) /\ d ^ 2 * U = 0.441 * nu * x) xs r.
Proof.
  intros L S HU Hn Q. pose proof (thw_linear quad U 0 nu h xs L S) as E. replace (fun t : R => U + 0 * t) with (fun _ : R => U) in E
    by (apply FunctionalExtensionality.functional_extensionality; intros t; ring).
  eexists. split; [exact E|]. clear E L S. induction xs as [|x xs IH]; cbn [map]; [constructor|]. constructor; [|apply IH; intros z Hz; apply Q; right; exact Hz].
  destruct (Q x (or_introl eq_refl)) as [X Qx]. destruct (momentum_const quad U nu x Hn X HU Qx) as (d & Ed & _ & D).
  unfold thw_at. cbn. rewrite Ed. cbn. rewrite !Rmult_0_l, !Rmult_0_r, h_small by lra. split; [reflexivity|]. split; [f_equal; ring|]. exists d. split; [reflexivity|]. split; [f_equal; ring|exact D].
Qed.
Print Assumptions C286_uniform.
Example C286_example : stepped 1 [1; 2] /\ forall x, In x [1; 2] -> 0 <= x /\ quad_exact (fun _ a b => pw 1 4.68 * (b - a)) (fun _ => pw 1 4.68) 0 x.
Proof.
  split; [intros [|i] Hi; [cbn; lra|cbn in Hi; lia]|]. intros x H. assert (X : 0 <= x) by (destruct H as [<-|[<-|[]]]; lra). split; [exact X|]. intros F D.
  rewrite <- (prim_unique (fun t => pw 1 4.68 * t) F (fun _ => pw 1 4.68) 0 x X); [ring| |exact D].
  intros t _. pose proof (derivable_pt_lim_scal id (pw 1 4.68) t 1 (derivable_pt_lim_id t)) as Z. rewrite Rmult_1_r in Z. exact Z.
Qed.
