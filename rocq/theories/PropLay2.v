(** * PropLay2: the profiles of confined layers (C314). *)
From Coq Require Import Reals List Bool ZArith Lra Lia.
From Verif Require Import Res LayModel LaySpec LayProofs LayProofs2 LayProofs3.
Import ListNotations.
#[local] Open Scope R_scope.

Definition one_bl : blasius := mkbl 1 1 1.
Lemma one_ok : physical one_bl. Proof. split; cbn; lra. Qed.
Lemma one_lam : re one_bl 1 < 500000. Proof. unfold re; cbn; lra. Qed.
Lemma one_delta : delta (lam_layer one_bl 4.91 1) = 4.91.
Proof.
  destruct (law_lam one_bl one_ok 4.91 1 ltac:(lra) ltac:(lra)) as (D0 & D1 & _). cbn [Uinf nu one_bl] in D1. apply (sq_eq _ _ 1); lra.
Qed.
(** an exact integration of a flow that follows Blasius' profile at the wall *)
Definition linear_flow (t : R) : state := (0, 0.332 * t, 0.332).
Definition run_flow (f : state -> state) (s0 : state) (l : list R) : list state := match l with [] => [] | t0 :: _ => map (fun t => linear_flow (t - t0)) l end.
Lemma run_ok : odeint_ok run_flow linear_flow. Proof. intros d t0 r _. reflexivity. Qed.
Lemma flow_wall : from_wall linear_flow.
Proof.
  split; [unfold linear_flow; do 2 f_equal; lra|]. cbn. intros e E. exists (mkposreal 1 Rlt_0_1). intros h H _. replace ((0.332 * (0 + h) - 0.332 * 0) / h - 0.332) with 0 by (field; exact H). rewrite Rabs_R0. exact E.
Qed.

(** C314: the profile of a confined layer is the profile of the position where the layer has the confined thickness.  Refuted: the position
    is found with 4.92 where thicknesses are computed with 4.91. *)
Theorem C314_confined_partial odeint b x h l y : physical b -> 0 < x -> laminar b x -> 0 < h -> get_BL_properties b [x] false P99 = Ok [l] -> delta l <= h ->
  exists d x' l', with_confinement b [x] h false = Ok [(x, d)] /\ 0 < x' <= x /\ get_BL_properties b [x'] false P99 = Ok [l'] /\ delta l' = 4.91 / 4.92 * d /\
    profile_with_confinement odeint b x h y false = get_profile odeint b x' y false.
Proof.
  intros PH X L H E DH. destruct (confined_position b x h l PH X L H E DH) as (P & Q & l' & E' & D').
  eexists _, _, l'. split; [exact (confined b [x] h false [l] E)|]. split; [exact Q|]. split; [exact E'|]. split; [exact D'|]. rewrite (confined_run odeint b x h l y E), P. reflexivity.
Qed.
Print Assumptions C314_confined_partial.
Theorem C314_thickness_refuted : exists odeint Phi b x h y d, odeint_ok odeint Phi /\ from_wall Phi /\ physical b /\ 0 < x /\ laminar b x /\ 0 < h /\ with_confinement b [x] h false = Ok [(x, d)] /\ 0 < d < h /\
  ~ exists x' l', 0 < x' /\ laminar b x' /\ get_BL_properties b [x'] false P99 = Ok [l'] /\ delta l' = d /\ profile_with_confinement odeint b x h y false = get_profile odeint b x' y false.
Proof.
  assert (E : get_BL_properties one_bl [1] false P99 = Ok [lam_layer one_bl 4.91 1]) by (cbn [get_BL_properties mapM]; rewrite at_lam by (try lra; exact one_lam); reflexivity).
  assert (D := one_delta). assert (DH : delta (lam_layer one_bl 4.91 1) <= 5) by lra.
  exists run_flow, linear_flow, one_bl, 1, 5, [0; 1]. eexists. split; [exact run_ok|]. split; [exact flow_wall|]. split; [exact one_ok|]. split; [lra|]. split; [exact one_lam|]. split; [lra|].
  split; [exact (confined one_bl [1] 5 false _ E)|]. rewrite D. split; [lra|]. intros (x2 & l2 & X2 & L2 & E2 & D2 & P).
  rewrite (confined_run _ _ _ _ _ _ E) in P. destruct (confined_position one_bl 1 5 _ one_ok ltac:(lra) one_lam ltac:(lra) E DH) as (P1 & Q1 & _). rewrite P1 in P. rewrite D in P, Q1.
  set (x1 := (4.91 / 4.92) ^ 2 * (1 - 0.26547 * 4.91 / 5) ^ 2 * 1) in *.
  cbn [get_BL_properties mapM] in E2. rewrite (at_lam one_bl P99 4.91 x2 ltac:(lra) L2) in E2. injection E2 as <-.
  destruct (law_lam one_bl one_ok 4.91 x2 ltac:(lra) X2) as (_ & K & _). rewrite D2 in K. cbn [Uinf nu one_bl] in K.
  assert (NE : x1 < x2) by (unfold x1; lra). clearbody x1.
  unfold get_profile, run_flow in P. cbn [map combine snd fst linear_flow Uinf nu one_bl] in P. injection P as _ P.
  assert (S1 : 0 < sqrt x1) by (apply sqrt_lt_R0; lra). assert (S2 : 0 < sqrt x2) by (apply sqrt_lt_R0; lra). assert (S3 : sqrt x1 < sqrt x2) by (apply sqrt_lt_1; lra).
  replace (1 / 1) with 1 in P by field. rewrite sqrt_1 in P. assert (I := Rinv_lt_contravar _ _ (Rmult_lt_0_compat _ _ S1 S2) S3).
  assert (F : forall s, 0 < s -> 0.332 * (1 / (s * 1) - 0 / (s * 1)) * 1 = 0.332 * / s) by (intros s Hs; field; lra). rewrite (F _ S1), (F _ S2) in P. lra.
Qed.
Print Assumptions C314_thickness_refuted.
(** turbulent layers have no profile *)
Theorem C314_turbulent_refuted odeint b x h y : 0 < x -> profile_with_confinement odeint b x h y true = Err AttrErr.
Proof. exact (confined_turb odeint b x h y). Qed.
Print Assumptions C314_turbulent_refuted.
Example C314_example : physical one_bl /\ laminar one_bl 1 /\ exists l, get_BL_properties one_bl [1] false P99 = Ok [l] /\ delta l <= 5.
Proof.
  split; [exact one_ok|]. split; [exact one_lam|]. exists (lam_layer one_bl 4.91 1). split; [cbn [get_BL_properties mapM]; rewrite at_lam by (try lra; exact one_lam); reflexivity|]. rewrite one_delta. lra.
Qed.
