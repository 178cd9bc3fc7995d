(** * LayProofs: proofs for LayModel. *)
From Coq Require Import Reals List Bool ZArith Lra Lia FunctionalExtensionality.
From Verif Require Import Res LayModel LaySpec.
Import ListNotations.
#[local] Open Scope R_scope.

Lemma ltb_t x y : x < y -> ltb x y = true. Proof. unfold ltb. destruct (Rlt_dec x y); [reflexivity|lra]. Qed.
Lemma ltb_f x y : y <= x -> ltb x y = false. Proof. unfold ltb. destruct (Rlt_dec x y); [lra|reflexivity]. Qed.
Lemma eqb_t x : eqb x x = true. Proof. unfold eqb. destruct (Req_EM_T x x); [reflexivity|contradiction]. Qed.
Lemma eqb_f x y : x <> y -> eqb x y = false. Proof. unfold eqb. destruct (Req_EM_T x y); [contradiction|reflexivity]. Qed.
Lemma pw_pos x a : 0 < x -> pw x a = Rpower x a. Proof. intros H. unfold pw. destruct (Req_EM_T x 0); [lra|reflexivity]. Qed.
Lemma Rpower_pos x a : 0 < Rpower x a. Proof. apply exp_pos. Qed.
Lemma half_half x : 0 < x -> Rpower x 0.5 * Rpower x 0.5 = x.
Proof. intros H. rewrite <- Rpower_plus. replace (0.5 + 0.5) with 1 by lra. apply Rpower_1. exact H. Qed.
Lemma pw_half_sqrt x : 0 <= x -> pw x 0.5 = sqrt x.
Proof.
  intros H. unfold pw. destruct (Req_EM_T x 0) as [->|N]; [symmetry; apply sqrt_0|]. replace 0.5 with (/ 2) by lra. apply Rpower_sqrt. lra.
Qed.
Lemma div_pow x a : 0 < x -> x / Rpower x a = Rpower x (1 - a).
Proof. intros H. unfold Rminus. rewrite Rpower_plus, Rpower_Ropp, Rpower_1 by exact H. reflexivity. Qed.

Section Bl.
Context (b : blasius) (PH : physical b).
Let U := Uinf b. Let n := nu b.
Lemma HU : 0 < U. Proof. apply PH. Qed.
Lemma Hn : 0 < n. Proof. apply PH. Qed.
Definition re (x : R) : R := U * x / n.
Lemma re_pos x : 0 < x -> 0 < re x.
Proof. intros H. unfold re. pose proof HU. pose proof Hn. apply Rdiv_lt_0_compat; [apply Rmult_lt_0_compat; assumption|assumption]. Qed.
Lemma re_lt x y : x < y -> re x < re y.
Proof.
  intros H. unfold re, Rdiv. pose proof HU. pose proof Hn. apply Rmult_lt_compat_r; [apply Rinv_0_lt_compat; assumption|].
  apply Rmult_lt_compat_l; assumption.
Qed.
Lemma x_re x : x = n / U * re x.
Proof. unfold re. pose proof HU. pose proof Hn. field. split; lra. Qed.

Definition lam_layer (coef x : R) : layer :=
  let d2 := 0.664 * pw (n * x / U) 0.5 in let cf := 0.664 / pw (re x) 0.5 in
  mklayer (x * coef / pw (re x) 0.5) d2 (d2 * 2.59) 2.59 cf (re x) (cf * 1 / 2 * rho b * U ^ 2).
Definition turb_layer (x : R) : layer :=
  let cf := 0.0592 / pw (re x) 0.2 in mklayer (x * 0.3806 / pw (re x) 0.2) 0 (0 * 2.59) 2.59 cf (re x) (cf * 1 / 2 * rho b * U ^ 2).
Definition zero_layer : layer := mklayer 0 0 0 2.59 0 0 0.
Lemma at_zero turb p coef : bl_at b turb p coef 0 = Ok zero_layer.
Proof. unfold bl_at. rewrite eqb_t. reflexivity. Qed.
Lemma at_lam p coef x : x <> 0 -> re x < 500000 -> bl_at b false p coef x = Ok (lam_layer coef x).
Proof. intros X L. unfold bl_at. rewrite (eqb_f _ _ X). fold U n. fold (re x). rewrite (ltb_t _ _ L). reflexivity. Qed.
Lemma at_turb turb coef x : x <> 0 -> (turb = true \/ 500000 <= re x) -> bl_at b turb P99 coef x = Ok (turb_layer x).
Proof.
  intros X L. unfold bl_at. rewrite (eqb_f _ _ X). fold U n. fold (re x). destruct L as [->|L]; [rewrite andb_false_r|rewrite (ltb_f _ _ L)]; reflexivity.
Qed.
Lemma at_turb95 turb coef x : x <> 0 -> (turb = true \/ 500000 <= re x) -> bl_at b turb P95 coef x = Err GenericErr.
Proof.
  intros X L. unfold bl_at. rewrite (eqb_f _ _ X). fold U n. fold (re x). destruct L as [->|L]; [rewrite andb_false_r|rewrite (ltb_f _ _ L)]; reflexivity.
Qed.
Lemma lam_delta coef x : 0 < x -> x * coef / pw (re x) 0.5 = n / U * coef * Rpower (re x) 0.5.
Proof.
  intros X. rewrite (pw_pos _ _ (re_pos x X)). pose proof (re_pos x X) as P. pose proof (div_pow (re x) 0.5 P) as D. replace (1 - 0.5) with 0.5 in D by lra.
  transitivity (n / U * coef * (re x / Rpower (re x) 0.5)); [|rewrite D; reflexivity]. rewrite (x_re x) at 1. field. pose proof (Rpower_pos (re x) 0.5). pose proof HU. split; lra.
Qed.
Lemma turb_delta x : 0 < x -> x * 0.3806 / pw (re x) 0.2 = n / U * 0.3806 * Rpower (re x) 0.8.
Proof.
  intros X. rewrite (pw_pos _ _ (re_pos x X)). pose proof (re_pos x X) as P. pose proof (div_pow (re x) 0.2 P) as D. replace (1 - 0.2) with 0.8 in D by lra.
  transitivity (n / U * 0.3806 * (re x / Rpower (re x) 0.2)); [|rewrite D; reflexivity]. rewrite (x_re x) at 1. field. pose proof (Rpower_pos (re x) 0.2). pose proof HU. split; lra.
Qed.
Lemma nU : 0 < n / U. Proof. apply Rdiv_lt_0_compat; [exact Hn|exact HU]. Qed.

Lemma law_lam coef x : 0 <= coef -> 0 < x -> blasius_law b coef x (lam_layer coef x).
Proof.
  intros C X. pose proof (re_pos x X) as P. pose proof HU as HU. pose proof Hn as Hn. pose proof (Rpower_pos (re x) 0.5) as Q. pose proof (half_half _ P) as HH.
  assert (P2 : 0 < n * x / U) by (apply Rdiv_lt_0_compat; [apply Rmult_lt_0_compat; assumption|assumption]).
  pose proof (half_half _ P2) as HH2. pose proof (Rpower_pos (n * x / U) 0.5) as Q2. pose proof nU as NU.
  unfold blasius_law, lam_layer. cbn [delta delta2 delta_star shape Cf Rex tau_w]. rewrite (lam_delta coef x X), !pw_pos by assumption. fold U n.
  split. { apply Rmult_le_pos; [apply Rmult_le_pos; lra|lra]. }
  split. { replace ((n / U * coef * Rpower (re x) 0.5) ^ 2 * U) with ((n / U) ^ 2 * coef ^ 2 * U * (Rpower (re x) 0.5 * Rpower (re x) 0.5)) by ring.
           rewrite HH. unfold re. field. split; lra. }
  split. { lra. }
  split. { replace ((0.664 * Rpower (n * x / U) 0.5) ^ 2 * U) with (0.664 ^ 2 * U * (Rpower (n * x / U) 0.5 * Rpower (n * x / U) 0.5)) by ring. rewrite HH2. field. lra. }
  split. { ring. } split. { reflexivity. } split. { reflexivity. }
  split. { intros _. split; [apply Rdiv_lt_0_compat; lra|]. replace (re x) with (Rpower (re x) 0.5 * Rpower (re x) 0.5) at 2. field. lra. }
  field. lra.
Qed.
Lemma law_zero coef : blasius_law b coef 0 zero_layer.
Proof. pose proof Hn as Hn. unfold blasius_law, zero_layer. cbn. fold n. repeat split; try lra; unfold Rdiv; ring. Qed.
Lemma mapM_F2 {A B} (f : A -> res B) (Q : A -> B -> Prop) l : (forall x, In x l -> exists y, f x = Ok y /\ Q x y) -> exists r, mapM f l = Ok r /\ Forall2 Q l r.
Proof.
  induction l as [|x l IH]; intros H; [exists []; split; [reflexivity|constructor]|].
  destruct (H x (or_introl eq_refl)) as (y & E & HQ). destruct IH as (r & Er & HF); [intros z Hz; apply H; right; exact Hz|].
  exists (y :: r). cbn. rewrite E. cbn. rewrite Er. split; [reflexivity|constructor; assumption].
Qed.
Lemma laminar_all p xs : p <> POther -> Forall (fun x => 0 <= x /\ laminar b x) xs ->
  exists ls, get_BL_properties b xs false p = Ok ls /\ Forall2 (blasius_law b (match p with P95 => 3.92 | _ => 4.91 end)) xs ls.
Proof.
  intros NP H. rewrite Forall_forall in H. destruct p; [| |contradiction]; cbn [get_BL_properties];
    (apply mapM_F2; intros x Hx; destruct (H x Hx) as [X L]; destruct (Req_EM_T x 0) as [->|N];
      [eexists; split; [apply at_zero|apply law_zero]|eexists; split; [apply at_lam; assumption|apply law_lam; lra]]).
Qed.

(** growth *)
Definition big : R := 500000.
Lemma pow_big : 16 < Rpower 500000 0.3.
Proof.
  apply Rlt_trans with (Rpower (2 ^ 15) 0.3).
  - rewrite <- Rpower_pow by lra. rewrite Rpower_mult. replace 16 with (2 ^ 4) by lra. rewrite <- (Rpower_pow 4) by lra. apply Rpower_lt; [lra|]. cbn [INR]. lra.
  - apply Rlt_Rpower_l; [lra|]. split; lra.
Qed.
Lemma pow_mono a x y : 0 < a -> 0 < x <= y -> Rpower x a <= Rpower y a.
Proof. intros A [X L]. destruct (Req_EM_T x y) as [->|N]; [lra|]. left. apply Rlt_Rpower_l; [exact A|lra]. Qed.
Lemma lam_turb r1 r2 : 0 < r1 < 500000 -> 500000 <= r2 -> 4.91 * Rpower r1 0.5 < 0.3806 * Rpower r2 0.8.
Proof.
  intros [A B] C. assert (E1 : Rpower r1 0.5 < Rpower 500000 0.5) by (apply Rlt_Rpower_l; [lra|split; assumption]).
  assert (E2 : Rpower 500000 0.8 <= Rpower r2 0.8) by (apply pow_mono; lra).
  assert (E3 : Rpower 500000 0.8 = Rpower 500000 0.5 * Rpower 500000 0.3) by (rewrite <- Rpower_plus; f_equal; lra).
  pose proof pow_big. pose proof (Rpower_pos 500000 0.5) as Q.
  assert (Rpower 500000 0.5 * 16 < Rpower 500000 0.5 * Rpower 500000 0.3) by (apply Rmult_lt_compat_l; assumption). lra.
Qed.
Lemma growth turb x y lx ly : 0 <= x < y -> bl_at b turb P99 4.91 x = Ok lx -> bl_at b turb P99 4.91 y = Ok ly -> delta lx < delta ly.
Proof.
  intros [X XY] E1 E2. assert (Y : 0 < y) by lra. pose proof nU as NU. pose proof (re_pos y Y) as PY.
  assert (DY : 0 < delta ly /\ (turb = true \/ 500000 <= re y -> delta ly = n / U * 0.3806 * Rpower (re y) 0.8) /\ (turb = false -> re y < 500000 -> delta ly = n / U * 4.91 * Rpower (re y) 0.5)).
  { destruct turb; [|destruct (Rlt_dec (re y) 500000) as [L|L]].
    - rewrite (at_turb true 4.91 y) in E2 by (try lra; left; reflexivity). injection E2 as <-. cbn. rewrite turb_delta by exact Y.
      split; [apply Rmult_lt_0_compat; [apply Rmult_lt_0_compat; lra|apply Rpower_pos]|]. split; [reflexivity|discriminate].
    - rewrite (at_lam P99 4.91 y) in E2 by lra. injection E2 as <-. cbn. rewrite lam_delta by exact Y.
      split; [apply Rmult_lt_0_compat; [apply Rmult_lt_0_compat; lra|apply Rpower_pos]|]. split; [intros [Z|Z]; [discriminate|lra]|reflexivity].
    - rewrite (at_turb false 4.91 y) in E2 by (try lra; right; lra). injection E2 as <-. cbn. rewrite turb_delta by exact Y.
      split; [apply Rmult_lt_0_compat; [apply Rmult_lt_0_compat; lra|apply Rpower_pos]|]. split; [reflexivity|intros; lra]. }
  destruct DY as (D0 & DT & DL). destruct (Req_EM_T x 0) as [->|N].
  { rewrite at_zero in E1. injection E1 as <-. exact D0. }
  assert (X' : 0 < x) by lra. pose proof (re_pos x X') as PX. pose proof (re_lt x y XY) as RL.
  destruct turb; [|destruct (Rlt_dec (re x) 500000) as [L|L]].
  - rewrite (at_turb true 4.91 x) in E1 by (try lra; left; reflexivity). injection E1 as <-. cbn. rewrite turb_delta, DT by (try assumption; left; reflexivity).
    apply Rmult_lt_compat_l; [apply Rmult_lt_0_compat; lra|]. apply Rlt_Rpower_l; lra.
  - rewrite (at_lam P99 4.91 x) in E1 by lra. injection E1 as <-. cbn. rewrite lam_delta by exact X'. destruct (Rlt_dec (re y) 500000) as [LY|LY].
    + rewrite DL by (try reflexivity; exact LY). apply Rmult_lt_compat_l; [apply Rmult_lt_0_compat; lra|]. apply Rlt_Rpower_l; lra.
    + rewrite DT by (right; lra). rewrite !Rmult_assoc. apply Rmult_lt_compat_l; [exact NU|]. apply lam_turb; lra.
  - rewrite (at_turb false 4.91 x) in E1 by (try lra; right; lra). injection E1 as <-. cbn. rewrite turb_delta, DT by (try assumption; right; lra).
    apply Rmult_lt_compat_l; [apply Rmult_lt_0_compat; lra|]. apply Rlt_Rpower_l; lra.
Qed.

(** the position from the thickness *)
Lemma inverse_lam x : 0 < x -> re x < 500000 -> get_x_from_delta b (delta (lam_layer 4.91 x)) false = (4.91 / 4.92) ^ 2 * x.
Proof.
  intros X L. destruct (law_lam 4.91 x ltac:(lra) X) as (_ & D & _). unfold get_x_from_delta. set (d := delta (lam_layer 4.91 x)) in *. fold U n in D |- *.
  pose proof HU as HU. pose proof Hn as Hn. rewrite D. replace (4.91 ^ 2 * n * x / (4.92 ^ 2 * n)) with ((4.91 / 4.92) ^ 2 * x) by (field; lra).
  rewrite ltb_f; [reflexivity|]. unfold get_Rex. fold U n. replace (U * ((4.91 / 4.92) ^ 2 * x) / n) with ((4.91 / 4.92) ^ 2 * re x) by (unfold re; field; lra).
  pose proof (re_pos x X). nra.
Qed.
Lemma inverse_turb turb x : 0 < x -> (turb = true \/ 500000 <= re x) -> get_x_from_delta b (delta (turb_layer x)) turb = x.
Proof.
  intros X L. unfold get_x_from_delta. cbn [turb_layer delta]. rewrite turb_delta by exact X. fold U n. pose proof HU as HU. pose proof Hn as Hn. pose proof (re_pos x X) as P.
  pose proof (Rpower_pos (re x) 0.8) as Q. pose proof nU as NU.
  assert (E : (ltb 500000 (get_Rex b ((n / U * 0.3806 * Rpower (re x) 0.8) ^ 2 * U / (4.92 ^ 2 * n))) || turb)%bool = true).
  { destruct L as [->|L]; [apply orb_true_r|]. rewrite ltb_t; [reflexivity|]. unfold get_Rex. fold U n.
    replace (U * ((n / U * 0.3806 * Rpower (re x) 0.8) ^ 2 * U / (4.92 ^ 2 * n)) / n) with ((0.3806 * Rpower (re x) 0.8 / 4.92) ^ 2) by (field; lra).
    assert (E2 : 16384 < Rpower (re x) 0.8).
    { apply Rlt_trans with (Rpower (2 ^ 18) 0.8).
      - rewrite <- Rpower_pow by lra. rewrite Rpower_mult. replace 16384 with (2 ^ 14) by lra. rewrite <- (Rpower_pow 14) by lra. apply Rpower_lt; [lra|]. rewrite !INR_IZR_INZ. cbn. lra.
      - apply Rlt_Rpower_l; [lra|]. split; lra. }
    assert (1200 < 0.3806 * Rpower (re x) 0.8 / 4.92) by lra. nra. }
  rewrite E. rewrite (pw_pos U), (pw_pos n) by assumption.
  assert (I : n / U * 0.3806 * Rpower (re x) 0.8 * Rpower U 0.2 / (0.3806 * Rpower n 0.2) = Rpower x 0.8).
  { unfold re, Rpower. assert (ln (U * x / n) = ln U + ln x - ln n) as ->.
    { unfold Rdiv. rewrite ln_mult, ln_mult, ln_Rinv; try assumption; try (apply Rmult_lt_0_compat; assumption); [lra|apply Rinv_0_lt_compat; assumption]. }
    replace (exp (0.8 * ln x)) with (exp (ln n) / exp (ln U) * exp (0.8 * (ln U + ln x - ln n)) * exp (0.2 * ln U) / exp (0.2 * ln n)).
    - rewrite !exp_ln by assumption. field. pose proof (exp_pos (0.2 * ln n)). repeat split; lra.
    - unfold Rdiv. rewrite <- !exp_Ropp, <- !exp_plus. f_equal. lra. }
  rewrite I. rewrite pw_pos by apply Rpower_pos. rewrite Rpower_mult. replace (0.8 * (1 / 0.8)) with 1 by lra. apply Rpower_1. exact X.
Qed.
(** the momentum equation *)
Lemma momentum_eq x : 0 < x -> derivable_pt_lim (fun t => 0.664 * sqrt (n * t / U)) x (Cf (lam_layer 4.91 x) / 2).
Proof.
  intros X. pose proof HU as HU. pose proof Hn as Hn. pose proof (re_pos x X) as P.
  assert (P2 : 0 < n * x / U) by (apply Rdiv_lt_0_compat; [apply Rmult_lt_0_compat; assumption|assumption]).
  cbn [lam_layer Cf]. rewrite pw_half_sqrt by lra.
  assert (E : 0.664 / sqrt (re x) / 2 = 0.664 * (/ (2 * sqrt (n * x / U)) * (n / U))).
  { pose proof (sqrt_lt_R0 _ P) as S1. pose proof (sqrt_lt_R0 _ P2) as S2. assert (S3 : sqrt (re x) * sqrt (n * x / U) = x).
    { rewrite <- sqrt_mult by lra. replace (re x * (n * x / U)) with (x * x) by (unfold re; field; lra). apply sqrt_square. lra. }
    assert (S4 : sqrt (n * x / U) * sqrt (n * x / U) = n * x / U) by (apply sqrt_sqrt; lra).
    apply (Rmult_eq_reg_r (sqrt (re x) * sqrt (n * x / U) * sqrt (n * x / U))); [|apply Rmult_integral_contrapositive; split; [apply Rmult_integral_contrapositive; split|]; lra].
    replace (0.664 / sqrt (re x) / 2 * (sqrt (re x) * sqrt (n * x / U) * sqrt (n * x / U))) with (0.664 / 2 * (sqrt (n * x / U) * sqrt (n * x / U))) by (field; lra).
    replace (0.664 * (/ (2 * sqrt (n * x / U)) * (n / U)) * (sqrt (re x) * sqrt (n * x / U) * sqrt (n * x / U))) with (0.664 / 2 * (n / U) * (sqrt (re x) * sqrt (n * x / U))) by (field; lra).
    rewrite S3, S4. field. lra. }
  rewrite E. apply (derivable_pt_lim_scal (fun t => sqrt (n * t / U)) 0.664). apply (derivable_pt_lim_comp (fun t => n * t / U) sqrt).
  - replace (n / U) with (n / U * 1) by ring. assert (F : (fun t => n * t / U) = mult_real_fct (n / U) id). { apply functional_extensionality. intros t. unfold mult_real_fct, id. field. lra. }
    rewrite F. apply derivable_pt_lim_scal. apply derivable_pt_lim_id.
  - apply derivable_pt_lim_sqrt. exact P2.
Qed.
End Bl.
