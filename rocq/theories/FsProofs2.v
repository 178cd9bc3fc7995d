(** * FsProofs2: the profiles of Falkner and Skan solve Prandtl's equations. *)
From Coq Require Import Reals List Bool ZArith Lra Lia.
From Verif Require Import Res LayModel LaySpec LayProofs LayProofs2 FsModel FsSpec FsProofs.
Import ListNotations.
#[local] Open Scope R_scope.

Lemma dpl_ext f g x l : (forall t, f t = g t) -> derivable_pt_lim f x l -> derivable_pt_lim g x l.
Proof. intros E D e He. destruct (D e He) as [d Hd]. exists d. intros h h0 hd. rewrite <- !E. exact (Hd h h0 hd). Qed.
Lemma dpl_eq f x l l' : l = l' -> derivable_pt_lim f x l -> derivable_pt_lim f x l'. Proof. intros <-. exact (fun H => H). Qed.
Lemma dpl_lin k x : derivable_pt_lim (fun t => t * k) x k.
Proof. apply (dpl_ext (mult_real_fct k id)); [intros t; unfold mult_real_fct, id; ring|]. apply (dpl_eq _ _ (k * 1)); [ring|]. apply derivable_pt_lim_scal. apply derivable_pt_lim_id. Qed.
Lemma dpl_comp f g x l k : derivable_pt_lim f x l -> derivable_pt_lim g (f x) k -> derivable_pt_lim (fun t => g (f t)) x (k * l).
Proof. intros A B. exact (derivable_pt_lim_comp f g x l k A B). Qed.
Lemma dpl_mult f g x l k : derivable_pt_lim f x l -> derivable_pt_lim g x k -> derivable_pt_lim (fun t => f t * g t) x (l * g x + f x * k).
Proof. intros A B. exact (derivable_pt_lim_mult f g x l k A B). Qed.
Lemma dpl_scal c f x l : derivable_pt_lim f x l -> derivable_pt_lim (fun t => c * f t) x (c * l).
Proof. intros A. exact (derivable_pt_lim_scal f c x l A). Qed.
Lemma dpl_plus f g x l k : derivable_pt_lim f x l -> derivable_pt_lim g x k -> derivable_pt_lim (fun t => f t + g t) x (l + k).
Proof. intros A B. exact (derivable_pt_lim_plus f g x l k A B). Qed.
Lemma dpl_powL L a x : 0 < L -> 0 < x -> derivable_pt_lim (fun t => Rpower (t / L) a) x (a / x * Rpower (x / L) a).
Proof.
  intros HL X. assert (Z : 0 < x / L) by (apply Rdiv_lt_0_compat; assumption).
  apply (dpl_eq _ _ (a * Rpower (x / L) (a - 1) * / L)).
  - unfold Rminus. rewrite Rpower_plus, Rpower_Ropp, Rpower_1 by exact Z. field. split; lra.
  - apply (dpl_comp (fun t => t / L) (fun z => Rpower z a)); [exact (dpl_lin (/ L) x)|apply derivable_pt_lim_power; exact Z].
Qed.
Section P.
Context (f : fskan) (PH : fs_physical f) (F G H : R -> R) (SOL : fs_solution f F G H).
Let n := f_nu f. Let c := f_c0 f. Let L := f_L f. Let m := f_m f.
(** the inverse of the height of mu = 1 *)
Definition q (x : R) : R := / get_y f x 1.
Definition K : R := / sqrt (n * L / c).
Lemma scale_pos : 0 < n * L / c.
Proof. destruct PH as (N & C & HL & M). apply Rdiv_lt_0_compat; [apply Rmult_lt_0_compat; assumption|assumption]. Qed.
Lemma K_pos : 0 < K. Proof. apply Rinv_0_lt_compat. apply sqrt_lt_R0. exact scale_pos. Qed.
Lemma K2 : K * K * (n * L) = c.
Proof.
  destruct PH as (N & C & HL & M). pose proof scale_pos as P. unfold K. rewrite <- Rinv_mult.
  rewrite sqrt_def by lra. fold n in N. fold c in C. fold L in HL. field. repeat split; lra.
Qed.
Lemma q_power x : 0 < x -> q x = K * Rpower (x / L) ((m - 1) / 2).
Proof.
  intros X. unfold q. rewrite (y_power f PH x 1 X). fold n c L m. pose proof (sqrt_lt_R0 _ scale_pos). pose proof (Rpower_pos (x / L) ((1 - m) / 2)).
  replace ((m - 1) / 2) with (- ((1 - m) / 2)) by field. rewrite Rpower_Ropp. unfold K. field. split; lra.
Qed.
Definition q_ (x : R) : R := K * Rpower (x / L) ((m - 1) / 2).
Lemma q_deriv x : 0 < x -> derivable_pt_lim q_ x ((m - 1) / (2 * x) * q_ x).
Proof.
  intros X. destruct PH as (N & C & HL & M). apply (dpl_eq _ _ (K * ((m - 1) / 2 / x * Rpower (x / L) ((m - 1) / 2)))).
  - unfold q_. field. lra.
  - apply dpl_scal. apply dpl_powL; assumption.
Qed.
Lemma q2 x : 0 < x -> q_ x * q_ x * (n * x) = get_u_e f x.
Proof.
  intros X. destruct PH as (N & C & HL & M). unfold q_, get_u_e. fold c L m. assert (Z : 0 < x / L) by (apply Rdiv_lt_0_compat; assumption).
  replace (K * Rpower (x / L) ((m - 1) / 2) * (K * Rpower (x / L) ((m - 1) / 2)) * (n * x)) with (K * K * (n * L) * (x / L * (Rpower (x / L) ((m - 1) / 2) * Rpower (x / L) ((m - 1) / 2)))) by (field; fold L in HL; lra).
  rewrite K2, <- Rpower_plus. f_equal. rewrite <- (Rpower_1 (x / L)) at 1 by exact Z. rewrite <- Rpower_plus. f_equal. field.
Qed.
Lemma u_e_deriv x : 0 < x -> derivable_pt_lim (get_u_e f) x (m / x * get_u_e f x).
Proof.
  intros X. destruct PH as (N & C & HL & M). unfold get_u_e at 1. apply (dpl_eq _ _ (c * (m / x * Rpower (x / L) m))); [unfold get_u_e; fold c L m; ring|].
  apply dpl_scal. apply dpl_powL; assumption.
Qed.
(** the velocity of the profiles, and the vertical velocity *)
Definition u_of (x y : R) : R := G (y * q_ x) * get_u_e f x.
Definition v_of (x y : R) : R := - (n * q_ x) * ((m + 1) / 2 * F (y * q_ x) + (m - 1) / 2 * (y * q_ x * G (y * q_ x))).
Lemma prandtl_ok x y : 0 < x -> prandtl n (get_u_e f x) (m / x * get_u_e f x) u_of v_of x y.
Proof.
  intros X. destruct PH as (N & C & HL & M). pose proof SOL as D. fold n in N.
  set (e := y * q_ x). set (U := get_u_e f x). set (k := q_ x).
  assert (Dx : forall g g', derivable_pt_lim g e g' -> derivable_pt_lim (fun t => g (y * q_ t)) x (g' * (y * ((m - 1) / (2 * x) * k)))).
  { intros g g' A. apply (dpl_comp (fun t => y * q_ t) g); [apply dpl_scal; apply q_deriv; exact X|exact A]. }
  assert (Dy : forall g g' z, derivable_pt_lim g (z * k) g' -> derivable_pt_lim (fun t => g (t * k)) z (g' * k)).
  { intros g g' z A. apply (dpl_comp (fun t => t * k) g); [apply dpl_lin|exact A]. }
  exists (H e * (y * ((m - 1) / (2 * x) * k)) * U + G e * (m / x * U)), (H e * k * U),
    ((- (m + 1) / 2 * F e * H e - m * (1 - G e ^ 2)) * k * k * U),
    (- (n * k) * ((m + 1) / 2 * (G e * k) + (m - 1) / 2 * (k * G e + e * (H e * k)))), (fun z => H (z * k) * k * U).
  split; [|split; [|split; [|split; [|split; [|split]]]]].
  - unfold u_of. apply (dpl_mult (fun t => G (y * q_ t)) (get_u_e f)); [apply Dx; apply D|apply u_e_deriv; exact X].
  - intros z. unfold u_of. fold k U. apply (dpl_ext (fun t => U * G (t * k))); [intros; ring|]. apply (dpl_eq _ _ (U * (H (z * k) * k))); [ring|]. apply dpl_scal. apply Dy. apply D.
  - reflexivity.
  - apply (dpl_ext (fun t => (k * U) * H (t * k))); [intros; ring|]. apply (dpl_eq _ _ (k * U * ((- (m + 1) / 2 * F e * H e - m * (1 - G e ^ 2)) * k))); [ring|]. apply dpl_scal. apply Dy. apply D.
  - unfold v_of. fold k. apply dpl_scal. apply dpl_plus; [apply dpl_scal; apply Dy; apply D|]. apply dpl_scal. apply (dpl_mult (fun t => t * k) (fun t => G (t * k))); [apply dpl_lin|apply Dy; apply D].
  - pose proof (q2 x X) as Q. fold k U in Q. rewrite <- Q. unfold e. fold k. field. lra.
  - unfold u_of, v_of. fold k e U. pose proof (q2 x X) as Q. fold k U in Q.
    assert (Q' : k * k * n = U / x) by (rewrite <- Q; field; lra).
    transitivity (U * U / x * (m * G e ^ 2 + (m - 1) / 2 * e * G e * H e) - (k * k * n) * U * ((m + 1) / 2 * F e * H e + (m - 1) / 2 * e * G e * H e)); [unfold e; fold k; field; lra|].
    transitivity (U * (m / x * U) + (k * k * n) * U * (- (m + 1) / 2 * F e * H e - m * (1 - G e ^ 2))); [|ring]. rewrite Q'. field. lra.
Qed.
Lemma v_wall x : F 0 = 0 -> v_of x 0 = 0.
Proof. intros F0. unfold v_of. rewrite Rmult_0_l, F0. ring. Qed.
Lemma u_wall x : G 0 = 0 -> u_of x 0 = 0.
Proof. intros G0. unfold u_of. rewrite Rmult_0_l, G0. ring. Qed.
Lemma y_mu x mu : 0 < x -> get_y f x mu * q_ x = mu.
Proof.
  intros X. rewrite (y_power f PH x mu X). fold n c L m. unfold q_, K. pose proof (sqrt_lt_R0 _ scale_pos). pose proof (Rpower_pos (x / L) ((1 - m) / 2)).
  replace ((m - 1) / 2) with (- ((1 - m) / 2)) by field. rewrite Rpower_Ropp. field. split; lra.
Qed.
Lemma profile_u odeint y3 x : 0 < x -> fs_odeint_ok odeint f y3 (fun t => (F t, G t, H t)) ->
  fs_profile odeint f y3 x = map (fun mu => (get_y f x mu, u_of x (get_y f x mu))) mus.
Proof.
  intros X O. rewrite (fs_profile_ok f odeint _ y3 x X (fun t0 r => O (fs_deriv f) t0 r (fun a b c => eq_refl))). apply map_ext. intros mu. unfold u_of. rewrite y_mu by exact X. reflexivity.
Qed.
End P.
