(** * PropReco: properties of reconstruct_from_gradients (field_treatment/field_treatment.py 165-366) *)
From Coq Require Import Reals List Bool Arith Lia Lra.
From Verif Require Import Res RecoModel RecoSpec RecoProofs RecoProofs2.
Import ListNotations.
#[local] Open Scope R_scope.

(** ** C250 *)
Theorem C250_exact solver axe_x axe_y gx gy w fact k a h a' h' : (2 <= length axe_x)%nat -> (2 <= length axe_y)%nat -> evenly a h axe_x -> evenly a' h' axe_y ->
  trapezoids (length axe_x) (length axe_y) h h' gx gy w ->
  exists u, reconstruct solver axe_x axe_y gx gy fact false k = Ok u /\
    forall i j, (i < length axe_x)%nat -> (j < length axe_y)%nat -> u i j = fact * (w i j - mean_of (length axe_x) (length axe_y) w).
Proof. exact (reconstruct_exact solver axe_x axe_y gx gy w fact k a h a' h'). Qed.
Print Assumptions C250_exact.
Theorem C250_polynomials solver axe_x axe_y p fact k a h a' h' : (2 <= length axe_x)%nat -> (2 <= length axe_y)%nat -> evenly a h axe_x -> evenly a' h' axe_y ->
  exists u, reconstruct solver axe_x axe_y (sampled (eval_dx p) axe_x axe_y) (sampled (eval_dy p) axe_x axe_y) fact false k = Ok u /\
    forall i j, (i < length axe_x)%nat -> (j < length axe_y)%nat -> u i j = fact * (eval p (nth i axe_x 0) (nth j axe_y 0) - mean_of (length axe_x) (length axe_y) (sampled (eval p) axe_x axe_y)).
Proof. intros N M X Y. exact (reconstruct_exact solver axe_x axe_y _ _ (sampled (eval p) axe_x axe_y) fact k a h a' h' N M X Y (poly_trapezoids p axe_x axe_y a h a' h' X Y)). Qed.
Print Assumptions C250_polynomials.
Example C250_example : evenly 1 2 [1; 3; 5] /\ evenly 0 (1 / 2) [0; 1 / 2; 1; 3 / 2] /\ eval_dx (mkpoly 0 1 2 3 4 5) 1 2 = 15.
Proof.
  split; [|split].
  - intros k K. destruct k as [|[|[|k]]]; cbn in *; try lra; lia.
  - intros k K. destruct k as [|[|[|[|k]]]]; cbn in *; try lra; lia.
  - unfold eval_dx. cbn. ring.
Qed.

(** ** C251 *)
Theorem C251_mean solver axe_x axe_y x y fact ols k u : reconstruct solver axe_x axe_y x y fact ols k = Ok u -> mean_of (length axe_x) (length axe_y) u = 0.
Proof. exact (reconstruct_mean solver axe_x axe_y x y fact ols k u). Qed.
Print Assumptions C251_mean.
Theorem C251_linear solver axe_x axe_y p q x1 x2 y1 y2 fact k u1 u2 :
  reconstruct solver axe_x axe_y x1 y1 fact false k = Ok u1 -> reconstruct solver axe_x axe_y x2 y2 fact false k = Ok u2 ->
  exists u, reconstruct solver axe_x axe_y (fun i j => p * x1 i j + q * x2 i j) (fun i j => p * y1 i j + q * y2 i j) fact false k = Ok u /\ forall i j, u i j = p * u1 i j + q * u2 i j.
Proof. exact (reconstruct_linear solver axe_x axe_y p q x1 x2 y1 y2 fact k u1 u2). Qed.
Print Assumptions C251_linear.
Theorem C251_defined solver axe_x axe_y x y fact ols k : (exists u, reconstruct solver axe_x axe_y x y fact ols k = Ok u) <-> (2 <= length axe_x)%nat /\ (2 <= length axe_y)%nat.
Proof.
  unfold reconstruct. split.
  - intros (u & E). destruct axe_x as [|a [|b lx]]; try discriminate E. destruct axe_y as [|c [|d ly]]; try discriminate E. cbn. lia.
  - intros [N M]. destruct axe_x as [|a [|b lx]]; try (cbn in N; lia). destruct axe_y as [|c [|d ly]]; try (cbn in M; lia). eauto.
Qed.
Print Assumptions C251_defined.
Example C251_example : exists u, reconstruct (fun _ u => u) [0; 1; 2] [0; 1] (fun _ _ => 1) (fun i j => INR j) 1 false 10 = Ok u.
Proof. eexists. reflexivity. Qed.

(** ** C252 *)
(** a solver that does something on each iteration allowed: it adds one to the first value *)
Definition counting (k : nat) (u : grid) : grid := put u 0 0 (u 0%nat 0%nat + INR k).
Theorem C252_maxiter_refuted solver axe_x axe_y x1 y1 x2 y2 fact k k' : reconstruct_vector solver axe_x axe_y x1 y1 x2 y2 fact true k = reconstruct_vector solver axe_x axe_y x1 y1 x2 y2 fact true k'.
Proof. reflexivity. Qed.
Print Assumptions C252_maxiter_refuted.
Theorem C252_scalar_partial : exists axe_x axe_y x y u u', reconstruct counting axe_x axe_y x y 1 true 10 = Ok u /\ reconstruct counting axe_x axe_y x y 1 true 20 = Ok u' /\ u 0%nat 0%nat <> u' 0%nat 0%nat.
Proof.
  exists [0; 1], [0; 1], zeros, zeros. eexists. eexists. split; [reflexivity|]. split; [reflexivity|].
  unfold relative, shift, mean. cbn [cells length seq flat_map map app fst snd sum]. set (u := merged _ _ _ _ _ _). unfold counting, put. cbn [Nat.eqb andb].
  rewrite !mult_INR. cbn [INR Nat.mul Nat.add]. rewrite !Rmult_1_r. intro H. lra.
Qed.
Print Assumptions C252_scalar_partial.
