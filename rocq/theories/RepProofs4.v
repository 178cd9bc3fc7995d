(** * RepProofs4: critical energies, and concrete cases. *)
From Coq Require Import Reals Lra Lia Permutation.
From Verif Require Import Num Res ListLib SortLib Arr FieldModel ScalarFieldModel VectorFieldModel ProfileModel FieldSpec SeqSpec PointsModel PointsSpec TemporalModel TemporalSpec
  FilesModel StoreModel StoreSpec PodModel RepModel RepSpec.
Import ListNotations.
Open Scope R_scope.

Lemma crit_gt1 a b n : 0 < a -> (0 < n)%nat -> 1 < crit_term a b n.
Proof.
  intros Ha Hn. unfold crit_term. rewrite <- exp_0. apply exp_increasing. apply Rdiv_lt_0_compat; [exact Ha|]. unfold Rpower. apply exp_pos.
Qed.
Lemma crit_dec a b n m : 0 < a -> 0 < b -> (0 < n)%nat -> (n < m)%nat -> crit_term a b m < crit_term a b n.
Proof.
  intros Ha Hb Hn Hm. unfold crit_term. apply exp_increasing. assert (N : 0 < INR n) by (apply lt_0_INR; lia). assert (M : INR n < INR m) by (now apply lt_INR).
  assert (P : Rpower (INR n) b < Rpower (INR m) b). { unfold Rpower. apply exp_increasing. apply Rmult_lt_compat_l; [exact Hb|]. now apply ln_increasing. }
  assert (P0 : 0 < Rpower (INR n) b) by (unfold Rpower; apply exp_pos).
  unfold Rdiv. apply Rmult_lt_compat_l; [exact Ha|]. apply Rinv_lt_contravar; [apply Rmult_lt_0_compat; lra|exact P].
Qed.
(** the term goes to 1: below any level above 1 from some number of points on *)
Lemma crit_lim a b eps : 0 < a -> 0 < b -> 0 < eps -> exists n0, forall n, (n0 <= n)%nat -> (0 < n)%nat -> crit_term a b n < 1 + eps.
Proof.
  intros Ha Hb He. pose (l := ln (1 + eps)). assert (L : 0 < l) by (unfold l; rewrite <- ln_1; apply ln_increasing; lra).
  pose (x := Rpower (a / l) (/ b)). assert (Hu : exists n0, x < INR n0).
  { exists (Z.to_nat (up x)). destruct (archimed x) as [H1 _]. assert (X0 : 0 < x) by (unfold x, Rpower; apply exp_pos). rewrite INR_IZR_INZ, Z2Nat.id; [exact H1|]. apply le_IZR. lra. }
  destruct Hu as (n0 & Hn0). exists n0. intros n Hn Hp. unfold crit_term.
  assert (N : 0 < INR n) by (apply lt_0_INR; lia).
  assert (X : x < INR n) by (apply le_INR in Hn; lra). assert (X0 : 0 < x) by (unfold x, Rpower; apply exp_pos).
  assert (Q : a / l < Rpower (INR n) b).
  { replace (a / l) with (Rpower x b). - unfold Rpower at 1 2. apply exp_increasing. apply Rmult_lt_compat_l; [exact Hb|]. now apply ln_increasing.
    - unfold x. rewrite Rpower_mult. replace (/ b * b) with 1 by (field; lra). apply Rpower_1. now apply Rdiv_lt_0_compat. }
  rewrite <- (exp_ln (1 + eps)) by lra. fold l. apply exp_increasing. assert (P0 : 0 < Rpower (INR n) b) by (unfold Rpower; apply exp_pos).
  apply (Rmult_lt_reg_r (Rpower (INR n) b)); [exact P0|]. unfold Rdiv at 1. rewrite Rmult_assoc, Rinv_l by lra. rewrite Rmult_1_r.
  apply (Rmult_lt_reg_r (/ l)); [now apply Rinv_0_lt_compat|]. unfold Rdiv in Q. replace (l * Rpower (INR n) b * / l) with (Rpower (INR n) b) by (field; lra). exact Q.
Qed.
Lemma crit_1d n : (0 < n)%nat -> critical_kappa n None = Ok (crit_term (dec_R 957253208 100000000) (dec_R 92940704 100000000) n - dec_R 98559246 100000000).
Proof. intro H. unfold critical_kappa, guard. destruct (Nat.eqb_spec n 0); [lia|reflexivity]. Qed.
Lemma crit_2d n m : (0 < n)%nat -> (0 < m)%nat -> critical_kappa n (Some m) =
  Ok (crit_term (dec_R 22885989 1000000) (dec_R 1552608 1000000) n + crit_term (dec_R 22885989 1000000) (dec_R 1552608 1000000) m - dec_R 1996703 1000000).
Proof. intros H1 H2. unfold critical_kappa, guard. destruct (Nat.eqb_spec n 0); [lia|]. destruct (Nat.eqb_spec m 0); [lia|reflexivity]. Qed.
Lemma kappa_1d n m k : (0 < n)%nat -> (n < m)%nat -> critical_kappa n None = Ok k -> exists k', critical_kappa m None = Ok k' /\ 0 < k' < k.
Proof.
  intros Hn Hm E. rewrite crit_1d in E by exact Hn. injection E as <-. rewrite crit_1d by lia. eexists. split; [reflexivity|].
  assert (A : 0 < dec_R 957253208 100000000) by (unfold dec_R; lra). assert (B : 0 < dec_R 92940704 100000000) by (unfold dec_R; lra).
  pose proof (crit_gt1 _ (dec_R 92940704 100000000) m A ltac:(lia)). pose proof (crit_dec _ _ n m A B Hn Hm). assert (dec_R 98559246 100000000 < 1) by (unfold dec_R; lra). lra.
Qed.
Lemma kappa_2d n m n' m' k : (0 < n <= n')%nat -> (0 < m <= m')%nat -> (n + m < n' + m')%nat -> critical_kappa n (Some m) = Ok k ->
  exists k', critical_kappa n' (Some m') = Ok k' /\ 0 < k' < k /\ critical_kappa m' (Some n') = Ok k'.
Proof.
  intros Hn Hm Hs E. rewrite crit_2d in E by lia. injection E as <-. rewrite !crit_2d by lia. eexists. split; [reflexivity|].
  set (a := dec_R 22885989 1000000). set (b := dec_R 1552608 1000000). assert (A : 0 < a) by (unfold a, dec_R; lra). assert (B : 0 < b) by (unfold b, dec_R; lra).
  assert (D : forall x y, (0 < x <= y)%nat -> crit_term a b y <= crit_term a b x /\ ((x < y)%nat -> crit_term a b y < crit_term a b x)).
  { intros x y [H1 H2]. destruct (Nat.eq_dec x y) as [->|N]; [split; [lra|lia]|]. pose proof (crit_dec a b x y A B H1 ltac:(lia)). split; [lra|auto]. }
  pose proof (crit_gt1 a b n' A ltac:(lia)). pose proof (crit_gt1 a b m' A ltac:(lia)). destruct (D n n' Hn) as [D1 D2]. destruct (D m m' Hm) as [D3 D4].
  assert (dec_R 1996703 1000000 < 2) by (unfold dec_R; lra). split.
  - split; [lra|]. destruct (Nat.lt_ge_cases n n') as [Q|Q]; [specialize (D2 Q); lra|]. assert (M : (m < m')%nat) by lia. specialize (D4 M). lra.
  - f_equal. ring.
Qed.
Lemma kappa_defined n m : (0 < n)%nat -> (0 < m)%nat -> (exists k, critical_kappa n None = Ok k /\ 0 < k) /\ exists k, critical_kappa n (Some m) = Ok k /\ 0 < k.
Proof.
  intros Hn Hm. rewrite crit_1d, crit_2d by assumption. split; eexists; (split; [reflexivity|]).
  - pose proof (crit_gt1 (dec_R 957253208 100000000) (dec_R 92940704 100000000) n ltac:(unfold dec_R; lra) Hn). assert (dec_R 98559246 100000000 < 1) by (unfold dec_R; lra). lra.
  - pose proof (crit_gt1 (dec_R 22885989 1000000) (dec_R 1552608 1000000) n ltac:(unfold dec_R; lra) Hn).
    pose proof (crit_gt1 (dec_R 22885989 1000000) (dec_R 1552608 1000000) m ltac:(unfold dec_R; lra) Hm). assert (dec_R 1996703 1000000 < 2) by (unfold dec_R; lra). lra.
Qed.
(** a floor: it stays above a level whatever the number of points, and comes as close to it as wished *)
Lemma kappa_floor eps : 0 < eps -> exists n0, (0 < n0)%nat /\ forall n, (n0 <= n)%nat ->
  exists k, critical_kappa n None = Ok k /\ 1 - dec_R 98559246 100000000 < k < 1 - dec_R 98559246 100000000 + eps.
Proof.
  intro He. assert (A : 0 < dec_R 957253208 100000000) by (unfold dec_R; lra). assert (B : 0 < dec_R 92940704 100000000) by (unfold dec_R; lra).
  destruct (crit_lim _ _ eps A B He) as (n0 & H). exists (Datatypes.S n0). split; [lia|]. intros n Hn. rewrite crit_1d by lia. eexists. split; [reflexivity|].
  specialize (H n ltac:(lia) ltac:(lia)). pose proof (crit_gt1 _ (dec_R 92940704 100000000) n A ltac:(lia)). lra.
Qed.
