(** * LayProofs3: the profiles of confined layers *)
From Coq Require Import Reals List Bool ZArith Lra Lia.
From Verif Require Import Res LayModel LaySpec LayProofs LayProofs2.
Import ListNotations.
#[local] Open Scope R_scope.

Lemma sq_eq a c k : 0 < k -> 0 <= a -> 0 <= c -> a ^ 2 * k = c ^ 2 * k -> a = c.
Proof. intros K A C E. apply Rsqr_inj; [exact A|exact C|]. unfold Rsqr. assert (a ^ 2 = c ^ 2) by (apply (Rmult_eq_reg_r k); lra). nra. Qed.
Lemma confined_position b x h l : physical b -> 0 < x -> laminar b x -> 0 < h -> get_BL_properties b [x] false P99 = Ok [l] -> delta l <= h ->
  let d := delta l * (1 - 0.26547 * delta l / h) in
  let x' := (4.91 / 4.92) ^ 2 * (1 - 0.26547 * delta l / h) ^ 2 * x in
  get_x_from_delta b d false = x' /\ 0 < x' <= x /\ exists l', get_BL_properties b [x'] false P99 = Ok [l'] /\ delta l' = 4.91 / 4.92 * d.
Proof.
  intros PH X L H E DH d x'. cbn [get_BL_properties mapM] in E. rewrite (at_lam b P99 4.91 x ltac:(lra) L) in E. injection E as <-.
  destruct (law_lam b PH 4.91 x ltac:(lra) X) as (D0 & D1 & _). set (D := delta (lam_layer b 4.91 x)) in *. clearbody D.
  destruct PH as [HU Hn]. destruct (confined_bounds D h H (conj D0 DH)) as [B1 B2]. fold d in B1, B2.
  assert (C : 0.7 <= 1 - 0.26547 * D / h <= 1).
  { assert (0 <= D / h <= 1). { split; [apply Rmult_le_pos; [exact D0|left; now apply Rinv_0_lt_compat]|]. apply (Rmult_le_reg_r h); [exact H|]. unfold Rdiv. rewrite Rmult_assoc, Rinv_l by lra. lra. }
    replace (0.26547 * D / h) with (0.26547 * (D / h)) by (field; lra). lra. }
  set (c := 1 - 0.26547 * D / h) in *. clearbody c.
  assert (X1 : 0 < x' <= x).
  { unfold x'. assert (0 < c ^ 2 <= 1) by nra. assert (Q : 0 < (4.91 / 4.92) ^ 2 <= 1) by lra. set (q := (4.91 / 4.92) ^ 2) in *. clearbody q. assert (0 < q * c ^ 2 <= 1) by nra. nra. }
  assert (XP : d ^ 2 * Uinf b / (4.92 ^ 2 * nu b) = x').
  { unfold d, x'. replace ((D * c) ^ 2 * Uinf b) with (c ^ 2 * (D ^ 2 * Uinf b)) by ring. rewrite D1. field. lra. }
  assert (L' : Uinf b * x' / nu b < 500000).
  { unfold laminar in L. assert (Uinf b * x' / nu b <= Uinf b * x / nu b); [|lra]. unfold Rdiv. apply Rmult_le_compat_r; [left; now apply Rinv_0_lt_compat|]. nra. }
  split; [|split; [exact X1|]].
  - unfold get_x_from_delta. rewrite XP. unfold get_Rex. rewrite (ltb_f 500000 (Uinf b * x' / nu b)) by lra. reflexivity.
  - exists (lam_layer b 4.91 x'). split.
    + cbn [get_BL_properties mapM]. rewrite (at_lam b P99 4.91 x' ltac:(lra) L'). reflexivity.
    + destruct (law_lam b (conj HU Hn) 4.91 x' ltac:(lra) ltac:(lra)) as (E0 & E1 & _). apply (sq_eq _ _ (Uinf b)); [exact HU|exact E0| |].
      * assert (0 <= d) by nra. lra.
      * rewrite E1. rewrite <- XP. field. lra.
Qed.
Lemma confined_run odeint b x h l y : get_BL_properties b [x] false P99 = Ok [l] ->
  profile_with_confinement odeint b x h y false = get_profile odeint b (get_x_from_delta b (delta l * (1 - 0.26547 * delta l / h)) false) y false.
Proof. intro E. unfold profile_with_confinement. rewrite (confined b [x] h false [l] E). reflexivity. Qed.
Lemma confined_turb odeint b x h y : 0 < x -> profile_with_confinement odeint b x h y true = Err AttrErr.
Proof.
  intro X. unfold profile_with_confinement, with_confinement. cbn [get_BL_properties mapM]. rewrite (at_turb b true 4.91 x ltac:(lra) (or_introl eq_refl)). reflexivity.
Qed.
