From Coq Require Import Reals List Bool ZArith Lia Lra.
From Verif Require Import Res FtleModel FtleSpec FtleProofs FtleProofs2 FtleProofs3.
Import ListNotations.
#[local] Open Scope R_scope.

(** ** numpy.arange *)
Lemma ceil_lt q k : (k < Z.to_nat (- Int_part (- q)))%nat <-> INR k < q.
Proof.
  pose proof (base_Int_part (- q)) as [A B]. set (F := Int_part (- q)) in *. rewrite INR_IZR_INZ. split.
  - intro H. assert (Z.of_nat k <= - F - 1)%Z as L by lia. apply IZR_le in L. rewrite minus_IZR, opp_IZR in L. lra.
  - intro H. assert (Z.of_nat k < - F)%Z as L by (apply lt_IZR; rewrite opp_IZR; lra). lia.
Qed.
Lemma arange_nth a b st k : (k < length (arange a b st))%nat -> nth k (arange a b st) 0 = a + INR k * st.
Proof.
  intro H. unfold arange in *. rewrite map_length, seq_length in H. rewrite (nth_indep _ 0 (a + INR 0 * st)) by (rewrite map_length, seq_length; exact H).
  rewrite (map_nth (fun k => a + INR k * st) _ 0%nat). rewrite seq_nth by exact H. reflexivity.
Qed.
Lemma arange_length a b st k : 0 < st -> (k < length (arange a b st))%nat <-> a + INR k * st < b.
Proof.
  intro S0. unfold arange. rewrite map_length, seq_length, ceil_lt. split; intro H.
  - apply (Rmult_lt_compat_r st) in H; [|exact S0]. replace ((b - a) / st * st) with (b - a) in H by (field; lra). lra.
  - apply (Rmult_lt_reg_r st); [exact S0|]. replace ((b - a) / st * st) with (b - a) by (field; lra). lra.
Qed.
Lemma arange_in a b st x : 0 < st -> In x (arange a b st) <-> exists k, x = a + INR k * st /\ x < b.
Proof.
  intro S0. split.
  - intro H. apply (In_nth _ _ 0) in H as (k & K & <-). exists k. pose proof K as K'. apply (arange_length a b st k S0) in K'. rewrite arange_nth by exact K. auto.
  - intros (k & -> & L). apply (arange_length a b st k S0) in L. rewrite <- (arange_nth a b st k L). apply nth_In. exact L.
Qed.
Lemma spacing_pos z rx ry : regular z rx ry -> 0 < fst (spacing z rx ry) /\ 0 < snd (spacing z rx ry).
Proof. intros (A & B & C & D). unfold spacing. cbn. split; apply Rdiv_lt_0_compat; lra. Qed.
Lemma delta_pos d : 0 < fst d -> 0 < delta d.
Proof. intro H. unfold delta. apply Rdiv_lt_0_compat; [|lra]. apply sqrt_lt_R0. pose proof (pow2_ge_0 (snd d)). nra. Qed.
Lemma points_nth z rx ry i j : let (xs, ys) := points z rx ry in (i < length xs)%nat -> (j < length ys)%nat -> (nth i xs 0, nth j ys 0) = grid_point z (delta (spacing z rx ry)) i j.
Proof. unfold points. intros I J. rewrite !arange_nth by assumption. reflexivity. Qed.
Lemma points_inside z rx ry x y : regular z rx ry -> In x (fst (points z rx ry)) -> In y (snd (points z rx ry)) -> x0 z < x < x1 z /\ y0 z < y < y1 z.
Proof.
  intros Rg X Y. destruct (spacing_pos z rx ry Rg) as [D _]. apply delta_pos in D. unfold points in X, Y. cbn [fst snd] in X, Y.
  apply arange_in in X as (i & -> & Li); [|exact D]. apply arange_in in Y as (j & -> & Lj); [|exact D]. pose proof (pos_INR i). pose proof (pos_INR j). split; split; try assumption; nra.
Qed.

(** ** The greatest stretching *)
Lemma vnorm_sq v : vnorm v ^ 2 = fst v ^ 2 + snd v ^ 2.
Proof. unfold vnorm. rewrite <- Rsqr_pow2. apply Rsqr_sqrt. pose proof (pow2_ge_0 (fst v)). pose proof (pow2_ge_0 (snd v)). lra. Qed.
Section Top.
Variables a b : vec.
Let A := fst a ^ 2 + snd a ^ 2.
Let B := fst b ^ 2 + snd b ^ 2.
Let C := fst a * fst b + snd a * snd b.
Lemma top_form : top_eigenvalue a b = (A + B + sqrt ((A - B) ^ 2 + 4 * C ^ 2)) / 2.
Proof. unfold top_eigenvalue, A, B, C. do 2 f_equal; [ring|]. f_equal. ring. Qed.
Lemma top_facts : let s := top_eigenvalue a b in A <= s /\ B <= s /\ (s - A) * (s - B) = C ^ 2 /\ (A + B) / 2 <= s.
Proof.
  cbv zeta. rewrite top_form. set (q := sqrt ((A - B) ^ 2 + 4 * C ^ 2)).
  assert (P : 0 <= (A - B) ^ 2 + 4 * C ^ 2) by (pose proof (pow2_ge_0 (A - B)); pose proof (pow2_ge_0 C); lra).
  assert (Q : q ^ 2 = (A - B) ^ 2 + 4 * C ^ 2) by (unfold q; rewrite <- Rsqr_pow2; apply Rsqr_sqrt; exact P).
  assert (q0 : 0 <= q) by apply sqrt_pos. assert (Rabs (A - B) <= q).
  { rewrite <- sqrt_Rsqr_abs. apply sqrt_le_1_alt. rewrite Rsqr_pow2. pose proof (pow2_ge_0 C). lra. }
  pose proof (Rle_abs (A - B)). pose proof (Rle_abs (- (A - B))) as N. rewrite Rabs_Ropp in N.
  split; [lra|]. split; [lra|]. split; [nra|lra].
Qed.
Lemma stretch_form u : vnorm (vadd (vscale (fst u) a) (vscale (snd u) b)) ^ 2 = A * fst u ^ 2 + 2 * C * (fst u * snd u) + B * snd u ^ 2.
Proof. rewrite vnorm_sq. unfold vadd, vscale, A, B, C. cbn [fst snd]. ring. Qed.
Lemma unit_vector x y : x <> 0 \/ y <> 0 -> exists k, k ^ 2 * (x ^ 2 + y ^ 2) = 1.
Proof.
  intro H. assert (P : 0 < x ^ 2 + y ^ 2) by (pose proof (pow2_ge_0 x); pose proof (pow2_ge_0 y); destruct H; [assert (0 < x ^ 2) by nra|assert (0 < y ^ 2) by nra]; lra).
  exists (/ sqrt (x ^ 2 + y ^ 2)). rewrite pow_inv. assert (sqrt (x ^ 2 + y ^ 2) ^ 2 = x ^ 2 + y ^ 2) as -> by (rewrite <- Rsqr_pow2; apply Rsqr_sqrt; lra). field. lra.
Qed.
Lemma top_greatest : greatest_stretch2 a b (top_eigenvalue a b).
Proof.
  destruct top_facts as (H1 & H2 & H3 & _). set (s := top_eigenvalue a b) in *. split.
  - intros u U. rewrite stretch_form. destruct u as [x y]. cbn [fst snd] in *.
    assert (P : 0 <= (s - A) * x ^ 2 - 2 * C * (x * y) + (s - B) * y ^ 2).
    { destruct (Req_dec (s - A) 0) as [Z|N].
      - rewrite Z in *. assert (C = 0) as -> by nra. pose proof (pow2_ge_0 y). nra.
      - assert (0 < s - A) by lra. apply (Rmult_le_reg_l (s - A)); [assumption|]. rewrite Rmult_0_r.
        replace ((s - A) * ((s - A) * x ^ 2 - 2 * C * (x * y) + (s - B) * y ^ 2)) with (((s - A) * x - C * y) ^ 2 + ((s - A) * (s - B) - C ^ 2) * y ^ 2) by ring.
        rewrite H3. pose proof (pow2_ge_0 ((s - A) * x - C * y)). lra. }
    replace s with (s * (x ^ 2 + y ^ 2)) by (rewrite U; ring). lra.
  - assert (W : exists x y, (x <> 0 \/ y <> 0) /\ (s - A) * x = C * y /\ (s - B) * y = C * x).
    { destruct (Req_dec C 0) as [Z|N].
      - rewrite Z in *. assert (K : s - A = 0 \/ s - B = 0) by (apply Rmult_integral; nra). destruct K as [K|K].
        + exists 1, 0. split; [left; lra|]. split; nra.
        + exists 0, 1. split; [right; lra|]. split; nra.
      - exists C, (s - A). split; [left; exact N|]. split; [ring|]. rewrite Rmult_comm, H3. ring. }
    destruct W as (x & y & N & E1 & E2). destruct (unit_vector x y N) as [k K]. exists (k * x, k * y). rewrite stretch_form. cbn [fst snd]. split; [rewrite <- K; ring|].
    replace (A * (k * x) ^ 2 + 2 * C * (k * x * (k * y)) + B * (k * y) ^ 2) with (k ^ 2 * (x * (A * x + C * y) + y * (C * x + B * y))) by ring.
    replace (A * x + C * y) with (s * x) by lra. replace (C * x + B * y) with (s * y) by lra. replace (k ^ 2 * (x * (s * x) + y * (s * y))) with (s * (k ^ 2 * (x ^ 2 + y ^ 2))) by ring. rewrite K. ring.
Qed.
Lemma top_pos : a <> (0, 0) \/ b <> (0, 0) -> 0 < top_eigenvalue a b.
Proof.
  intro H. destruct top_facts as (_ & _ & _ & L). apply (Rlt_le_trans _ ((A + B) / 2)); [|exact L]. unfold A, B.
  pose proof (pow2_ge_0 (fst a)). pose proof (pow2_ge_0 (snd a)). pose proof (pow2_ge_0 (fst b)). pose proof (pow2_ge_0 (snd b)).
  destruct (Req_dec (fst a ^ 2 + snd a ^ 2 + fst b ^ 2 + snd b ^ 2) 0) as [Z|Z]; [|lra]. exfalso.
  assert (fst a ^ 2 = 0) by lra. assert (snd a ^ 2 = 0) by lra. assert (fst b ^ 2 = 0) by lra. assert (snd b ^ 2 = 0) by lra.
  destruct H as [H|H]; apply H; apply vec_ext; cbn; nra.
Qed.
End Top.
Lemma top_scale s a b : 0 <= s -> top_eigenvalue (vscale s a) (vscale s b) = s ^ 2 * top_eigenvalue a b.
Proof.
  intro S0. unfold top_eigenvalue, vscale. cbn [fst snd].
  match goal with |- context [sqrt ?x] => replace (sqrt x) with (s ^ 2 * sqrt ((fst a ^ 2 + fst b ^ 2 - (snd a ^ 2 + snd b ^ 2)) ^ 2 + 4 * (fst a * snd a + fst b * snd b) ^ 2)) end; [field|].
  rewrite <- (sqrt_pow2 (s ^ 2)) at 1 by apply pow2_ge_0. rewrite <- sqrt_mult_alt by (apply pow2_ge_0). f_equal. ring.
Qed.
Lemma ln_sqrt x : 0 < x -> ln (sqrt x) = ln x / 2.
Proof. intro H. assert (E : ln (sqrt x * sqrt x) = ln (sqrt x) + ln (sqrt x)) by (apply ln_mult; apply sqrt_lt_R0; exact H). rewrite sqrt_sqrt in E by lra. lra. Qed.
