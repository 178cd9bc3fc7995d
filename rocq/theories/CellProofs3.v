(** * CellProofs3: the solutions of get_sol and the zero of the interpolated velocity. *)
From Coq Require Import Reals Lra Psatz List ZArith Lia Bool.
From Verif Require Import Res PbiModel PbiSpec PbiProofs PbiProofs2 CellModel CellSpec CellProofs CellProofs2.
Import ListNotations.
#[local] Open Scope R_scope.

Section Algebra.
Variables p q s r : R * R.
Notation V := (bilinear p q s r).
Definition GX : R * R := minus q p.
Definition GY : R * R := minus s p.
Definition GXY : R * R := minus (minus r s) GX.
Definition LA : R := ls_a (fst p) (fst q) (fst s) (fst r) (snd p) (snd q) (snd s) (snd r).
Definition LN : R := ls_num (fst p) (fst q) (fst s) (fst r) (snd p) (snd q) (snd s) (snd r).
Definition LD : R := ls_disc (fst p) (fst q) (fst s) (fst r) (snd p) (snd q) (snd s) (snd r).
Definition LE : R := ls_e (fst p) (fst q) (fst s) (fst r) (snd p) (snd q) (snd s) (snd r).
Definition LC : R := ls_c (fst p) (fst q) (fst s) (fst r) (snd p) (snd q) (snd s) (snd r) 1.
Definition LK : R := cross p q.
Lemma la_cross : LA = cross GY GXY.
Proof. unfold LA, ls_a, cross, GXY, GY, GX, minus. cbn [fst snd]. ring. Qed.
Lemma le_cross : LE = cross GX GXY.
Proof. unfold LE, ls_e, cross, GXY, GX, minus. cbn [fst snd]. ring. Qed.
Lemma quad_cross v : cross (V 0 v) (V 1 v) = LA * v * v - LN * v + LK.
Proof. unfold LA, LN, LK, ls_a, ls_num, cross, bilinear. cbn [fst snd]. ring. Qed.
Lemma disc_eq : LD = LN * LN - 4 * LA * LK.
Proof. unfold LD, LN, LA, LK, ls_disc, ls_num, ls_a, cross. ring. Qed.
Lemma line_cross u v : cross (V u v) GXY = LE * u + LC + LA * v.
Proof. unfold LE, LC, LA, ls_e, ls_c, ls_a, cross, GXY, GX, minus, bilinear. cbn [fst snd]. ring. Qed.
(** ** zeros and the two equations *)
Lemma zero_eqs u v : V u v = (0, 0) -> LA * v * v - LN * v + LK = 0 /\ LE * u + LC + LA * v = 0.
Proof.
  intro Z. split.
  - rewrite <- quad_cross. unfold bilinear in Z. injection Z as Z1 Z2. unfold cross, bilinear. cbn [fst snd].
    set (a := (1 - 0) * (1 - v) * fst p + 0 * (1 - v) * fst q + (1 - 0) * v * fst s + 0 * v * fst r).
    set (b := (1 - 0) * (1 - v) * snd p + 0 * (1 - v) * snd q + (1 - 0) * v * snd s + 0 * v * snd r).
    set (c := (1 - 1) * (1 - v) * fst p + 1 * (1 - v) * fst q + (1 - 1) * v * fst s + 1 * v * fst r).
    set (d := (1 - 1) * (1 - v) * snd p + 1 * (1 - v) * snd q + (1 - 1) * v * snd s + 1 * v * snd r).
    assert (X : (1 - u) * a + u * c = 0) by (rewrite <- Z1; unfold a, c; ring). assert (Y : (1 - u) * b + u * d = 0) by (rewrite <- Z2; unfold b, d; ring).
    assert (K1 : u * (a * d - b * c) = 0) by (transitivity (a * ((1 - u) * b + u * d) - b * ((1 - u) * a + u * c)); [ring|rewrite X, Y; ring]).
    assert (K2 : (1 - u) * (a * d - b * c) = 0) by (transitivity (d * ((1 - u) * a + u * c) - c * ((1 - u) * b + u * d)); [ring|rewrite X, Y; ring]). lra.
  - rewrite <- line_cross, Z. unfold cross. cbn [fst snd]. ring.
Qed.
Lemma eqs_zero u v : LE <> 0 -> LA * v * v - LN * v + LK = 0 -> LE * u + LC + LA * v = 0 -> V u v = (0, 0).
Proof.
  intros E Q L. rewrite <- quad_cross in Q. rewrite <- line_cross in L. rewrite le_cross in E.
  assert (KG : cross (V u v) (minus (V 1 v) (V 0 v)) = cross (V 0 v) (V 1 v)) by (unfold cross, minus, bilinear; cbn [fst snd]; ring).
  rewrite Q in KG.
  assert (EG : cross (minus (V 1 v) (V 0 v)) GXY = cross GX GXY) by (unfold cross, minus, bilinear, GXY, GX, minus; cbn [fst snd]; ring).
  set (w := V u v) in *. set (g := minus (V 1 v) (V 0 v)) in *. set (h := GXY) in *. rewrite <- EG in E. clearbody w g h. unfold cross in *. destruct w as [w1 w2]. cbn [fst snd] in *.
  f_equal; apply (Rmult_eq_reg_l (fst g * snd h - snd g * fst h)); try exact E.
  - transitivity (fst g * (w1 * snd h - w2 * fst h) - fst h * (w1 * snd g - w2 * fst g)); [ring|rewrite KG, L; ring].
  - transitivity (snd g * (w1 * snd h - w2 * fst h) - snd h * (w1 * snd g - w2 * fst g)); [ring|rewrite KG, L; ring].
Qed.
(** a double root, with no equation for u: the velocity is null along a line *)
Lemma double_line u v : LE = 0 -> LA <> 0 -> LD = 0 -> V u v = (0, 0) -> V 0 v = (0, 0).
Proof.
  intros E A D Z. destruct (zero_eqs u v Z) as [Q _].
  assert (R2 : (2 * LA * v - LN) * (2 * LA * v - LN) = 0).
  { transitivity (4 * LA * (LA * v * v - LN * v + LK) + (LN * LN - 4 * LA * LK)); [ring|]. rewrite Q, <- disc_eq, D. ring. }
  assert (R1 : 2 * LA * v - LN = 0) by nra. clear R2.
  set (G := minus (V 1 v) (V 0 v)).
  assert (EG : cross G GXY = 0) by (rewrite <- E, le_cross; unfold cross, G, minus, bilinear, GXY, GX, minus; cbn [fst snd]; ring).
  set (H := minus (V u 1) (V u 0)).
  assert (AH : cross H GXY = LA) by (rewrite la_cross; unfold cross, H, minus, bilinear, GXY, GX, GY, minus; cbn [fst snd]; ring).
  assert (GH : cross G H = 0).
  { assert (W : cross G H = - (2 * LA * v - LN) + cross (V u v) GXY) by (unfold LA, LN, ls_a, ls_num, cross, G, H, minus, bilinear, GXY, GX, minus; cbn [fst snd]; ring).
    rewrite W, R1, Z. unfold cross. cbn [fst snd]. ring. }
  assert (V0 : V 0 v = minus (V u v) (u * fst G, u * snd G)) by (unfold G, minus, bilinear; cbn [fst snd]; f_equal; ring).
  assert (G0 : fst G = 0 /\ snd G = 0).
  { rewrite <- AH in A. set (h := GXY) in *. clearbody G H h. unfold cross in *.
    split; apply (Rmult_eq_reg_l (fst H * snd h - snd H * fst h)); try exact A.
    - transitivity (fst H * (fst G * snd h - snd G * fst h) - fst h * (fst G * snd H - snd G * fst H)); [ring|rewrite EG, GH; ring].
    - transitivity (snd H * (fst G * snd h - snd G * fst h) - snd h * (fst G * snd H - snd G * fst H)); [ring|rewrite EG, GH; ring]. }
  rewrite V0, Z, (proj1 G0), (proj2 G0). unfold minus. cbn [fst snd]. f_equal; ring.
Qed.
(** ** the values computed *)
Variables dx dy : R.
Hypothesis DX : 0 < dx.
Hypothesis DY : 0 < dy.
Notation SY b := (sol_y (fst p) (fst q) (fst s) (fst r) (snd p) (snd q) (snd s) (snd r) dy b).
Notation SX b := (sol_x (fst p) (fst q) (fst s) (fst r) (snd p) (snd q) (snd s) (snd r) dx dy b).
Definition root (b : bool) : R := (if b then LN + sqrt LD else LN - sqrt LD) / (2 * LA).
Lemma two_la : ls_2a (fst p) (fst q) (fst s) (fst r) (snd p) (snd q) (snd s) (snd r) = 2 * LA.
Proof. unfold LA, ls_2a, ls_a. ring. Qed.
Lemma c_dy : ls_c (fst p) (fst q) (fst s) (fst r) (snd p) (snd q) (snd s) (snd r) dy = dy * LC.
Proof. unfold LC, ls_c. ring. Qed.
Lemma sqrt_dy : 0 <= LD -> sqrt (dy ^ 2 * LD) = dy * sqrt LD.
Proof. intro D. rewrite sqrt_mult; [|nra|exact D]. rewrite sqrt_pow2 by lra. reflexivity. Qed.
Lemma sol_y_val b : LA <> 0 -> 0 <= LD -> SY b = Fin (dy * root b).
Proof.
  intros A D. unfold sol_y. rewrite two_la. fold LA LN LD. unfold eroot. destruct (Rlt_dec (dy ^ 2 * LD) 0) as [X|X]; [exfalso; assert (0 <= dy ^ 2) by nra; nra|].
  unfold edivR. destruct (Req_EM_T (2 * LA) 0); [lra|]. rewrite sqrt_dy by exact D. unfold root.
  destruct b; cbn [eadd esub eopp]; unfold esub; cbn [eadd eopp]; f_equal; field; lra.
Qed.
Lemma sol_x_val b v : SY b = Fin (dy * v) -> LE <> 0 -> SX b = Fin (dx * (- (LC + LA * v) / LE)).
Proof.
  intros Y E. unfold sol_x. rewrite Y, c_dy. fold LA LE. cbn [emulR eadd ediv]. unfold edivR.
  destruct (Req_EM_T (dy * LE) 0) as [X|X]; [exfalso; apply Rmult_integral in X; destruct X; lra|]. f_equal. field. split; lra.
Qed.
Lemma sol_x_div0 b v : SY b = Fin (dy * v) -> LE = 0 ->
  (LC + LA * v = 0 -> SX b = Nan) /\ (LC + LA * v <> 0 -> SX b = PInf \/ SX b = MInf).
Proof.
  intros Y E. unfold sol_x. rewrite Y, c_dy. fold LA LE. cbn [emulR eadd ediv]. unfold edivR. rewrite E.
  destruct (Req_EM_T (dy * 0) 0) as [X|X]; [|exfalso; apply X; ring].
  replace (- dx * (dy * LC + LA * (dy * v))) with (- (dx * dy) * (LC + LA * v)) by ring.
  assert (P : 0 < dx * dy) by (apply Rmult_lt_0_compat; assumption). split.
  - intros ->. rewrite Rmult_0_r. destruct (Rlt_dec 0 0); [lra|reflexivity].
  - intro N. destruct (Rlt_dec 0 (- (dx * dy) * (LC + LA * v))) as [X1|X1]; [left; reflexivity|]. destruct (Rlt_dec (- (dx * dy) * (LC + LA * v)) 0) as [X2|X2]; [right; reflexivity|].
    exfalso. assert (Z : - (dx * dy) * (LC + LA * v) = 0) by lra. apply Rmult_integral in Z. destruct Z; lra.
Qed.
(** the two solutions when the equation for v is of degree 1 *)
Lemma sol_flat : LA = 0 -> LN <> 0 -> exists b, SY b = Nan /\ SX b = Nan /\ SX (negb b) = Nan /\ (SY (negb b) = PInf \/ SY (negb b) = MInf).
Proof.
  intros A N. assert (D : LD = LN * LN) by (rewrite disc_eq, A; ring).
  assert (SYE : forall b, SY b = (if b then eadd else esub) (edivR (dy * LN) 0) PInf).
  { intro b. unfold sol_y. rewrite two_la. fold LA LN LD. rewrite A, Rmult_0_r. unfold eroot.
    assert (0 < LN * LN) by nra. assert (P : 0 < dy ^ 2 * LD) by (rewrite D; apply Rmult_lt_0_compat; nra).
    destruct (Rlt_dec (dy ^ 2 * LD) 0); [lra|]. unfold edivR at 2. destruct (Req_EM_T 0 0); [|lra]. pose proof (sqrt_lt_R0 _ P). destruct (Rlt_dec 0 (sqrt (dy ^ 2 * LD))); [reflexivity|lra]. }
  assert (SXE : forall b, (SY b = Nan \/ SY b = PInf \/ SY b = MInf) -> SX b = Nan).
  { intros b H. unfold sol_x. fold LA. rewrite A. destruct H as [H|[H|H]]; rewrite H; cbn [emulR]; try (destruct (Rlt_dec 0 0); [lra|]; destruct (Rlt_dec 0 0); [lra|]); reflexivity. }
  destruct (Rlt_dec 0 LN) as [P|P].
  - assert (I : edivR (dy * LN) 0 = PInf) by (unfold edivR; destruct (Req_EM_T 0 0); [|lra]; destruct (Rlt_dec 0 (dy * LN)); [reflexivity|nra]).
    exists false. cbn [negb]. assert (Y0 : SY false = Nan) by (rewrite SYE, I; reflexivity). assert (Y1 : SY true = PInf) by (rewrite SYE, I; reflexivity). rewrite (SXE false), (SXE true) by auto. auto.
  - assert (I : edivR (dy * LN) 0 = MInf) by (unfold edivR; destruct (Req_EM_T 0 0); [|lra]; destruct (Rlt_dec 0 (dy * LN)); [nra|]; destruct (Rlt_dec (dy * LN) 0); [reflexivity|nra]).
    exists true. cbn [negb]. assert (Y0 : SY true = Nan) by (rewrite SYE, I; reflexivity). assert (Y1 : SY false = MInf) by (rewrite SYE, I; reflexivity). rewrite (SXE false), (SXE true) by auto. auto.
Qed.
Lemma roots v : LA <> 0 -> LA * v * v - LN * v + LK = 0 -> 0 <= LD /\ exists b, v = root b.
Proof.
  intros A Q. assert (E : LD = (2 * LA * v - LN) * (2 * LA * v - LN)).
  { rewrite disc_eq. transitivity (LN * LN - 4 * LA * LK + 4 * LA * (LA * v * v - LN * v + LK)); [rewrite Q; ring|ring]. }
  assert (D : 0 <= LD) by (rewrite E; apply Rle_0_sqr). split; [exact D|].
  assert (S : sqrt LD = Rabs (2 * LA * v - LN)) by (rewrite E; apply sqrt_Rsqr_abs).
  unfold root. rewrite S. unfold Rabs. destruct (Rcase_abs (2 * LA * v - LN)); [exists false|exists true]; field; lra.
Qed.
Lemma root_eq b : LA <> 0 -> 0 <= LD -> LA * root b * root b - LN * root b + LK = 0.
Proof.
  intros A D. pose proof (sqrt_sqrt LD D) as S. assert (K : LK = (LN * LN - sqrt LD * sqrt LD) / (4 * LA)) by (rewrite S, disc_eq; field; lra).
  rewrite K. unfold root. destruct b; field; lra.
Qed.
End Algebra.
