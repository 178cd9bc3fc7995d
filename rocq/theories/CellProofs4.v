(** * CellProofs4: the position of the critical point of a cell. *)
From Coq Require Import Reals Lra Psatz List ZArith Lia Bool.
From Verif Require Import Res PbiModel PbiSpec PbiProofs PbiProofs2 PbiProofs3 CellModel CellSpec CellProofs CellProofs2 CellProofs3.
Import ListNotations.
#[local] Open Scope R_scope.

Definition keep (dx dy : R) (p : er * er) : bool := negb (eltb (fst p) 0 || egtb (fst p) dx || eltb (snd p) 0 || egtb (snd p) dy).
Lemma keep_fin dx dy x y : keep dx dy (Fin x, Fin y) = true <-> 0 <= x <= dx /\ 0 <= y <= dy.
Proof.
  unfold keep. cbn [fst snd eltb egtb]. destruct (Rlt_dec x 0); destruct (Rlt_dec dx x); destruct (Rlt_dec y 0); destruct (Rlt_dec dy y); cbn; split; try discriminate; try (intros; lra); reflexivity.
Qed.
Section Pick.
Variables p q s r : R * R.
Variables dx dy x0 y0 u v : R.
Variable pos : R * R.
Hypothesis DX : 0 < dx.
Hypothesis DY : 0 < dy.
Hypothesis FC : four_clear p q r s.
Hypothesis LP : loop p q r s <> 0.
Hypothesis U : 0 <= u <= 1.
Hypothesis Y : 0 <= v <= 1.
Hypothesis Z : bilinear p q s r u v = (0, 0).
Notation SY b := (sol_y (fst p) (fst q) (fst s) (fst r) (snd p) (snd q) (snd s) (snd r) dy b).
Notation SX b := (sol_x (fst p) (fst q) (fst s) (fst r) (snd p) (snd q) (snd s) (snd r) dx dy b).
Notation PICK := (pick_sol x0 y0 pos (filter (keep dx dy) [(SX false, SY false); (SX true, SY true)])).
Lemma frac_in a d : 0 < d -> (0 <= d * a <= d <-> 0 <= a <= 1).
Proof. intro D. split; intro H; split; nra. Qed.
Lemma er_refl x : er_eqb (Fin x) (Fin x) = true.
Proof. cbn. destruct (Req_EM_T x x); [reflexivity|contradiction]. Qed.
Lemma pick_generic : LA p q s r <> 0 -> LE p q s r <> 0 -> PICK = Ok (Some (dx * u + x0, dy * v + y0)).
Proof.
  intros A E. destruct (zero_eqs p q s r u v Z) as [Q L]. destruct (roots p q s r v A Q) as [D [b B]].
  set (uu := fun b => - (LC p q s r + LA p q s r * root p q s r b) / LE p q s r).
  assert (S : forall b, (SX b, SY b) = (Fin (dx * uu b), Fin (dy * root p q s r b))).
  { intro b'. pose proof (sol_y_val p q s r dy DY b' A D) as Y'. rewrite (sol_x_val p q s r dx dy DY b' _ Y' E), Y'. reflexivity. }
  assert (UB : u = uu b) by (unfold uu; rewrite <- B; apply (Rmult_eq_reg_l (LE p q s r)); [|exact E]; transitivity (- (LC p q s r + LA p q s r * v)); [lra|field; exact E]).
  assert (K : keep dx dy (SX b, SY b) = true) by (rewrite S, keep_fin, <- UB, <- B; split; apply frac_in; assumption).
  assert (O : forall b', keep dx dy (SX b', SY b') = true -> uu b' = u /\ root p q s r b' = v).
  { intros b' K'. rewrite S, keep_fin, !frac_in in K' by assumption. destruct K' as [K1 K2]. destruct (one_zero p q r s FC LP) as [_ UN].
    apply UN; try assumption. apply eqs_zero; [exact E|apply root_eq; assumption|]. unfold uu. field. exact E. }
  cbn [filter]. destruct b.
  - rewrite K. destruct (keep dx dy (SX false, SY false)) eqn:K0.
    + destruct (O _ K0) as [O1 O2]. pose proof (O _ K) as [O3 O4]. rewrite !S, O1, O2, O3, O4. cbn [pick_sol filter fst snd is_nan orb negb]. rewrite !er_refl. reflexivity.
    + rewrite S, <- UB, <- B. reflexivity.
  - rewrite K. destruct (keep dx dy (SX true, SY true)) eqn:K0.
    + destruct (O _ K0) as [O1 O2]. pose proof (O _ K) as [O3 O4]. rewrite !S, O1, O2, O3, O4. cbn [pick_sol filter fst snd is_nan orb negb]. rewrite !er_refl. reflexivity.
    + rewrite S, <- UB, <- B. reflexivity.
Qed.
Lemma keep_nan_fin y : 0 <= y <= dy -> keep dx dy (Nan, Fin y) = true.
Proof. intro H. unfold keep. cbn [fst snd eltb egtb]. destruct (Rlt_dec y 0); [lra|]. destruct (Rlt_dec dy y); [lra|]. reflexivity. Qed.
Lemma pick_lost : LA p q s r = 0 \/ LE p q s r = 0 -> PICK = Ok None.
Proof.
  intro H. destruct (zero_eqs p q s r u v Z) as [Q L]. destruct (Req_dec (LA p q s r) 0) as [A|A].
  - assert (N : LN p q s r <> 0).
    { intro N. rewrite A, N in Q. assert (K0 : cross p q = 0) by (change (LK p q = 0); lra).
      assert (K1 : cross r s = 0). { pose proof (quad_cross p q s r 1) as QC. rewrite A, N in QC. change (LK p q) with (cross p q) in QC. rewrite K0 in QC. unfold cross, bilinear in *. cbn [fst snd] in QC. lra. }
      destruct FC as (C1 & C2 & C3 & C4). apply LP. apply loop_small. unfold loop.
      destruct (wt_sign _ _ C1) as (_ & _ & W1). destruct (wt_sign _ _ C3) as (_ & _ & W3). rewrite (W1 K0), (W3 K1).
      destruct (W_clear _ _ C2) as (W2 & _). destruct (W_clear _ _ C4) as (W4 & _). lra. }
    destruct (sol_flat p q s r dx dy DY A N) as (b & Y1 & X1 & X2 & Y2).
    assert (K1 : keep dx dy (Nan, Nan) = true) by reflexivity.
    assert (K2 : keep dx dy (Nan, SY (negb b)) = false) by (destruct Y2 as [-> | ->]; reflexivity).
    cbn [filter]. destruct b; cbn [negb] in *; rewrite ?X1, ?X2, ?Y1, K1, K2; reflexivity.
  - destruct H as [H|E]; [contradiction|]. destruct (roots p q s r v A Q) as [D [b B]].
    assert (NB : root p q s r (negb b) <> v).
    { intro EQ. assert (SD : sqrt (LD p q s r) = 0).
      { rewrite B in EQ. unfold root in EQ. destruct b; cbn [negb] in EQ.
        - assert (X : LN p q s r - sqrt (LD p q s r) = LN p q s r + sqrt (LD p q s r)); [|lra]. apply (Rmult_eq_reg_r (/ (2 * LA p q s r))); [exact EQ|]. apply Rinv_neq_0_compat. lra.
        - assert (X : LN p q s r + sqrt (LD p q s r) = LN p q s r - sqrt (LD p q s r)); [|lra]. apply (Rmult_eq_reg_r (/ (2 * LA p q s r))); [exact EQ|]. apply Rinv_neq_0_compat. lra. }
      assert (D0 : LD p q s r = 0) by (rewrite <- (sqrt_sqrt (LD p q s r) D), SD; ring).
      pose proof (double_line p q s r u v E A D0 Z) as Z0. destruct (zero_inner p q r s FC 0 v ltac:(lra) Y Z0). lra. }
    pose proof (sol_y_val p q s r dy DY b A D) as Y1. pose proof (sol_y_val p q s r dy DY (negb b) A D) as Y2.
    destruct (sol_x_div0 p q s r dx dy DX DY b _ Y1 E) as [X1 _]. destruct (sol_x_div0 p q s r dx dy DX DY (negb b) _ Y2 E) as [_ X2].
    rewrite <- B in X1, Y1. rewrite E in L. specialize (X1 ltac:(lra)).
    assert (X2' : SX (negb b) = PInf \/ SX (negb b) = MInf).
    { apply X2. intro EQ. apply NB. apply (Rmult_eq_reg_l (LA p q s r)); [lra|exact A]. }
    assert (K1 : keep dx dy (SX b, SY b) = true) by (rewrite X1, Y1; apply keep_nan_fin, frac_in; assumption).
    assert (K2 : keep dx dy (SX (negb b), SY (negb b)) = false) by (unfold keep; cbn [fst snd]; destruct X2' as [-> | ->]; cbn [eltb egtb orb negb]; reflexivity).
    cbn [filter]. destruct b; cbn [negb] in *; rewrite K1, K2; cbn [pick_sol at_sol]; rewrite X1; reflexivity.
Qed.
End Pick.

(** ** the cell of a centre *)
Lemma first_above_is x ax j : forall m k, (forall l, (k <= l <= j)%nat -> ~ x < ax l) -> x < ax (S j) -> (k <= S j)%nat -> (S j < k + m)%nat -> first_above x ax k m = Some (S j).
Proof.
  induction m as [|m IH]; intros k A B C D; [lia|]. cbn [first_above]. destruct (Rlt_dec x (ax k)) as [L|L].
  - destruct (Nat.eq_dec k (S j)) as [-> |N]; [reflexivity|]. exfalso. apply (A k); [lia|exact L].
  - destruct (Nat.eq_dec k (S j)) as [-> |N]; [contradiction|]. apply IH; [intros l Hl; apply A; lia|exact B|lia|lia].
Qed.
Lemma even_increasing n ax d : 0 < d -> even_axis n ax d -> increasing n ax.
Proof. intros D E i I. specialize (E i I). lra. Qed.
Lemma first_above_even n ax d j : 0 < d -> even_axis n ax d -> (S j < n)%nat -> first_above (ax j + d / 2) ax 0 n = Some (S j).
Proof.
  intros D E J. apply first_above_is; try lia.
  - intros l [_ L]. pose proof (mono_axis n ax (even_increasing n ax d D E) l j L ltac:(lia)). lra.
  - specialize (E j J). lra.
Qed.
Lemma inside_sols_eq f i j dx dy :
  inside_sols (cell_of f i j) dx dy = filter (keep dx dy)
    [(sol_x (fst (vel f (i, j))) (fst (vel f (i, S j))) (fst (vel f (S i, j))) (fst (vel f (S i, S j))) (snd (vel f (i, j))) (snd (vel f (i, S j))) (snd (vel f (S i, j))) (snd (vel f (S i, S j))) dx dy false,
      sol_y (fst (vel f (i, j))) (fst (vel f (i, S j))) (fst (vel f (S i, j))) (fst (vel f (S i, S j))) (snd (vel f (i, j))) (snd (vel f (i, S j))) (snd (vel f (S i, j))) (snd (vel f (S i, S j))) dy false);
     (sol_x (fst (vel f (i, j))) (fst (vel f (i, S j))) (fst (vel f (S i, j))) (fst (vel f (S i, S j))) (snd (vel f (i, j))) (snd (vel f (i, S j))) (snd (vel f (S i, j))) (snd (vel f (S i, S j))) dx dy true,
      sol_y (fst (vel f (i, j))) (fst (vel f (i, S j))) (fst (vel f (S i, j))) (fst (vel f (S i, S j))) (snd (vel f (i, j))) (snd (vel f (i, S j))) (snd (vel f (S i, j))) (snd (vel f (S i, S j))) dy true)].
Proof.
  unfold inside_sols, vel. cbn [fvx fvy cell_of fst snd]. rewrite !Nat.add_0_r, !Nat.add_1_r. reflexivity.
Qed.
Definition centre_of (f : vf) (i j : nat) : R * R := (fax f j + (fax f 1 - fax f 0) / 2, fay f i + (fay f 1 - fay f 0) / 2).
Lemma corners4 (P : nat -> nat -> Prop) : (forall a b, (a < 2)%nat -> (b < 2)%nat -> P a b) -> P 0%nat 0%nat /\ P 0%nat 1%nat /\ P 1%nat 0%nat /\ P 1%nat 1%nat.
Proof. intro H. repeat split; apply H; lia. Qed.
Lemma in_cell_plain f i j : even_axes f -> a_cell f i j -> (forall a b, (a < 2)%nat -> (b < 2)%nat -> fmask f (i + a) (j + b) = false) -> plain_corners f i j ->
  in_cell f (centre_of f i j) = pick_sol (fax f j) (fay f i) (centre_of f i j) (inside_sols (cell_of f i j) (fax f (S j) - fax f j) (fay f (S i) - fay f i)).
Proof.
  intros (dx & dy & DX & DY & EX & EY) [I J] M PC. unfold in_cell, centre_of. cbn [fst snd]. rewrite !(EX 0%nat), !(EY 0%nat) by lia.
  rewrite (first_above_even (cols f) (fax f) dx j DX EX J), (first_above_even (rows f) (fay f) dy i DY EY I). cbn [pred].
  unfold any_corner. rewrite !M by lia. cbn [orb].
  unfold null_sum, is_zero. cbn [filter fst snd fvx fvy cell_of].
  destruct (corners4 _ PC) as ((A1 & B1 & S1) & (A2 & B2 & S2) & (A3 & B3 & S3) & (A4 & B4 & S4)).
  repeat match goal with |- context [Req_EM_T ?a 0] => destruct (Req_EM_T a 0); [contradiction|] end. cbn [orb].
  rewrite (EX j J), (EY i I). reflexivity.
Qed.
Lemma bent_coef f i j : bent f i j <-> LE (vel f (i, j)) (vel f (i, S j)) (vel f (S i, j)) (vel f (S i, S j)) <> 0 /\ LA (vel f (i, j)) (vel f (i, S j)) (vel f (S i, j)) (vel f (S i, S j)) <> 0.
Proof. unfold bent. rewrite le_cross, la_cross. reflexivity. Qed.
(** a critical cell in general position: the zero of the interpolated velocity *)
Lemma in_cell_zero f i j u v : regular f -> even_axes f -> critical f i j -> plain_corners f i j -> bent f i j -> null_at f i j u v -> in_cell f (centre_of f i j) = Ok (Some (place f i j u v)).
Proof.
  intros R EA [AC CI] PC B (U & V & Z). destruct (cell_loop f i j R AC) as [C E].
  assert (L : loop (vel f (i, j)) (vel f (i, S j)) (vel f (S i, S j)) (vel f (S i, j)) <> 0) by (intro X; apply CI; rewrite E, X; unfold Rdiv; ring).
  rewrite in_cell_plain; [|exact EA|exact AC|intros a b A1 B1; apply R; destruct AC; lia|exact PC].
  destruct EA as (dx & dy & DX & DY & EX & EY). destruct AC as [I J]. rewrite inside_sols_eq, !(EX j J), !(EY i I).
  apply bent_coef in B. destruct B as [B1 B2].
  rewrite (pick_generic _ _ _ _ dx dy (fax f j) (fay f i) u v _ DX DY C L U V Z B2 B1). unfold place. rewrite (EX j J), (EY i I). do 3 f_equal; ring.
Qed.
Lemma in_cell_lost f i j : regular f -> even_axes f -> critical f i j -> plain_corners f i j -> ~ bent f i j -> in_cell f (centre_of f i j) = Ok None.
Proof.
  intros R EA CR PC B. destruct (critical_zero f i j R CR) as [(u & v & _ & _ & U & V & Z) _]. destruct CR as [AC CI]. destruct (cell_loop f i j R AC) as [C E].
  assert (L : loop (vel f (i, j)) (vel f (i, S j)) (vel f (S i, S j)) (vel f (S i, j)) <> 0) by (intro X; apply CI; rewrite E, X; unfold Rdiv; ring).
  rewrite in_cell_plain; [|exact EA|exact AC|intros a b A1 B1; apply R; destruct AC; lia|exact PC].
  destruct EA as (dx & dy & DX & DY & EX & EY). destruct AC as [I J]. rewrite inside_sols_eq, !(EX j J), !(EY i I).
  apply (pick_lost _ _ _ _ dx dy (fax f j) (fay f i) u v _ DX DY C L V Z).
  rewrite bent_coef in B. destruct (Req_dec (LA (vel f (i, j)) (vel f (i, S j)) (vel f (S i, j)) (vel f (S i, S j))) 0) as [X|X]; [left; exact X|].
  destruct (Req_dec (LE (vel f (i, j)) (vel f (i, S j)) (vel f (S i, j)) (vel f (S i, S j))) 0) as [X'|X']; [right; exact X'|]. tauto.
Qed.
