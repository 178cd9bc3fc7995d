(** * PbiProofs: the index of Poincare-Bendixson. *)
From Coq Require Import Reals Lra List ZArith Lia.
From Verif Require Import PbiModel PbiSpec.
Import ListNotations.
#[local] Open Scope R_scope.

(** ** sums *)
Lemma sumn_ext : forall n f g, (forall k, (k < n)%nat -> f k = g k) -> sumn n f = sumn n g.
Proof. induction n as [|n IH]; intros f g H; [reflexivity|]. cbn. rewrite (IH f g) by (intros; apply H; lia). rewrite H by lia. reflexivity. Qed.
Lemma sumn_plus : forall n f g, sumn n (fun k => f k + g k) = sumn n f + sumn n g.
Proof. induction n as [|n IH]; intros; cbn; [ring|]. rewrite IH. ring. Qed.
Lemma sumn_opp : forall n f, sumn n (fun k => - f k) = - sumn n f.
Proof. induction n as [|n IH]; intros; cbn; [ring|]. rewrite IH. ring. Qed.
Lemma sumn_0 : forall n f, (forall k, (k < n)%nat -> f k = 0) -> sumn n f = 0.
Proof. induction n as [|n IH]; intros f H; [reflexivity|]. cbn. rewrite IH, H by (try lia; intros; apply H; lia). ring. Qed.
Lemma sumn_scal : forall n c f, sumn n (fun k => c * f k) = c * sumn n f.
Proof. induction n as [|n IH]; intros; cbn; [ring|]. rewrite IH. ring. Qed.
Lemma sumn_tele : forall n (f : nat -> R), sumn n (fun k => f (S k) - f k) = f n - f 0%nat.
Proof. induction n as [|n IH]; intros f; cbn; [ring|]. rewrite IH. ring. Qed.
Lemma sumn_S0 : forall n f, sumn (S n) f = f 0%nat + sumn n (fun k => f (S k)).
Proof. induction n as [|n IH]; intros f; [cbn; ring|]. change (sumn (S (S n)) f) with (sumn (S n) f + f (S n)). rewrite IH. cbn. ring. Qed.
Lemma sumn_rev : forall n f, sumn n (fun k => f (n - 1 - k)%nat) = sumn n f.
Proof.
  induction n as [|n IH]; intros f; [reflexivity|]. rewrite sumn_S0. cbn [sumn].
  replace (S n - 1 - 0)%nat with n by lia. rewrite <- (IH f). rewrite Rplus_comm. f_equal.
  apply sumn_ext. intros k H. f_equal. lia.
Qed.
Lemma sumn_swap : forall m n (f : nat -> nat -> R), sumn m (fun i => sumn n (fun j => f i j)) = sumn n (fun j => sumn m (fun i => f i j)).
Proof.
  induction m as [|m IH]; intros n f; cbn; [symmetry; apply sumn_0; reflexivity|].
  rewrite IH, <- sumn_plus. reflexivity.
Qed.
Lemma rsum_app : forall a b, rsum (a ++ b) = rsum a + rsum b.
Proof. induction a as [|p a IH]; intros b; cbn; [ring|]. rewrite IH. ring. Qed.

(** ** the wrapped difference *)
Definition W (a b : R) : R := wrap (b - a).
Lemma wrap_spec : forall d, exists z : Z, wrap d = d + 2 * PI * IZR z.
Proof.
  intros d. unfold wrap. destruct (Rlt_dec PI d) as [H|H].
  - destruct (Rlt_dec (d - 2 * PI) (- PI)); [exists 0%Z|exists (-1)%Z]; lra.
  - destruct (Rlt_dec d (- PI)); [exists 1%Z|exists 0%Z]; lra.
Qed.
Lemma wrap_opp : forall d, wrap (- d) = - wrap d.
Proof.
  intros d. pose proof PI_RGT_0 as P. unfold wrap.
  destruct (Rlt_dec PI d); destruct (Rlt_dec PI (- d)); try lra;
  repeat match goal with |- context [Rlt_dec ?a ?b] => destruct (Rlt_dec a b) end; lra.
Qed.
Lemma W_sym : forall a b, W a b = - W b a.
Proof. intros. unfold W. rewrite <- wrap_opp. f_equal. ring. Qed.
Lemma W_refl : forall a, W a a = 0.
Proof. intros a. pose proof (W_sym a a). lra. Qed.
Lemma wrap_bound : forall d, - 3 * PI <= d <= 3 * PI -> - PI <= wrap d <= PI.
Proof.
  intros d H. pose proof PI_RGT_0 as P. unfold wrap. destruct (Rlt_dec PI d) as [A|A].
  - destruct (Rlt_dec (d - 2 * PI) (- PI)); lra.
  - destruct (Rlt_dec d (- PI)); lra.
Qed.

(** ** the sum along the border *)
Fixpoint path (l : list R) : R := match l with a :: ((b :: _) as r) => W a b + path r | _ => 0 end.
Lemma path_diffs : forall l, rsum (map wrap (diffs l)) = path l.
Proof.
  induction l as [|a [|b r] IH]; [reflexivity|reflexivity|].
  change (diffs (a :: b :: r)) with ((b - a) :: diffs (b :: r)). change (path (a :: b :: r)) with (W a b + path (b :: r)).
  rewrite <- IH. reflexivity.
Qed.
Lemma path_app : forall l1 a b l2, path ((l1 ++ [a]) ++ b :: l2) = path (l1 ++ [a]) + W a b + path (b :: l2).
Proof.
  induction l1 as [|x l1 IH]; intros a b l2.
  - cbn [app path]. ring.
  - destruct l1 as [|y l1].
    + cbn [app]. change (path (x :: a :: b :: l2)) with (W x a + (W a b + path (b :: l2))). cbn [path]. ring.
    + specialize (IH a b l2). cbn [app] in IH |- *.
      change (path (x :: y :: (l1 ++ [a]) ++ b :: l2)) with (W x y + path (y :: (l1 ++ [a]) ++ b :: l2)).
      change (path (x :: y :: l1 ++ [a])) with (W x y + path (y :: l1 ++ [a])). rewrite IH. ring.
Qed.
Lemma path_seq : forall n a (f : nat -> R), path (map f (seq a (S n))) = sumn n (fun k => W (f (a + k)%nat) (f (S (a + k)))).
Proof.
  induction n as [|n IH]; intros a f; [reflexivity|].
  change (seq a (S (S n))) with (a :: seq (S a) (S n)).
  change (map f (a :: seq (S a) (S n))) with (f a :: map f (seq (S a) (S n))).
  assert (E : path (f a :: map f (seq (S a) (S n))) = W (f a) (f (S a)) + path (map f (seq (S a) (S n)))) by reflexivity.
  rewrite E, IH, sumn_S0. rewrite Nat.add_0_r. f_equal. apply sumn_ext. intros k _.
  replace (a + S k)%nat with (S a + k)%nat by lia. reflexivity.
Qed.
Lemma map_seq_snoc : forall (A : Type) (f : nat -> A) n, map f (seq 0 (S n)) = map f (seq 0 n) ++ [f n].
Proof. intros. rewrite seq_S, map_app. reflexivity. Qed.
Lemma map_seq_cons : forall (A : Type) (f : nat -> A) n, map f (seq 0 (S n)) = f 0%nat :: map f (seq 1 n).
Proof. reflexivity. Qed.

(** the edges of the border *)
Definition Wth (th : nat -> nat -> R) (p q : nat * nat) : R := W (th (fst p) (snd p)) (th (fst q) (snd q)).
Lemma pbi_sum_around : forall th m i, pbi_sum th (S m) (S i) = around (Wth th) (S m) (S i).
Proof.
  intros th m i. unfold pbi_sum, pbi_border, around.
  set (A := map (fun k => th (S m - 1 - k)%nat 0%nat) (seq 0 (S m))).
  set (B := map (fun j => th 0%nat j) (seq 0 (S i))).
  set (C := map (fun k => th k (S i)) (seq 0 (S m))).
  set (D := map (fun k => th (S m - 1)%nat (S i - k)%nat) (seq 0 (S i))).
  assert (EA : A = map (fun k => th (S m - 1 - k)%nat 0%nat) (seq 0 m) ++ [th 0%nat 0%nat]).
  { unfold A. rewrite map_seq_snoc. do 3 f_equal. lia. }
  assert (EA' : A = th m 0%nat :: map (fun k => th (S m - 1 - k)%nat 0%nat) (seq 1 m)).
  { unfold A. rewrite map_seq_cons. f_equal. f_equal. lia. }
  assert (EB : B = map (fun j => th 0%nat j) (seq 0 i) ++ [th 0%nat i]) by apply map_seq_snoc.
  assert (EB' : B = th 0%nat 0%nat :: map (fun j => th 0%nat j) (seq 1 i)) by reflexivity.
  assert (EC : C = map (fun k => th k (S i)) (seq 0 m) ++ [th m (S i)]) by (apply (map_seq_snoc R (fun k => th k (S i)) m)).
  assert (EC' : C = th 0%nat (S i) :: map (fun k => th k (S i)) (seq 1 m)) by reflexivity.
  assert (ED : D = map (fun k => th (S m - 1)%nat (S i - k)%nat) (seq 0 i) ++ [th m 1%nat]).
  { unfold D. rewrite map_seq_snoc. do 2 f_equal. f_equal; lia. }
  assert (ED' : D = th m (S i) :: map (fun k => th (S m - 1)%nat (S i - k)%nat) (seq 1 i)).
  { unfold D. rewrite map_seq_cons. f_equal. f_equal; lia. }
  assert (CD : closed_diffs (A ++ B ++ C ++ D) = diffs (A ++ B ++ C ++ D) ++ [th m 0%nat - th m 1%nat]).
  { assert (L : last (A ++ B ++ C ++ D) 0 = th m 1%nat).
    { rewrite ED, !app_assoc. apply last_last. }
    unfold closed_diffs. rewrite L. rewrite EA' at 1. cbn [app]. rewrite EA'. reflexivity. }
  rewrite CD, map_app, rsum_app, path_diffs. cbn [map rsum]. fold (W (th m 1%nat) (th m 0%nat)).
  assert (P : path (A ++ B ++ C ++ D) = path A + W (th 0%nat 0%nat) (th 0%nat 0%nat) + (path B + W (th 0%nat i) (th 0%nat (S i)) + (path C + W (th m (S i)) (th m (S i)) + path D))).
  { rewrite EA at 1. rewrite EB' at 1. rewrite <- EB' at 1.
    rewrite EB' at 1. cbn [app]. rewrite path_app, <- EA. f_equal.
    change (path (th 0%nat 0%nat :: map (fun j => th 0%nat j) (seq 1 i) ++ C ++ D)) with (path ((th 0%nat 0%nat :: map (fun j => th 0%nat j) (seq 1 i)) ++ C ++ D)).
    rewrite <- EB'. rewrite EB at 1. rewrite EC' at 1. cbn [app]. rewrite path_app, <- EB. f_equal.
    change (path (th 0%nat (S i) :: map (fun k => th k (S i)) (seq 1 m) ++ D)) with (path ((th 0%nat (S i) :: map (fun k => th k (S i)) (seq 1 m)) ++ D)).
    rewrite <- EC'. rewrite EC at 1. rewrite ED' at 1. rewrite path_app, <- EC, <- ED'. reflexivity. }
  rewrite P, !W_refl. clear P CD.
  assert (PA : path A = sumn m (fun r => Wth th (S r, 0)%nat (r, 0)%nat)).
  { unfold A. rewrite path_seq. rewrite <- (sumn_rev m (fun r => Wth th (S r, 0)%nat (r, 0)%nat)). apply sumn_ext. intros k H.
    unfold Wth; cbn [fst snd]. f_equal; f_equal; lia. }
  assert (PB : path B = sumn i (fun c => Wth th (0, c)%nat (0, S c)%nat)) by (unfold B; rewrite path_seq; reflexivity).
  assert (PC : path C = sumn m (fun r => Wth th (r, S i) (S r, S i))) by (unfold C; rewrite path_seq; reflexivity).
  assert (PD : path D + W (th m 1%nat) (th m 0%nat) = sumn (S i) (fun c => Wth th (m, S c) (m, c))).
  { unfold D. rewrite path_seq, (sumn_S0 i). rewrite Rplus_comm. f_equal.
    rewrite <- (sumn_rev i (fun k => Wth th (m, S (S k)) (m, S k))). apply sumn_ext. intros k H. unfold Wth; cbn [fst snd]. f_equal; f_equal; lia. }
  replace (S m - 1)%nat with m by lia. cbn [sumn] in *. rewrite PA, PB, PC, <- PD. unfold Wth; cbn [fst snd]. ring.
Qed.

(** ** integrality *)
Lemma W_int : forall a b, exists z : Z, W a b = b - a + 2 * PI * IZR z.
Proof. intros a b. apply wrap_spec. Qed.
Lemma sumn_int : forall n (f g : nat -> R), (forall k, (k < n)%nat -> exists z : Z, f k = g k + 2 * PI * IZR z) -> exists z : Z, sumn n f = sumn n g + 2 * PI * IZR z.
Proof.
  induction n as [|n IH]; intros f g H; [exists 0%Z; cbn; ring|].
  destruct (IH f g) as [z E]; [intros; apply H; lia|]. destruct (H n) as [z' E']; [lia|].
  exists (z + z')%Z. cbn. rewrite E, E', plus_IZR. ring.
Qed.
Lemma around_int : forall th m i, exists z : Z, around (Wth th) m i = 2 * PI * IZR z.
Proof.
  intros th m i. unfold around.
  destruct (sumn_int (m - 1) (fun r => Wth th (S r, 0)%nat (r, 0)%nat) (fun r => - (th (S r) 0%nat - th r 0%nat))) as [z1 E1].
  { intros k _. destruct (W_int (th (S k) 0%nat) (th k 0%nat)) as [z E]. exists z. unfold Wth; cbn [fst snd]. rewrite E. ring. }
  destruct (sumn_int i (fun c => Wth th (0, c)%nat (0, S c)%nat) (fun c => th 0%nat (S c) - th 0%nat c)) as [z2 E2].
  { intros k _. apply W_int. }
  destruct (sumn_int (m - 1) (fun r => Wth th (r, i) (S r, i)) (fun r => th (S r) i - th r i)) as [z3 E3].
  { intros k _. apply W_int. }
  destruct (sumn_int i (fun c => Wth th (m - 1, S c)%nat (m - 1, c)%nat) (fun c => - (th (m - 1)%nat (S c) - th (m - 1)%nat c))) as [z4 E4].
  { intros k _. destruct (W_int (th (m - 1)%nat (S k)) (th (m - 1)%nat k)) as [z E]. exists z. unfold Wth; cbn [fst snd]. rewrite E. ring. }
  exists (z1 + z2 + z3 + z4)%Z. rewrite E1, E2, E3, E4, !sumn_opp.
  rewrite (sumn_tele (m - 1) (fun r => th r 0%nat)), (sumn_tele i (fun c => th 0%nat c)), (sumn_tele (m - 1) (fun r => th r i)), (sumn_tele i (fun c => th (m - 1)%nat c)).
  rewrite !plus_IZR. ring.
Qed.
Lemma np_round_int : forall z, np_round (IZR z) = IZR z.
Proof.
  intros z. unfold np_round. f_equal. unfold Int_part.
  assert (E : up (IZR z + / 2) = (z + 1)%Z).
  { symmetry. apply tech_up; rewrite plus_IZR; lra. }
  rewrite E. lia.
Qed.
Lemma PI_neq : 2 * PI <> 0.
Proof. pose proof PI_RGT_0. lra. Qed.

(** ** the values of the index *)
Lemma pbi_x_nth : forall th m n i, (i < n)%nat -> (0 < m)%nat ->
  nth i (pbi_x th m n) 0 = match i with O => 0 | _ => around (Wth th) m i / (2 * PI) end /\
  exists z : Z, nth i (pbi_x th m n) 0 = IZR z.
Proof.
  intros th m n i H M. unfold pbi_x.
  rewrite (nth_indep _ 0 (np_round 0)) by (rewrite map_length, seq_length; exact H).
  rewrite (map_nth (fun i => match i with O => np_round 0 | _ => np_round (pbi_sum th m i / (2 * PI)) end) (seq 0 n) 0%nat i).
  rewrite seq_nth by exact H. cbn [Nat.add].
  destruct i as [|i].
  - rewrite (np_round_int 0). split; [reflexivity|]. exists 0%Z. reflexivity.
  - destruct m as [|m]; [lia|]. rewrite pbi_sum_around. destruct (around_int th (S m) (S i)) as [z E]. rewrite E.
    replace (2 * PI * IZR z / (2 * PI)) with (IZR z) by (field; pose proof PI_RGT_0; lra).
    rewrite np_round_int. split; [reflexivity|]. exists z. reflexivity.
Qed.
Lemma pbi_x_length : forall th m n, length (pbi_x th m n) = n.
Proof. intros. unfold pbi_x. rewrite map_length, seq_length. reflexivity. Qed.

Definition cellW (th : nat -> nat -> R) (r c : nat) : R :=
  W (th (S r) c) (th r c) + W (th r c) (th r (S c)) + W (th r (S c)) (th (S r) (S c)) + W (th (S r) (S c)) (th (S r) c).
Lemma cell_index_W : forall th i j, cell_index th i j = cellW th i j / (2 * PI).
Proof.
  intros th i j. unfold cell_index.
  destruct (pbi_x_nth (fun a b => th (i + a)%nat (j + b)%nat) 2 2 1) as [E _]; [lia|lia|]. rewrite E. unfold around, cellW, Wth; cbn [sumn Nat.sub fst snd].
  replace (i + 0)%nat with i by lia. replace (j + 0)%nat with j by lia. replace (i + 1)%nat with (S i) by lia. replace (j + 1)%nat with (S j) by lia.
  f_equal. ring.
Qed.
(** the discrete theorem of Stokes *)
Lemma around_cells : forall th m i, (0 < m)%nat ->
  around (Wth th) m i = sumn (m - 1) (fun r => sumn i (fun c => cellW th r c)).
Proof.
  intros th m i M.
  (* horizontal edges *)
  set (H := fun r => sumn i (fun c => W (th r c) (th r (S c)))).
  set (L := fun c => sumn (m - 1) (fun r => W (th r c) (th (S r) c))).
  assert (A1 : around (Wth th) m i = - L 0%nat + H 0%nat + L i - H (m - 1)%nat).
  { unfold around, L, H.
    rewrite (sumn_ext (m - 1) (fun r => Wth th (S r, 0)%nat (r, 0)%nat) (fun r => - W (th r 0%nat) (th (S r) 0%nat))) by (intros; apply W_sym).
    rewrite (sumn_ext i (fun c => Wth th (m - 1, S c)%nat (m - 1, c)%nat) (fun c => - W (th (m - 1)%nat c) (th (m - 1)%nat (S c)))) by (intros; apply W_sym).
    rewrite !sumn_opp. unfold Wth; cbn [fst snd]. ring. }
  rewrite A1.
  rewrite (sumn_ext (m - 1) (fun r => sumn i (fun c => cellW th r c)) (fun r => - (H (S r) - H r) + sumn i (fun c => W (th r (S c)) (th (S r) (S c)) - W (th r c) (th (S r) c)))).
  - rewrite sumn_plus, sumn_opp, (sumn_tele (m - 1) H), sumn_swap.
    rewrite (sumn_ext i _ (fun j => L (S j) - L j)).
    + rewrite (sumn_tele i L). ring.
    + intros j _. unfold L. unfold Rminus. rewrite sumn_plus, sumn_opp. reflexivity.
  - intros r _. unfold H. unfold Rminus. rewrite Ropp_plus_distr, <- !sumn_opp, <- !sumn_plus. apply sumn_ext. intros c _.
    unfold cellW. rewrite (W_sym (th (S r) c) (th r c)), (W_sym (th (S r) (S c)) (th (S r) c)). ring.
Qed.
Lemma sumn_div : forall n f c, sumn n (fun k => f k / c) = sumn n f / c.
Proof. induction n as [|n IH]; intros; cbn; [unfold Rdiv; ring|]. rewrite IH. unfold Rdiv. ring. Qed.
Lemma pbi_x_cells : forall th m n i, (i < n)%nat -> (0 < m)%nat ->
  nth i (pbi_x th m n) 0 = sumn (m - 1) (fun r => sumn i (fun c => cell_index th r c)).
Proof.
  intros th m n i H M. destruct (pbi_x_nth th m n i H M) as [E _]. rewrite E.
  assert (S0 : sumn (m - 1) (fun r => sumn i (fun c => cell_index th r c)) = around (Wth th) m i / (2 * PI)).
  { rewrite around_cells by exact M. rewrite <- sumn_div. apply sumn_ext. intros r _. rewrite <- sumn_div. apply sumn_ext. intros c _. apply cell_index_W. }
  rewrite S0. destruct i; [|reflexivity].
  rewrite around_cells by exact M. rewrite sumn_0 by reflexivity. unfold Rdiv. ring.
Qed.
Lemma pbi_y_cells : forall th m n j, (j < m)%nat -> (0 < n)%nat ->
  nth j (pbi_y th m n) 0 = sumn (m - 1 - j) (fun r => sumn (n - 1) (fun c => cell_index th (j + r)%nat c)).
Proof.
  intros th m n j H N. unfold pbi_y. rewrite rev_nth by (rewrite pbi_x_length; exact H). rewrite pbi_x_length.
  replace (m - S j)%nat with (m - 1 - j)%nat by lia.
  rewrite (pbi_x_cells (fun i j0 => th (m - 1 - j0)%nat i) n m (m - 1 - j)) by lia.
  rewrite sumn_swap. rewrite <- (sumn_rev (m - 1 - j) (fun r => sumn (n - 1) (fun c => cell_index th (j + r)%nat c))).
  apply sumn_ext. intros r Hr. apply sumn_ext. intros c Hc.
  rewrite !cell_index_W. f_equal. unfold cellW.
  replace (j + (m - 1 - j - 1 - r))%nat with (m - 1 - S r)%nat by lia. replace (m - 1 - r)%nat with (S (m - 1 - S r)) by lia. ring.
Qed.

(** ** one cell *)
Lemma cell_range : forall th i j, angles 2 2 (fun a b => th (i + a)%nat (j + b)%nat) ->
  cell_index th i j = -1 \/ cell_index th i j = 0 \/ cell_index th i j = 1.
Proof.
  intros th i j A.
  assert (Z0 : exists z : Z, cell_index th i j = IZR z) by (apply (pbi_x_nth (fun a b => th (i + a)%nat (j + b)%nat) 2 2 1); lia).
  destruct Z0 as [z E]. rewrite cell_index_W in *. pose proof PI_RGT_0 as P.
  assert (C : cellW th i j = 2 * PI * IZR z) by (rewrite <- E; field; lra). rewrite E. clear E.
  pose proof (A 0%nat 0%nat ltac:(lia) ltac:(lia)) as A00. pose proof (A 0%nat 1%nat ltac:(lia) ltac:(lia)) as A01.
  pose proof (A 1%nat 0%nat ltac:(lia) ltac:(lia)) as A10. pose proof (A 1%nat 1%nat ltac:(lia) ltac:(lia)) as A11. cbn beta in *.
  replace (i + 0)%nat with i in * by lia. replace (j + 0)%nat with j in * by lia. replace (i + 1)%nat with (S i) in * by lia. replace (j + 1)%nat with (S j) in * by lia.
  unfold cellW in C. set (a := th (S i) j) in *. set (b := th i j) in *. set (c := th i (S j)) in *. set (d := th (S i) (S j)) in *.
  assert (B : forall u v, 0 <= u < 2 * PI -> 0 <= v < 2 * PI -> - PI <= W u v <= PI /\ (W u v = PI -> v - u = PI) /\ (W u v = - PI -> v - u = - PI)).
  { intros u v U V. split; [apply wrap_bound; lra|]. unfold W, wrap. destruct (Rlt_dec PI (v - u)).
    - destruct (Rlt_dec (v - u - 2 * PI) (- PI)); split; lra.
    - destruct (Rlt_dec (v - u) (- PI)); split; lra. }
  destruct (B a b A10 A00) as (B1 & B2 & B3). destruct (B b c A00 A01) as (C1 & C2 & C3). destruct (B c d A01 A11) as (D1 & D2 & D3). destruct (B d a A11 A10) as (E1 & E2 & E3).
  assert (U : (-2 < z < 2)%Z).
  { split.
    - apply Z.nle_gt. intros H. apply IZR_le in H.
      assert (2 * PI * IZR z <= 2 * PI * -2) by (apply Rmult_le_compat_l; lra).
      assert (X1 : W a b = - PI) by lra. assert (X2 : W b c = - PI) by lra. assert (X3 : W c d = - PI) by lra. assert (X4 : W d a = - PI) by lra.
      apply B3 in X1. apply C3 in X2. apply D3 in X3. apply E3 in X4. lra.
    - apply Z.nle_gt. intros H. apply IZR_le in H.
      assert (2 * PI * IZR z >= 2 * PI * 2) by (apply Rle_ge, Rmult_le_compat_l; lra).
      assert (X1 : W a b = PI) by lra. assert (X2 : W b c = PI) by lra. assert (X3 : W c d = PI) by lra. assert (X4 : W d a = PI) by lra.
      apply B2 in X1. apply C2 in X2. apply D2 in X3. apply E2 in X4. lra. }
  assert (z = -1 \/ z = 0 \/ z = 1)%Z as [-> | [-> | ->]] by lia; auto.
Qed.
