(** * RecoProofs: the reconstruction from gradients *)
From Coq Require Import Reals List Bool Arith Lia Lra.
From Verif Require Import Res RecoModel RecoSpec.
Import ListNotations.
#[local] Open Scope R_scope.

(** ** means *)
Lemma sum_shift {A} (f : A -> R) c l : sum (map (fun a => f a - c) l) = sum (map f l) - INR (length l) * c.
Proof. induction l as [|a l IH]; cbn [map sum length]; [cbn; ring|]. rewrite IH, S_INR. ring. Qed.
Lemma mean_shift {A} (f : A -> R) c l : l <> [] -> mean (map (fun a => f a - c) l) = mean (map f l) - c.
Proof.
  intro N. unfold mean. rewrite sum_shift, !map_length. assert (INR (length l) <> 0) by (apply not_0_INR; destruct l; [contradiction|discriminate]). field. assumption.
Qed.
Lemma cells_in n m c : In c (cells n m) <-> (fst c < n /\ snd c < m)%nat.
Proof.
  unfold cells. rewrite in_flat_map. destruct c as [i j]. cbn [fst snd]. split.
  - intros (a & A & B). apply in_map_iff in B as (b & E & B). injection E as <- <-. apply in_seq in A. apply in_seq in B. lia.
  - intros [I J]. exists i. split; [apply in_seq; lia|]. apply in_map_iff. exists j. split; [reflexivity|apply in_seq; lia].
Qed.
Lemma cells_some n m : (0 < n)%nat -> (0 < m)%nat -> cells n m <> [].
Proof. intros N M E. assert (H : In (0, 0)%nat (cells n m)) by (apply cells_in; cbn; lia). rewrite E in H. exact H. Qed.

(** ** the orders of the loops *)
Fixpoint chain (d : way) (s : nat) (l : list nat) : Prop := match l with [] => True | i :: l' => known d i = s /\ chain d i l' end.
Lemma chain_up l k : chain Up k (seq (S k) l).
Proof. revert k. induction l as [|l IH]; intro k; [exact I|]. cbn [seq chain known]. split; [lia|apply IH]. Qed.
Lemma chain_down k : chain Down k (rev (seq 0 k)).
Proof. induction k as [|k IH]; [exact I|]. rewrite seq_S, rev_app_distr. cbn [rev app Nat.add chain known]. split; [reflexivity|exact IH]. Qed.
Lemma chain_order d n : (0 < n)%nat -> chain d (side d n) (order d n).
Proof. intro N. destruct d; [apply chain_up|apply chain_down]. Qed.
Lemma order_in d n i : (0 < n)%nat -> In i (order d n) <-> (i < n)%nat /\ i <> side d n.
Proof. intro N. destruct d; cbn [order side]; rewrite <- ?in_rev, in_seq; lia. Qed.
Lemma order_nodup d n : (0 < n)%nat -> NoDup (side d n :: order d n).
Proof. intro N. constructor; [rewrite order_in by exact N; tauto|]. destruct d; cbn [order]; [apply seq_NoDup|apply NoDup_rev, seq_NoDup]. Qed.
Lemma known_range d n i : (0 < n)%nat -> In i (order d n) -> (known d i < n)%nat.
Proof. intros N H. apply (order_in d n i N) in H. destruct d; cbn [known side] in *; lia. Qed.

Lemma put_same u i j v : put u i j v i j = v.
Proof. unfold put. now rewrite !Nat.eqb_refl. Qed.
Lemma put_other u i j v a b : a <> i \/ b <> j -> put u i j v a b = u a b.
Proof. intros H. unfold put. destruct (Nat.eqb_spec a i), (Nat.eqb_spec b j); cbn; try reflexivity. subst. destruct H; contradiction. Qed.

Section Rec.
Variables (n m : nat) (dx dy : R) (du_dx du_dy w : grid).
Hypothesis N : (2 <= n)%nat.
Hypothesis M : (2 <= m)%nat.
Hypothesis T : trapezoids n m dx dy du_dx du_dy w.
Notation ax := (along_x dx du_dx).
Notation ay := (along_y dy du_dy).

Lemma along_x_ok d (u : grid) i j k : In i (order d n) -> (j < m)%nat -> u (known d i) j = w (known d i) j - k -> ax d u i j = w i j - k.
Proof.
  intros I J E. unfold along_x. rewrite E. apply order_in in I as [I I']; [|lia]. destruct T as [X _]. destruct d; cbn [known sign side] in *.
  - destruct i as [|i]; [lia|]. rewrite Nat.sub_succ, Nat.sub_0_r. specialize (X i j I J). lra.
  - specialize (X i j ltac:(lia) J). lra.
Qed.
Lemma along_y_ok d (u : grid) i j k : (i < n)%nat -> In j (order d m) -> u i (known d j) = w i (known d j) - k -> ay d u i j = w i j - k.
Proof.
  intros I J E. unfold along_y. rewrite E. apply order_in in J as [J J']; [|lia]. destruct T as [_ Y]. destruct d; cbn [known sign side] in *.
  - destruct j as [|j]; [lia|]. rewrite Nat.sub_succ, Nat.sub_0_r. specialize (Y i j I J). lra.
  - specialize (Y i j I ltac:(lia)). lra.
Qed.

(** ** the borders *)
Lemma column_fold d c k l : (c < m)%nat -> forall s u, chain d s l -> NoDup (s :: l) -> (forall i, In i l -> In i (order d n)) -> u s c = w s c - k ->
  let u' := fold_left (fun u i => put u i c (ax d u i c)) l u in
  (forall i, In i (s :: l) -> u' i c = w i c - k) /\ (forall a b, b <> c \/ ~ In a l -> u' a b = u a b).
Proof.
  intro C. induction l as [|i l IH]; intros s u Ch Nd Or E; cbn [fold_left].
  - split; [intros i [<-|[]]; exact E|reflexivity].
  - destruct Ch as [K Ch]. inversion Nd as [|? ? Ni Nd']; subst.
    destruct (IH i (put u i c (ax d u i c)) Ch Nd' (fun a A => Or a (or_intror A))) as [G O].
    { rewrite put_same. apply along_x_ok; [apply Or; now left|exact C|exact E]. }
    split.
    + intros a [<-|A]; [|apply G; exact A]. rewrite O by (right; intro A; apply Ni; now right). rewrite put_other by (left; intro X; apply Ni; left; now symmetry). exact E.
    + intros a b H. rewrite O by (destruct H as [H|H]; [now left|right; intro; apply H; now right]). apply put_other. destruct H as [H|H]; [now right|left; intros ->; apply H; now left].
Qed.
Lemma row_fold d r k l : (r < n)%nat -> forall s u, chain d s l -> NoDup (s :: l) -> (forall j, In j l -> In j (order d m)) -> u r s = w r s - k ->
  let u' := fold_left (fun u j => put u r j (ay d u r j)) l u in
  (forall j, In j (s :: l) -> u' r j = w r j - k) /\ (forall a b, a <> r \/ ~ In b l -> u' a b = u a b).
Proof.
  intro C. induction l as [|i l IH]; intros s u Ch Nd Or E; cbn [fold_left].
  - split; [intros i [<-|[]]; exact E|reflexivity].
  - destruct Ch as [K Ch]. inversion Nd as [|? ? Ni Nd']; subst.
    destruct (IH i (put u r i (ay d u r i)) Ch Nd' (fun a A => Or a (or_intror A))) as [G O].
    { rewrite put_same. apply along_y_ok; [exact C|apply Or; now left|exact E]. }
    split.
    + intros a [<-|A]; [|apply G; exact A]. rewrite O by (right; intro A; apply Ni; now right). rewrite put_other by (right; intro X; apply Ni; left; now symmetry). exact E.
    + intros a b H. rewrite O by (destruct H as [H|H]; [now left|right; intro; apply H; now right]). apply put_other. destruct H as [H|H]; [now left|right; intros ->; apply H; now left].
Qed.
Lemma side_lt d k : (0 < k)%nat -> (side d k < k)%nat.
Proof. destruct d; cbn; lia. Qed.
Lemma in_order d k i : (0 < k)%nat -> (i < k)%nat -> In i (side d k :: order d k).
Proof. intros K I. destruct (Nat.eq_dec (side d k) i) as [E|E]; [now left|right]. apply order_in; [exact K|]. split; [exact I|congruence]. Qed.
Lemma borders_ok d e i j : (i < n)%nat -> (j < m)%nat -> borders n m dx dy du_dx du_dy d e i j =
  if Nat.eqb j (side e m) || Nat.eqb i (side d n) then w i j - w (side d n) (side e m) else 0.
Proof.
  intros I J. unfold borders. set (k := w (side d n) (side e m)).
  pose proof (column_fold d (side e m) k (order d n) (side_lt e m ltac:(lia)) (side d n) zeros (chain_order d n ltac:(lia)) (order_nodup d n ltac:(lia)) (fun _ H => H)) as [C1 C2].
  { unfold zeros, k. ring. }
  set (u := fold_left _ (order d n) zeros) in *.
  pose proof (row_fold e (side d n) k (order e m) (side_lt d n ltac:(lia)) (side e m) u (chain_order e m ltac:(lia)) (order_nodup e m ltac:(lia)) (fun _ H => H)) as [R1 R2].
  { apply C1. now left. }
  destruct (Nat.eqb_spec i (side d n)) as [->|Hi].
  - rewrite orb_true_r. apply R1. apply in_order; lia.
  - rewrite R2 by (now left). rewrite orb_false_r. destruct (Nat.eqb_spec j (side e m)) as [->|Hj].
    + apply C1. apply in_order; lia.
    + rewrite C2 by (now left). reflexivity.
Qed.
Definition border_mean : R := mean (map (fun p => w (fst p) (snd p)) (filter (border n m) (cells n m))).
Lemma border_some : filter (border n m) (cells n m) <> [].
Proof. intro E. assert (H : In (0, 0)%nat (filter (border n m) (cells n m))) by (apply filter_In; split; [apply cells_in; cbn; lia|reflexivity]). rewrite E in H. exact H. Qed.
Lemma centred_ok (u : grid) k : (forall i j, (i < n)%nat -> (j < m)%nat -> border n m (i, j) = true -> u i j = w i j - k) ->
  forall i j, (i < n)%nat -> (j < m)%nat -> border n m (i, j) = true -> centred n m u i j = w i j - border_mean.
Proof.
  intros H i j I J B. unfold centred. rewrite B, H by assumption.
  rewrite (map_ext_in _ (fun p => w (fst p) (snd p) - k)).
  - rewrite mean_shift by exact border_some. fold border_mean. ring.
  - intros [a b] A. apply filter_In in A as [A A']. apply cells_in in A as [A1 A2]. cbn [fst snd] in *. apply H; assumption.
Qed.
Ltac decide1 := match goal with
  | |- context [Nat.eqb ?a ?b] => first [rewrite (proj2 (Nat.eqb_eq a b)) by lia | rewrite (proj2 (Nat.eqb_neq a b)) by lia]
  | |- context [Nat.ltb ?a ?b] => first [rewrite (proj2 (Nat.ltb_lt a b)) by lia | rewrite (proj2 (Nat.ltb_ge a b)) by lia]
  | |- context [Nat.leb ?a ?b] => first [rewrite (proj2 (Nat.leb_le a b)) by lia | rewrite (proj2 (Nat.leb_gt a b)) by lia] end.
Ltac corners i j := destruct (Nat.eq_dec i 0); destruct (Nat.eq_dec i (n - 1)); try lia; destruct (Nat.eq_dec j 0); destruct (Nat.eq_dec j (m - 1)); try lia; subst.
Lemma border_sides i j : border n m (i, j) = true -> i = 0%nat \/ i = (n - 1)%nat \/ j = 0%nat \/ j = (m - 1)%nat.
Proof. unfold border. cbn [fst snd]. rewrite !orb_true_iff, !Nat.eqb_eq. tauto. Qed.
Lemma ua_ok i j : (i < n)%nat -> (j < m)%nat -> border n m (i, j) = true -> ua n m dx dy du_dx du_dy i j = w i j - border_mean.
Proof.
  revert i j. unfold ua. apply (centred_ok _ (w 0 0)%nat). intros i j I J B.
  set (u1 := borders n m dx dy du_dx du_dy Up Up). set (u4 := borders n m dx dy du_dx du_dy Down Down).
  assert (S : (u4 (n - 1)%nat 0%nat - u1 (n - 1)%nat 0%nat + u4 0%nat (m - 1)%nat - u1 0%nat (m - 1)%nat) / 2 = w 0%nat 0%nat - w (n - 1)%nat (m - 1)%nat).
  { unfold u1, u4. rewrite !borders_ok by lia. cbn [side]. rewrite !Nat.eqb_refl, ?orb_true_r. cbn [orb]. lra. }
  rewrite S. clear S. unfold halved, put, shift, u1, u4. rewrite !borders_ok by lia. cbn [side]. apply border_sides in B.
  corners i j; try lia; repeat (decide1; cbn [andb orb]); lra.
Qed.
Lemma ub_ok i j : (i < n)%nat -> (j < m)%nat -> border n m (i, j) = true -> ub n m dx dy du_dx du_dy i j = w i j - border_mean.
Proof.
  revert i j. unfold ub. apply (centred_ok _ (w 0 (m - 1))%nat). intros i j I J B.
  set (u2 := borders n m dx dy du_dx du_dy Up Down). set (u3 := borders n m dx dy du_dx du_dy Down Up).
  assert (S : (u3 0%nat 0%nat - u2 0%nat 0%nat + u3 (n - 1)%nat (m - 1)%nat - u2 (n - 1)%nat (m - 1)%nat) / 2 = w 0%nat (m - 1)%nat - w (n - 1)%nat 0%nat).
  { unfold u2, u3. rewrite !borders_ok by lia. cbn [side]. rewrite !Nat.eqb_refl, ?orb_true_r. cbn [orb]. lra. }
  rewrite S. clear S. unfold halved, put, shift, u2, u3. rewrite !borders_ok by lia. cbn [side]. apply border_sides in B.
  corners i j; try lia; repeat (decide1; cbn [andb orb]); lra.
Qed.
Lemma frame_ok i j : (i < n)%nat -> (j < m)%nat -> border n m (i, j) = true -> frame n m dx dy du_dx du_dy i j = w i j - border_mean.
Proof. intros I J B. unfold frame. rewrite ua_ok, ub_ok by assumption. field. Qed.

(** ** the sweeps *)
Lemma inner_fold d e i k l : In i (order d n) -> forall s u, chain e s l -> NoDup (s :: l) -> (forall j, In j l -> In j (order e m)) ->
  (forall b, (b < m)%nat -> u (known d i) b = w (known d i) b - k) -> u i s = w i s - k ->
  let u' := fold_left (fun u j => put u i j ((ax d u i j + ay e u i j) / 2)) l u in
  (forall j, In j (s :: l) -> u' i j = w i j - k) /\ (forall a b, a <> i -> u' a b = u a b).
Proof.
  intro Oi. assert (Ki : known d i <> i) by (apply order_in in Oi; [destruct d; cbn [known side] in *; lia|lia]). assert (In_ : (i < n)%nat) by (apply order_in in Oi; [tauto|lia]).
  induction l as [|j l IH]; intros s u Ch Nd Or P E; cbn [fold_left].
  - split; [intros j [<-|[]]; exact E|reflexivity].
  - destruct Ch as [K Ch]. inversion Nd as [|? ? Ni Nd']; subst. assert (Jm : (j < m)%nat) by (destruct (proj1 (order_in e m j ltac:(lia)) (Or j (or_introl eq_refl))); lia).
    set (u1 := put u i j ((ax d u i j + ay e u i j) / 2)).
    assert (E1 : u1 i j = w i j - k). { unfold u1. rewrite put_same. rewrite (along_x_ok d u i j k), (along_y_ok e u i j k); [field|exact In_|apply Or; now left|exact E|exact Oi|exact Jm|apply P; exact Jm]. }
    assert (P1 : forall b, (b < m)%nat -> u1 (known d i) b = w (known d i) b - k). { intros b B. unfold u1. rewrite put_other by (now left). apply P; exact B. }
    destruct (IH j u1 Ch Nd' (fun a A => Or a (or_intror A)) P1 E1) as [G O]. split.
    + intros a [<-|A]; [|apply G; exact A].
      assert (Keep : forall l' v, ~ In (known e j) l' -> fold_left (fun u j => put u i j ((ax d u i j + ay e u i j) / 2)) l' v i (known e j) = v i (known e j)).
      { induction l' as [|c l' IHl]; intros v Nl; [reflexivity|]. cbn [fold_left]. rewrite IHl by (intro; apply Nl; now right). apply put_other. right. intro X. apply Nl. now left. }
      rewrite Keep by (intro A; apply Ni; now right). unfold u1. rewrite put_other by (right; intro X; apply Ni; left; now symmetry). exact E.
    + intros a b A. rewrite O by exact A. unfold u1. apply put_other. now left.
Qed.
Lemma outer_fold d e k l : forall s u, chain d s l -> NoDup (s :: l) -> (forall i, In i l -> In i (order d n)) ->
  (forall b, (b < m)%nat -> u s b = w s b - k) -> (forall a, (a < n)%nat -> u a (side e m) = w a (side e m) - k) ->
  let u' := fold_left (fun u i => fold_left (fun u j => put u i j ((ax d u i j + ay e u i j) / 2)) (order e m) u) l u in
  forall i b, In i (s :: l) -> (b < m)%nat -> u' i b = w i b - k.
Proof.
  induction l as [|i l IH]; intros s u Ch Nd Or P E; cbn [fold_left].
  - intros i b [<-|[]] B. apply P; exact B.
  - destruct Ch as [K Ch]. inversion Nd as [|? ? Ni Nd']; subst.
    assert (Li : (i < n)%nat) by (destruct (proj1 (order_in d n i ltac:(lia)) (Or i (or_introl eq_refl))); lia).
    destruct (inner_fold d e i k (order e m) (Or i (or_introl eq_refl)) (side e m) u (chain_order e m ltac:(lia)) (order_nodup e m ltac:(lia)) (fun _ H => H) P (E i Li)) as [G O].
    set (u1 := fold_left (fun (u : grid) j => put u i j ((ax d u i j + ay e u i j) / 2)) (order e m) u) in *.
    assert (P1 : forall b, (b < m)%nat -> u1 i b = w i b - k) by (intros b B; apply G; apply in_order; lia).
    assert (E1 : forall a, (a < n)%nat -> u1 a (side e m) = w a (side e m) - k).
    { intros a A. destruct (Nat.eq_dec a i) as [->|Na]; [apply P1, side_lt; lia|]. rewrite O by exact Na. apply E; exact A. }
    intros a b [<-|A] B.
    + assert (Keep : forall l' v, ~ In (known d i) l' -> fold_left (fun u i => fold_left (fun u j => put u i j ((ax d u i j + ay e u i j) / 2)) (order e m) u) l' v (known d i) b = v (known d i) b).
      { induction l' as [|c l' IHl]; intros v Nl; [reflexivity|]. cbn [fold_left]. rewrite IHl by (intro; apply Nl; now right).
        assert (Row : forall q z, fold_left (fun u j => put u c j ((ax d u c j + ay e u c j) / 2)) q z (known d i) b = z (known d i) b).
        { induction q as [|j q IHq]; intro z; [reflexivity|]. cbn [fold_left]. rewrite IHq. apply put_other. left. intro X. apply Nl. left. now symmetry. }
        apply Row. }
      rewrite Keep by (intro A; apply Ni; now right). rewrite O by (intro X; apply Ni; left; now symmetry). apply P; exact B.
    + apply (IH i u1 Ch Nd' (fun a A => Or a (or_intror A)) P1 E1); assumption.
Qed.
Lemma sweep_ok d e i j : (i < n)%nat -> (j < m)%nat -> sweep n m dx dy du_dx du_dy d e i j = w i j - border_mean.
Proof.
  intros I J. unfold sweep. apply (outer_fold d e border_mean (order d n) (side d n)).
  - apply chain_order; lia.
  - apply order_nodup; lia.
  - auto.
  - intros b B. apply frame_ok; [apply side_lt; lia|exact B|]. unfold border. cbn [fst snd]. destruct d; cbn [side]; rewrite ?Nat.eqb_refl, ?orb_true_r; reflexivity.
  - intros a A. apply frame_ok; [exact A|apply side_lt; lia|]. unfold border. cbn [fst snd]. destruct e; cbn [side]; rewrite ?Nat.eqb_refl, ?orb_true_r; reflexivity.
  - apply in_order; lia.
  - exact J.
Qed.
Lemma corner_mean_ext u v : (forall i j, (i < n)%nat -> (j < m)%nat -> u i j = v i j) -> corner_mean n m u = corner_mean n m v.
Proof.
  intro H. unfold corner_mean. f_equal. rewrite !flat_map_concat_map. f_equal. apply map_ext_in. intros c C. apply map_ext_in. intros j J. apply in_seq in J.
  apply H; [|lia]. unfold corner. destruct (_ && _); lia.
Qed.
Lemma weights_positive i j : (i < n)%nat -> (j < m)%nat -> 0 < weight1 n m i j + weight2 n i j + weight3 m i j + weight4 i j.
Proof.
  intros I J. unfold weight1, weight2, weight3, weight4, back. pose proof (pos_INR i). pose proof (pos_INR j). pose proof (pos_INR (n - 1 - i)). pose proof (pos_INR (m - 1 - j)).
  destruct (Nat.eq_dec i 0) as [->|Hi].
  - assert (1 <= INR (n - 1 - 0)) by (apply (le_INR 1); lia). cbn [INR] in *. lra.
  - assert (1 <= INR i) by (apply (le_INR 1); lia). lra.
Qed.
Lemma merged_ok : exists k, forall i j, (i < n)%nat -> (j < m)%nat -> merged n m dx dy du_dx du_dy i j = w i j - k.
Proof.
  set (v := fun i j => w i j - border_mean). exists (border_mean + corner_mean n m v). intros i j I J. unfold merged, normalized, shift.
  assert (E : forall d e, corner_mean n m (sweep n m dx dy du_dx du_dy d e) = corner_mean n m v) by (intros; apply corner_mean_ext; intros; apply sweep_ok; assumption). rewrite !E. rewrite !sweep_ok by assumption. pose proof (weights_positive i j I J). field. lra.
Qed.
End Rec.

Lemma relative_ok n m fact u w k : (2 <= n)%nat -> (2 <= m)%nat -> (forall i j, (i < n)%nat -> (j < m)%nat -> u i j = w i j - k) ->
  forall i j, (i < n)%nat -> (j < m)%nat -> relative n m fact u i j = fact * (w i j - mean_of n m w).
Proof.
  intros N M H i j I J. unfold relative, shift. rewrite H by assumption.
  rewrite (map_ext_in _ (fun p => w (fst p) (snd p) * fact - k * fact)) by (intros c C; apply cells_in in C as [A B]; rewrite H by assumption; ring).
  rewrite mean_shift by (apply cells_some; lia). unfold mean_of, mean. rewrite !map_length.
  assert (E : sum (map (fun p => w (fst p) (snd p) * fact) (cells n m)) = fact * sum (map (fun p => w (fst p) (snd p)) (cells n m))).
  { generalize (cells n m). induction l as [|c l IH]; cbn [map sum]; [ring|]. rewrite IH. ring. }
  rewrite E. assert (INR (length (cells n m)) <> 0) by (apply not_0_INR; pose proof (cells_some n m ltac:(lia) ltac:(lia)); destruct (cells n m); [contradiction|discriminate]). field. assumption.
Qed.
Lemma relative_mean n m fact u : (0 < n)%nat -> (0 < m)%nat -> mean_of n m (relative n m fact u) = 0.
Proof.
  intros N M. unfold mean_of, relative, shift. rewrite (mean_shift (fun p => u (fst p) (snd p) * fact)) by (apply cells_some; assumption).
  ring.
Qed.
Lemma reconstruct_exact solver axe_x axe_y gx gy w fact k a h a' h' : (2 <= length axe_x)%nat -> (2 <= length axe_y)%nat -> evenly a h axe_x -> evenly a' h' axe_y ->
  trapezoids (length axe_x) (length axe_y) h h' gx gy w ->
  exists u, reconstruct solver axe_x axe_y gx gy fact false k = Ok u /\
    forall i j, (i < length axe_x)%nat -> (j < length axe_y)%nat -> u i j = fact * (w i j - mean_of (length axe_x) (length axe_y) w).
Proof.
  intros N M X Y T. unfold reconstruct. destruct axe_x as [|x0 [|x1 lx]]; try (cbn in N; lia). destruct axe_y as [|y0 [|y1 ly]]; try (cbn in M; lia).
  assert (Hx : x1 - x0 = h). { pose proof (X 0%nat ltac:(cbn; lia)) as A. pose proof (X 1%nat ltac:(cbn; lia)) as B. cbn in A, B. lra. }
  assert (Hy : y1 - y0 = h'). { pose proof (Y 0%nat ltac:(cbn; lia)) as A. pose proof (Y 1%nat ltac:(cbn; lia)) as B. cbn in A, B. lra. }
  rewrite Hx, Hy. eexists. split; [reflexivity|]. destruct (merged_ok _ _ _ _ _ _ _ N M T) as (c & C). apply (relative_ok _ _ _ _ _ c N M C).
Qed.
Lemma poly_trapezoids p axe_x axe_y a h a' h' : evenly a h axe_x -> evenly a' h' axe_y ->
  trapezoids (length axe_x) (length axe_y) h h' (sampled (eval_dx p) axe_x axe_y) (sampled (eval_dy p) axe_x axe_y) (sampled (eval p) axe_x axe_y).
Proof.
  intros X Y. split; intros i j I J; unfold sampled, eval, eval_dx, eval_dy; rewrite !X, !Y by lia; rewrite ?S_INR; field.
Qed.
