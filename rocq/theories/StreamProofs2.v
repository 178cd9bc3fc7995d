From Coq Require Import Reals List Bool ZArith Lia Lra.
From Verif Require Import Res StreamModel StreamSpec StreamProofs.
Import ListNotations.
#[local] Open Scope R_scope.

Lemma chain_snoc {A} (P : A -> A -> Prop) l x d : l <> [] -> chain P l -> P (nth (length l - 1) l d) x -> chain P (l ++ [x]).
Proof.
  induction l as [|a [|b r] IH]; intros N C H; [contradiction N; reflexivity|cbn in *; auto|].
  cbn [app chain] in *. destruct C as [C1 C2]. split; [exact C1|]. apply IH; [discriminate|exact C2|].
  replace (length (a :: b :: r) - 1)%nat with (S (length (b :: r) - 1)) in H by (cbn; lia). exact H.
Qed.
Lemma norm_pos v : v <> (0, 0) -> 0 < norm v.
Proof.
  intro H. unfold norm. apply sqrt_lt_R0. destruct v as [a b]. cbn [fst snd]. pose proof (pow2_ge_0 a). pose proof (pow2_ge_0 b).
  destruct (Req_dec a 0) as [->|A]; [destruct (Req_dec b 0) as [->|B]; [contradiction H; reflexivity|]|]; [assert (0 < b ^ 2) by nra; lra|assert (0 < a ^ 2) by nra; lra].
Qed.
Lemma norm_sq v : norm v ^ 2 = fst v ^ 2 + snd v ^ 2.
Proof. unfold norm. rewrite <- Rsqr_pow2. apply Rsqr_sqrt. pose proof (pow2_ge_0 (fst v)). pose proof (pow2_ge_0 (snd v)). lra. Qed.

Section Fast.
Variable e : extent.
Variable vel : pt -> R * R.
Variable delta : R.
Variable longmax : nat.
Variable reverse : bool.
Notation fast := (fast_line e vel delta longmax reverse).
Definition euler (p q : pt) : Prop :=
  vel p <> (0, 0) /\ let n := if reverse then - norm (vel p) else norm (vel p) in q = (fst p + fst (vel p) / n * delta, snd p + snd (vel p) / n * delta).
Definition fine (s : list pt) : Prop := s <> [] /\ chain euler s /\ (forall i, (S i < length s)%nat -> inside e (nth_pt s i)).

Lemma nth_pt_app s q i : (i < length s)%nat -> nth_pt (s ++ [q]) i = nth_pt s i.
Proof. intro H. unfold nth_pt. apply app_nth1. exact H. Qed.
Lemma fast_fine f s : fine s -> inside e (nth_pt s (length s - 1)) -> fine (fast f s).
Proof.
  revert s. induction f as [|f IH]; intros s F I; [exact F|]. cbn [fast_line]. 
  set (p := nth_pt s (length s - 1)) in *. destruct (Reqb (fst (vel p)) 0 && Reqb (snd (vel p)) 0) eqn:Z; [exact F|].
  destruct (Nat.leb (longmax - 1) (length s)); [exact F|]. destruct (_ && existsb _ _); [exact F|].
  set (n := if reverse then - norm (vel p) else norm (vel p)). set (q := (fst p + fst (vel p) / n * delta, snd p + snd (vel p) / n * delta)).
  assert (F' : fine (s ++ [q])).
  { destruct F as (N & C & A). split; [destruct s; discriminate|]. split.
    - apply (chain_snoc euler s q (0, 0) N C). split; [|reflexivity]. fold (nth_pt s (length s - 1)). fold p. intro V. rewrite V in Z. unfold Reqb in Z. cbn in Z. destruct (Req_EM_T 0 0) as [_|X]; [discriminate Z|apply X; reflexivity].
    - intros i L. rewrite app_length in L. cbn in L. rewrite nth_pt_app by lia. destruct (Nat.eq_dec i (length s - 1)) as [->|Q]; [exact I|apply A; lia]. }
  destruct (is_outside e q) eqn:O; [exact F'|]. apply IH; [exact F'|]. rewrite app_length. cbn. replace (length s + 1 - 1)%nat with (length s) by lia.
  unfold nth_pt. rewrite app_nth2 by lia. rewrite Nat.sub_diag. apply outside_inside in O. exact O.
Qed.
Lemma fast_len f s : s <> [] -> (length s <= Nat.max 1 (longmax - 1))%nat -> (length (fast f s) <= Nat.max 1 (longmax - 1))%nat.
Proof.
  revert s. induction f as [|f IH]; intros s N L; [exact L|]. cbn [fast_line].
  destruct (Reqb _ 0 && Reqb _ 0); [exact L|]. destruct (Nat.leb_spec (longmax - 1) (length s)) as [Q|Q]; [exact L|]. destruct (_ && existsb _ _); [exact L|].
  match goal with |- context [s ++ [?q]] => set (x := q) end.
  assert (L' : (length (s ++ [x]) <= Nat.max 1 (longmax - 1))%nat) by (rewrite app_length; cbn [length]; lia).
  destruct (is_outside e x); [exact L'|]. apply IH; [destruct s; discriminate|exact L'].
Qed.
Lemma fast_hd f s d : s <> [] -> hd d (fast f s) = hd d s.
Proof.
  revert s. induction f as [|f IH]; intros s N; [reflexivity|]. cbn [fast_line].
  destruct (Reqb _ 0 && Reqb _ 0); [reflexivity|]. destruct (Nat.leb _ _); [reflexivity|]. destruct (_ && existsb _ _); [reflexivity|].
  match goal with |- context [s ++ [?q]] => set (x := q) end. assert (H : hd d (s ++ [x]) = hd d s) by (destruct s; [contradiction N; reflexivity|reflexivity]).
  destruct (is_outside e x); [exact H|]. rewrite IH; [exact H|destruct s; discriminate].
Qed.
(** the bound on the loop is never reached *)
Lemma fast_fuel f g s : s <> [] -> (longmax - length s <= f)%nat -> (longmax - length s <= g)%nat -> (1 <= longmax)%nat -> fast f s = fast g s.
Proof.
  revert g s. induction f as [|f IH]; intros g s N F G K.
  - destruct g as [|g]; [reflexivity|]. cbn [fast_line]. destruct (Reqb _ 0 && Reqb _ 0); [reflexivity|].
    destruct (Nat.leb_spec (longmax - 1) (length s)) as [Q|Q]; [reflexivity|lia].
  - destruct g as [|g].
    + cbn [fast_line]. destruct (Reqb _ 0 && Reqb _ 0); [reflexivity|]. destruct (Nat.leb_spec (longmax - 1) (length s)) as [Q|Q]; [reflexivity|lia].
    + cbn [fast_line]. destruct (Reqb _ 0 && Reqb _ 0); [reflexivity|]. destruct (Nat.leb_spec (longmax - 1) (length s)) as [Q|Q]; [reflexivity|]. destruct (_ && existsb _ _); [reflexivity|].
      match goal with |- context [s ++ [?q]] => set (x := q) end. destruct (is_outside e x); [reflexivity|].
      apply IH; [destruct s; discriminate|rewrite app_length; cbn; lia|rewrite app_length; cbn; lia|exact K].
Qed.
Lemma euler_step p q : 0 < delta -> euler p q -> dist p q = delta /\ same_way (if reverse then opposite (vel p) else vel p) (fst q - fst p, snd q - snd p).
Proof.
  intros D [N ->]. pose proof (norm_pos _ N) as Q. pose proof (norm_sq (vel p)) as S. cbn [fst snd]. set (v := vel p) in *. set (m := norm v) in *.
  assert (E : (fst v / m) ^ 2 + (snd v / m) ^ 2 = 1).
  { replace ((fst v / m) ^ 2 + (snd v / m) ^ 2) with ((fst v ^ 2 + snd v ^ 2) / m ^ 2) by (field; lra). rewrite <- S. field. lra. }
  split.
  - unfold dist. cbn [fst snd].
    assert (Y : forall n, n = m \/ n = - m -> sqrt ((fst p + fst v / n * delta - fst p) ^ 2 + (snd p + snd v / n * delta - snd p) ^ 2) = delta).
    { intros n Hn. replace ((fst p + fst v / n * delta - fst p) ^ 2 + (snd p + snd v / n * delta - snd p) ^ 2) with (((fst v / m) ^ 2 + (snd v / m) ^ 2) * delta ^ 2)
        by (destruct Hn as [-> | ->]; field; lra).
      rewrite E, Rmult_1_l. replace (delta ^ 2) with (delta * delta) by ring. apply sqrt_square. lra. }
    apply Y. destruct reverse; auto.
  - exists (delta / m). split; [apply Rdiv_lt_0_compat; lra|]. unfold opposite. destruct reverse; cbn [fst snd]; split; field; lra.
Qed.
Lemma chain_weaken {A} (P Q : A -> A -> Prop) l : (forall a b, P a b -> Q a b) -> chain P l -> chain Q l.
Proof. intro H. induction l as [|a [|b r] IH]; cbn; intuition auto. Qed.

Lemma fast_spec p : 0 < delta -> inside e p -> let s := fast longmax [p] in
  nth_error s 0 = Some p /\ (1 <= length s <= Nat.max 1 (longmax - 1))%nat /\
  (forall i q, nth_error s i = Some q -> (S i < length s)%nat -> inside e q) /\
  chain (fun a b => dist a b = delta /\ same_way (if reverse then opposite (vel a) else vel a) (fst b - fst a, snd b - snd a)) s.
Proof.
  intros D I s.
  assert (F : fine s) by (apply fast_fine; [split; [discriminate|split; [exact Logic.I|cbn; intros; lia]]|exact I]).
  destruct F as (N & C & A). pose proof (fast_hd longmax [p] (0, 0) ltac:(discriminate)) as H. fold s in H. cbn in H.
  pose proof (fast_len longmax [p] ltac:(discriminate) ltac:(cbn [length]; lia)) as L. fold s in L.
  split; [destruct s; [contradiction N; reflexivity|cbn in *; congruence]|]. split; [destruct s; [contradiction N; reflexivity|cbn [length] in *; lia]|].
  split.
  - intros i q E K. apply A in K. unfold nth_pt in K. rewrite (nth_error_nth s i (0, 0) E) in K. exact K.
  - apply (chain_weaken euler); [|exact C]. intros a b. apply euler_step. exact D.
Qed.
Lemma fast_bound p f : (1 <= longmax)%nat -> (longmax <= f)%nat -> fast f [p] = fast longmax [p].
Proof. intros K F. apply fast_fuel; [discriminate|cbn; lia|cbn; lia|exact K]. Qed.
Lemma fast_seeds xy : fast_streamlines e vel delta longmax reverse xy = None <-> (forall p, In p xy -> ~ inside e p).
Proof.
  unfold fast_streamlines. split.
  - intros H p I N. apply outside_inside in N. assert (J : In p (filter (fun p => negb (is_outside e p)) xy)) by (apply filter_In; rewrite N; auto).
    destruct (filter _ xy); [contradiction J|discriminate H].
  - intro H. assert (filter (fun p => negb (is_outside e p)) xy = []) as ->; [|reflexivity].
    induction xy as [|p l IH]; [reflexivity|]. cbn. destruct (is_outside e p) eqn:O; cbn; [apply IH; intros; apply H; right; assumption|].
    exfalso. apply (H p); [left; reflexivity|]. apply outside_inside. exact O.
Qed.
End Fast.

Lemma norm_opposite v : norm (opposite v) = norm v.
Proof. unfold norm, opposite. cbn. f_equal. ring. Qed.
Lemma Reqb_opp a : Reqb (- a) 0 = Reqb a 0.
Proof. unfold Reqb. destruct (Req_EM_T (- a) 0), (Req_EM_T a 0); auto; exfalso; lra. Qed.
Lemma fast_reverse e vel delta longmax f s : fast_line e vel delta longmax true f s = fast_line e (fun p => opposite (vel p)) delta longmax false f s.
Proof.
  revert s. induction f as [|f IH]; intro s; [reflexivity|]. cbn [fast_line]. cbv zeta.
  set (p := nth_pt s (length s - 1)). change (fst (opposite (vel p))) with (- fst (vel p)). change (snd (opposite (vel p))) with (- snd (vel p)). rewrite !Reqb_opp, norm_opposite.
  destruct (Reqb (fst (vel p)) 0 && Reqb (snd (vel p)) 0) eqn:Z; [reflexivity|]. destruct (Nat.leb _ _); [reflexivity|]. destruct (_ && existsb _ _); [reflexivity|].
  assert (N : norm (vel p) <> 0).
  { apply Rgt_not_eq. apply norm_pos. intro V. rewrite V in Z. unfold Reqb in Z. cbn in Z. destruct (Req_EM_T 0 0) as [_|X]; [discriminate Z|apply X; reflexivity]. }
  replace (fst p + - fst (vel p) / norm (vel p) * delta) with (fst p + fst (vel p) / - norm (vel p) * delta) by (field; exact N).
  replace (snd p + - snd (vel p) / norm (vel p) * delta) with (snd p + snd (vel p) / - norm (vel p) * delta) by (field; exact N).
  destruct (is_outside e _); [reflexivity|apply IH].
Qed.
