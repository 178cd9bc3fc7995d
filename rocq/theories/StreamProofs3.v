From Coq Require Import Reals List Bool ZArith Lia Lra.
From Verif Require Import Res StreamModel StreamSpec StreamProofs StreamProofs2.
Import ListNotations.
#[local] Open Scope R_scope.

Section Fast.
Variable e : extent.
Variable vel : pt -> R * R.
Variable delta : R.
Variable longmax : nat.
Variable reverse : bool.
Notation fast := (fast_line e vel delta longmax reverse).

Lemma Rltb_true a b : Rltb a b = true <-> a < b.
Proof. unfold Rltb. destruct (Rlt_dec a b); split; intro H; try reflexivity; try discriminate H; try assumption; contradiction. Qed.
Lemma nth_pt_firstn n s j : (j < n)%nat -> nth_pt (firstn n s) j = nth_pt s j.
Proof.
  unfold nth_pt. revert n j. induction s as [|a s IH]; intros n j H; [rewrite firstn_nil; reflexivity|]. destruct n as [|n]; [lia|]. destruct j as [|j]; [reflexivity|]. cbn. apply IH. lia.
Qed.
Lemma back_test s : s <> [] ->
  (Nat.ltb 15 (length s) && existsb (fun q => Rltb ((fst q - fst (nth_pt s (length s - 1))) ^ 2 + (snd q - snd (nth_pt s (length s - 1))) ^ 2) (delta ^ 2 / 2)) (firstn (length s - 10) s)) = true
  <-> back delta s (length s - 1).
Proof.
  intro N. unfold back. rewrite andb_true_iff, Nat.ltb_lt, existsb_exists. split.
  - intros [L (q & I & H)]. split; [lia|]. apply Rltb_true in H. apply (In_nth _ _ (0, 0)) in I as (j & J & E). rewrite firstn_length_le in J by lia.
    exists j. split; [lia|]. change (nth_pt (firstn (length s - 10) s) j = q) in E. rewrite nth_pt_firstn in E by lia. rewrite E. exact H.
  - intros [L (j & J & H)]. split; [lia|]. exists (nth_pt s j). split; [|apply Rltb_true; exact H].
    rewrite <- (nth_pt_firstn (length s - 10)) by lia. apply nth_In. rewrite firstn_length_le by lia. lia.
Qed.
Lemma back_app s q i : (i < length s)%nat -> back delta (s ++ [q]) i <-> back delta s i.
Proof.
  intro L. unfold back. split; intros [A (j & J & H)]; (split; [exact A|]); exists j; (split; [exact J|]); rewrite !nth_pt_app in * by lia; exact H.
Qed.
Lemma fast_not_back f s : s <> [] -> (forall i, (S i < length s)%nat -> ~ back delta s i) -> forall i, (S i < length (fast f s))%nat -> ~ back delta (fast f s) i.
Proof.
  revert s. induction f as [|f IH]; intros s N B; [exact B|]. cbn [fast_line]. cbv zeta.
  destruct (Reqb _ 0 && Reqb _ 0); [exact B|]. destruct (Nat.leb _ _); [exact B|].
  match goal with |- context [if ?b then s else _] => destruct b eqn:T end; [exact B|].
  assert (K : ~ back delta s (length s - 1)) by (intro K; apply (proj2 (back_test s N)) in K; congruence).
  match goal with |- context [s ++ [?q]] => set (x := q) end.
  assert (B' : forall i, (S i < length (s ++ [x]))%nat -> ~ back delta (s ++ [x]) i).
  { intros i L. rewrite app_length in L. cbn [length] in L. rewrite back_app by lia. destruct (Nat.eq_dec i (length s - 1)) as [->|Q]; [exact K|apply B; lia]. }
  destruct (is_outside e x); [exact B'|]. apply IH; [destruct s; discriminate|exact B'].
Qed.
(** what stops a line *)
Lemma fast_end f s : s <> [] -> (1 <= longmax)%nat -> (longmax - length s <= f)%nat ->
  let r := fast f s in let z := nth_pt r (length r - 1) in
  vel z = (0, 0) \/ (longmax - 1 <= length r)%nat \/ back delta r (length r - 1) \/ ~ inside e z.
Proof.
  cbv zeta. revert s. induction f as [|f IH]; intros s N K L; [right; left; cbn [fast_line]; lia|]. cbn [fast_line]. cbv zeta.
  destruct (Reqb (fst (vel (nth_pt s (length s - 1)))) 0 && Reqb (snd (vel (nth_pt s (length s - 1)))) 0) eqn:Z.
  { left. apply andb_true_iff in Z as [Z1 Z2]. unfold Reqb in Z1, Z2. destruct (Req_EM_T _ 0) as [E1|]; [|discriminate Z1]. destruct (Req_EM_T (snd _) 0) as [E2|]; [|discriminate Z2].
    destruct (vel _) as [a b]. cbn in *. congruence. }
  destruct (Nat.leb_spec (longmax - 1) (length s)) as [Q|Q]; [right; left; exact Q|].
  match goal with |- context [if ?b then s else _] => destruct b eqn:T end; [right; right; left; apply back_test; assumption|].
  match goal with |- context [s ++ [?q]] => set (x := q) end.
  assert (G : nth_pt (s ++ [x]) (length (s ++ [x]) - 1) = x).
  { rewrite app_length. cbn [length]. replace (length s + 1 - 1)%nat with (length s) by lia. unfold nth_pt. rewrite app_nth2 by lia. rewrite Nat.sub_diag. reflexivity. }
  destruct (is_outside e x) eqn:O.
  { right. right. right. rewrite G. intro I. apply outside_inside in I. congruence. }
  apply IH; [destruct s; discriminate|exact K|rewrite app_length; cbn [length]; lia].
Qed.
End Fast.
