(** * StabProofs: transforms, trajectories and tracked points *)
From Coq Require Import Reals List Bool ZArith Lia Lra.
From Verif Require Import Res FtleModel FtleProofs4 StabModel StabSpec.
Import ListNotations.
#[local] Open Scope R_scope.

Ltac mot := unfold madd, msub, still; cbn [mx my ma]; f_equal; ring.
Lemma madd_still t : madd still t = t. Proof. destruct t. mot. Qed.
Lemma madd_still_r t : madd t still = t. Proof. destruct t. mot. Qed.
Lemma madd_assoc a b c : madd (madd a b) c = madd a (madd b c). Proof. mot. Qed.
Lemma madd_comm a b : madd a b = madd b a. Proof. mot. Qed.

Lemma cumsum_length l : forall a, length (cumsum a l) = length l.
Proof. induction l as [|t l IH]; intro a; [reflexivity|]. cbn. now rewrite IH. Qed.
Lemma steps_length l : forall a, length (steps a l) = length l.
Proof. induction l as [|t l IH]; intro a; [reflexivity|]. cbn. now rewrite IH. Qed.
Lemma cumsum_nth l : forall a k, (k < length l)%nat -> nth k (cumsum a l) still = madd a (total (firstn (S k) l)).
Proof.
  induction l as [|t l IH]; intros a k K; [cbn in K; lia|]. destruct k as [|k].
  - cbn. now rewrite madd_still_r.
  - cbn [cumsum nth]. rewrite IH by (cbn in K; lia). change (firstn (S (S k)) (t :: l)) with (t :: firstn (S k) l). cbn [total]. apply madd_assoc.
Qed.
(** the trajectory is the cumulated sum of the transforms in the mode from_first too *)
Lemma cumsum_steps l : forall a, cumsum a (steps a l) = l.
Proof.
  induction l as [|t l IH]; intro a; [reflexivity|]. cbn. assert (E : madd a (msub t a) = t) by (destruct t; mot). rewrite E, IH. reflexivity.
Qed.

Section S.
Variable found : frame -> nat.
Variable estimate : frame -> frame -> option motion.

(** the transforms of the two modes *)
Fixpoint between (prev : frame) (l : list frame) : list motion :=
  match l with [] => [] | cur :: l' => motion_between estimate prev cur :: between cur l' end.
Definition from_first (first : frame) (l : list frame) : list motion := map (motion_between estimate first) l.

Lemma estimates_continuous l : forall prev n n' ts, estimates found estimate Continuous prev l n = (n', Ok ts) -> ts = between prev l /\ n' = (n + length l)%nat.
Proof.
  induction l as [|c l IH]; intros prev n n' ts E; cbn in E.
  - injection E as <- <-. split; [reflexivity|cbn; lia].
  - destruct (Nat.eqb (found prev) 0); [discriminate E|]. destruct (estimates found estimate Continuous c l (S n)) as [m [us|e]] eqn:E'; [|discriminate E].
    injection E as <- <-. destruct (IH _ _ _ _ E') as [-> ->]. split; [reflexivity|]. cbn [length]. lia.
Qed.
Lemma estimates_first md l : md <> Continuous -> forall prev n n' ts, estimates found estimate md prev l n = (n', Ok ts) -> ts = from_first prev l /\ n' = (n + length l)%nat.
Proof.
  intros M. induction l as [|c l IH]; intros prev n n' ts E; cbn in E.
  - injection E as <- <-. split; [reflexivity|cbn; lia].
  - destruct (Nat.eqb (found prev) 0); [discriminate E|].
    replace (match md with Continuous => c | _ => prev end) with prev in E by (destruct md; congruence).
    destruct (estimates found estimate md prev l (S n)) as [m [us|e]] eqn:E'; [|discriminate E].
    injection E as <- <-. destruct (IH _ _ _ _ E') as [-> ->]. split; [reflexivity|]. cbn [length]. lia.
Qed.
Lemma between_length l : forall p, length (between p l) = length l.
Proof. induction l as [|c l IH]; intro p; [reflexivity|]. cbn. now rewrite IH. Qed.
Lemma between_nth l : forall p k d, (k < length l)%nat -> nth k (between p l) still = motion_between estimate (nth k (p :: l) d) (nth (S k) (p :: l) d).
Proof.
  induction l as [|c l IH]; intros p k d K; [cbn in K; lia|]. destruct k as [|k]; [reflexivity|].
  cbn [between nth]. rewrite (IH c k d) by (cbn in K; lia). reflexivity.
Qed.
Lemma from_first_nth p l k d : (k < length l)%nat -> nth k (from_first p l) still = motion_between estimate p (nth k l d).
Proof.
  intro K. unfold from_first. rewrite (nth_indep _ still (motion_between estimate p d)) by (rewrite map_length; exact K). apply map_nth.
Qed.
End S.

(** ** rigid motions *)
Lemma next_point_moved t p : next_point t p = moved t p.
Proof. destruct p as [x y]. unfold next_point, apply_matrix, matrix_of, moved. cbn [m00 m01 m02 m10 m11 m12 fst snd]. f_equal; ring. Qed.
Lemma moved_distance t p q : distance (moved t p) (moved t q) = distance p q.
Proof.
  destruct p as [x y], q as [u v]. unfold distance, moved. cbn [fst snd]. f_equal.
  pose proof (sin2_cos2 (ma t)) as E. unfold Rsqr in E. set (c := cos (ma t)) in *. set (s := sin (ma t)) in *.
  transitivity ((s * s + c * c) * ((x - u) ^ 2 + (y - v) ^ 2)); [ring|]. rewrite E. ring.
Qed.
Lemma track_length l : forall p, length (track p l) = S (length l).
Proof. induction l as [|t l IH]; intro p; [reflexivity|]. cbn. now rewrite IH. Qed.
Lemma track_first l p : nth 0 (track p l) (0, 0) = p.
Proof. now destruct l. Qed.
Lemma track_next l : forall p k, (k < length l)%nat -> nth (S k) (track p l) (0, 0) = moved (nth k l still) (nth k (track p l) (0, 0)).
Proof.
  induction l as [|t l IH]; intros p k K; [cbn in K; lia|]. destruct k as [|k].
  - cbn [track nth]. rewrite track_first. apply next_point_moved.
  - change (nth (S k) (track (next_point t p) l) (0, 0) = moved (nth k l still) (nth k (track (next_point t p) l) (0, 0))). apply IH. cbn in K. lia.
Qed.
Lemma track_distance l : forall p q k, (k <= length l)%nat -> distance (nth k (track p l) (0, 0)) (nth k (track q l) (0, 0)) = distance p q.
Proof.
  intros p q k. induction k as [|k IH]; intro K; [now rewrite !track_first|].
  rewrite !track_next by lia. rewrite moved_distance. apply IH. lia.
Qed.
Definition no_rotation (t : motion) : Prop := ma t = 0.
Lemma moved_translation t p : no_rotation t -> moved t p = (fst p + my t, snd p + mx t).
Proof. intro Z. destruct p as [x y]. unfold moved. rewrite Z, sin_0, cos_0. cbn [fst snd]. f_equal; ring. Qed.
Lemma total_snoc l t : total (l ++ [t]) = madd (total l) t.
Proof. induction l as [|u l IH]; cbn; [rewrite madd_still, madd_still_r; reflexivity|]. rewrite IH. symmetry. apply madd_assoc. Qed.
Lemma firstn_snoc {A} (l : list A) d : forall k, (k < length l)%nat -> firstn (S k) l = firstn k l ++ [nth k l d].
Proof. induction l as [|a l IH]; intros k K; [cbn in K; lia|]. destruct k; [reflexivity|]. cbn [firstn app nth] in *. rewrite (IH k) by (cbn in K; lia). reflexivity. Qed.
Lemma track_translation l : Forall no_rotation l -> forall p k, (k <= length l)%nat ->
  nth k (track p l) (0, 0) = (fst p + my (total (firstn k l)), snd p + mx (total (firstn k l))).
Proof.
  intros F p k. induction k as [|k IH]; intro K.
  - rewrite track_first. destruct p. cbn. f_equal; ring.
  - rewrite track_next by lia. rewrite moved_translation by (rewrite Forall_forall in F; apply F, nth_In; lia). rewrite IH by lia.
    rewrite (firstn_snoc l still) by lia. rewrite total_snoc. cbn [fst snd madd mx my]. f_equal; ring.
Qed.
