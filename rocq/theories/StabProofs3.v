(** * StabProofs3: the frames of the stabilised video *)
From Coq Require Import Reals List Bool ZArith Lia Lra.
From Verif Require Import Res FtleModel FtleProofs4 StabModel StabSpec StabProofs StabProofs2.
Import ListNotations.
#[local] Open Scope R_scope.

Section S.
Variable found : frame -> nat.
Variable estimate : frame -> frame -> option motion.
Variable smooth : list R -> list R.
Variable pad : border -> nat -> frame -> frame.
Variable warp : border -> matrix -> nat -> nat -> frame -> frame.
Variable md : mode.
Variable obj : video.
Notation compute := (compute_transform found estimate md obj).
Notation smoothing := (smooth_transform smooth).
Notation applying := (apply_transform pad warp obj).
Notation get := (get_stabilized_obj found estimate smooth pad warp md obj).
Notation raw_ := (the_raw estimate md obj).
Notation smooth_ := (the_smooth estimate smooth md obj).

Lemma shift_matrix_of t c r : ma t = 0 -> mx t = IZR c -> my t = IZR r -> matrix_of t = shift_matrix c r.
Proof. intros A X Y. unfold matrix_of, shift_matrix. rewrite A, X, Y, cos_0, sin_0. f_equal. ring. Qed.
Lemma transformed_size bt b t f : warps warp -> known bt -> rows (transformed pad warp obj bt b t f) = (length (axe_x obj) + 2 * b)%nat /\ cols (transformed pad warp obj bt b t f) = (length (axe_y obj) + 2 * b)%nat.
Proof.
  intros W B. unfold transformed, crop. cbn [rows cols]. match goal with |- context [warp ?a ?m ?n ?p ?g] => destruct (W a m n p g B) as (-> & -> & _) end. lia.
Qed.
Lemma transformed_seen bt b t f c r : pads pad -> warps warp -> known bt -> rows f = length (axe_x obj) -> cols f = length (axe_y obj) ->
  ma t = 0 -> mx t = IZR c -> my t = IZR r -> seen_at f (transformed pad warp obj bt b t f) (r + Z.of_nat b) (c + Z.of_nat b).
Proof.
  intros P W B Rf Cf A X Y i j i' j' I J I' J' Ei Ej. destruct (transformed_size bt b t f W B) as [Sr Sc]. rewrite Sr in I'. rewrite Sc in J'.
  unfold transformed, crop. cbn [pix]. destruct (P bt (2 * b)%nat f B) as (Pr & Pc & Pp).
  match goal with |- pix (warp ?a ?m ?n ?p ?g) _ _ = _ => destruct (W a m n p g B) as (_ & _ & Wp) end.
  rewrite (Wp c r (i + 2 * b)%nat (j + 2 * b)%nat); [apply Pp; assumption|apply shift_matrix_of; assumption| | | | | |]; rewrite ?Pr, ?Pc; lia.
Qed.
(** ** when the calls succeed *)
Lemma estimates_found l : forall prev n, (forall f, In f (prev :: l) -> found f <> 0%nat) -> exists n', estimates found estimate md prev l n = (n', Ok (match md with Continuous => between estimate prev l | _ => from_first estimate prev l end)).
Proof.
  intros prev n H. assert (K : exists n' ts, estimates found estimate md prev l n = (n', Ok ts)).
  { revert prev n H. induction l as [|c l IH]; intros prev n H; [cbn; eauto|]. cbn. rewrite (proj2 (Nat.eqb_neq _ _) (H prev (or_introl eq_refl))).
    destruct (IH (match md with Continuous => c | _ => prev end) (S n)) as (n' & ts & ->); [|eauto].
    intros f [<-|Hf]; [destruct md; apply H; cbn; auto|apply H; cbn; auto]. }
  destruct K as (n' & ts & K). exists n'. rewrite K. do 2 f_equal. destruct (estimates_count found estimate md l prev n) as [E|[e E]]; rewrite K in E; cbn in E; congruence.
Qed.
Hypothesis Nf : (2 <= length (frames obj))%nat.
Hypothesis Fd : forall f, In f (frames obj) -> found f <> 0%nat.
Hypothesis Md : md <> OtherMode.
Lemma compute_works s : exists n, compute false s = (mkstate n (Some raw_) (smoothed s) (stabilized s), Ok tt).
Proof.
  unfold compute_transform, the_raw. destruct (frames obj) as [|f l] eqn:E; [cbn in Nf; lia|]. cbn [andb].
  destruct (estimates_found l f (keypoints s) Fd) as (n & ->). exists n. destruct md; [reflexivity| |contradiction]. destruct l; [cbn in Nf; lia|reflexivity].
Qed.
Lemma get_is_apply bt b s : exists t, smoothed t = Some smooth_ /\ snd (get false bt b s) = match applying bt b t with (t', Ok _) => Ok (stabilized t') | (_, Err e) => Err e end.
Proof.
  unfold get_stabilized_obj, then_. destruct (compute_works s) as (n & ->). set (s1 := mkstate _ _ _ _).
  destruct (smoothing s1) as [s2 [[]|e]] eqn:E2.
  - apply (smooth_ok estimate smooth md obj s1 s2 eq_refl) in E2 as (_ & S2 & _). exists s2. split; [exact S2|]. now destruct (applying bt b s2) as [? []].
  - exfalso. revert E2. unfold smooth_transform, s1. cbn [raw]. rewrite (surjective_pairing raw_).
    destruct (frames obj) as [|f l] eqn:E; [cbn in Nf; lia|]. destruct (the_raw_length estimate md obj f l E) as [_ L]. rewrite L. cbn [length] in Nf.
    rewrite (proj2 (Nat.eqb_neq _ _)) by lia. discriminate.
Qed.
Lemma smooth_columns_length l : (forall k, length (smooth k) = length k) -> length (smooth_columns smooth l) = length l.
Proof. clear Nf Fd Md. intro H. unfold smooth_columns. rewrite map_length, !combine_length, !H, !map_length. lia. Qed.
Lemma the_smooth_length : (forall k, length (smooth k) = length k) -> S (length (snd smooth_)) = length (frames obj).
Proof.
  clear Fd Md. intro H. unfold the_smooth. cbn [snd]. rewrite map_length, !combine_length, smooth_columns_length by exact H.
  destruct (frames obj) as [|f l] eqn:E; [cbn in Nf; lia|]. destruct (the_raw_length estimate md obj f l E) as [-> ->]. cbn [length]. lia.
Qed.
(** the result, or ValueError, according to the sizes of the axes *)
Lemma get_sizes bt b s : (forall k, length (smooth k) = length k) -> warps warp -> known bt ->
  snd (get false bt b s) = if Nat.eqb (length (axe_x obj) + 2 * b) (length (new_axe_x obj b)) && Nat.eqb (length (axe_y obj) + 2 * b) (length (new_axe_y obj b))
                           then Ok (Some (shown pad warp obj bt b (snd smooth_))) else Err ValueErr.
Proof.
  intros Sm W B. destruct (get_is_apply bt b s) as (t & St & ->). rewrite (surjective_pairing smooth_) in St.
  assert (L : Nat.ltb (length (still :: snd smooth_)) (length (frames obj)) = false). { apply Nat.ltb_ge. cbn [length]. rewrite the_smooth_length by exact Sm. lia. }
  assert (F : forallb (fits (new_axe_x obj b) (new_axe_y obj b)) (map (fun v => transformed pad warp obj bt b (fst v) (snd v)) (combine (still :: snd smooth_) (frames obj)))
    = Nat.eqb (length (axe_x obj) + 2 * b) (length (new_axe_x obj b)) && Nat.eqb (length (axe_y obj) + 2 * b) (length (new_axe_y obj b))).
  { match goal with |- _ = ?r => set (q := r) end.
    assert (G : forall l, l <> [] -> forallb (fits (new_axe_x obj b) (new_axe_y obj b)) (map (fun v : motion * frame => transformed pad warp obj bt b (fst v) (snd v)) l) = q).
    { intros l. induction l as [|v l IH]; [contradiction|]. intros _. cbn [map forallb]. unfold fits at 1.
      destruct (transformed_size bt b (fst v) (snd v) W B) as [-> ->]. fold q. destruct l as [|w l]; [cbn; apply andb_true_r|]. rewrite IH by discriminate. apply andb_diag. }
    apply G. destruct (frames obj); [cbn in Nf; lia|discriminate]. }
  unfold apply_transform. rewrite St. rewrite F, L. unfold known in B.
  destruct bt; try (now contradiction B); match goal with |- context [if ?c then Ok _ else _] => destruct c end; reflexivity.
Qed.
(** the frame [k] of the result is the frame [k] moved by the transform [k] *)
Lemma shown_nth bt b k d : (forall l, length (smooth l) = length l) -> (k < length (frames obj))%nat ->
  nth k (frames (shown pad warp obj bt b (snd smooth_))) d = transformed pad warp obj bt b (nth k (still :: snd smooth_) still) (nth k (frames obj) d).
Proof.
  intros Sm K. unfold shown. cbn [frames]. set (g := fun v : motion * frame => transformed pad warp obj bt b (fst v) (snd v)).
  rewrite (nth_indep _ d (g (still, d))) by (rewrite map_length, combine_length; cbn [length]; rewrite the_smooth_length by exact Sm; lia).
  rewrite map_nth. rewrite combine_nth by (cbn [length]; apply the_smooth_length; exact Sm). reflexivity.
Qed.
Lemma shown_length bt b : (forall l, length (smooth l) = length l) -> length (frames (shown pad warp obj bt b (snd smooth_))) = length (frames obj).
Proof. intros Sm. unfold shown. cbn [frames]. rewrite map_length, combine_length. cbn [length]. rewrite the_smooth_length by exact Sm. lia. Qed.
Lemma smooth_nth k : (forall l, length (smooth l) = length l) -> (k < length (snd raw_))%nat ->
  nth k (snd smooth_) still = madd (nth k (fst raw_) still) (msub (nth k (fst smooth_) still) (nth k (snd raw_) still)).
Proof.
  clear Nf Fd Md. intros Sm K. unfold the_smooth. cbn [fst snd]. set (g := fun v : motion * (motion * motion) => madd (fst v) (msub (fst (snd v)) (snd (snd v)))).
  assert (L1 : length (smooth_columns smooth (snd raw_)) = length (snd raw_)) by (apply smooth_columns_length; exact Sm).
  assert (L2 : length (fst raw_) = length (snd raw_)) by (rewrite the_raw_cumsum, cumsum_length; reflexivity).
  rewrite (nth_indep _ still (g (still, (still, still)))) by (rewrite map_length, !combine_length; lia).
  rewrite map_nth, combine_nth by (rewrite combine_length; lia). rewrite combine_nth by exact L1. reflexivity.
Qed.
Lemma columns_constant t n : smooths smooth -> smooth_columns smooth (repeat t n) = repeat t n.
Proof.
  intros [_ C]. unfold smooth_columns. assert (M : forall A (h : motion -> A), map h (repeat t n) = repeat (h t) n) by (intros; induction n; cbn; congruence).
  rewrite !M, !C. clear. destruct t as [x y a]. cbn [mx my ma]. induction n; cbn; [reflexivity|]. now rewrite IHn.
Qed.
End S.
