(** * RecoProofs2: the reconstruction is linear *)
From Coq Require Import Reals List Bool Arith Lia Lra.
From Verif Require Import Res RecoModel RecoSpec RecoProofs.
Import ListNotations.
#[local] Open Scope R_scope.

Section Linear.
Variables (p q : R).
Definition lin (a b c : grid) : Prop := forall i j, c i j = p * a i j + q * b i j.
Lemma lin_put a b c i j x y z : lin a b c -> z = p * x + q * y -> lin (put a i j x) (put b i j y) (put c i j z).
Proof. intros L E k l. unfold put. destruct (_ && _); [exact E|apply L]. Qed.
Lemma lin_fold (f g h : grid -> nat -> grid) l : (forall a b c i, lin a b c -> lin (f a i) (g b i) (h c i)) -> forall a b c, lin a b c -> lin (fold_left f l a) (fold_left g l b) (fold_left h l c).
Proof. intro H. induction l as [|i l IH]; intros a b c L; [exact L|]. cbn. apply IH, H, L. Qed.
Lemma lin_sum {A} (f g h : A -> R) l : (forall a, h a = p * f a + q * g a) -> sum (map h l) = p * sum (map f l) + q * sum (map g l).
Proof. intro H. induction l as [|a l IH]; cbn [map sum]; [ring|]. rewrite H, IH. ring. Qed.
Lemma lin_mean {A} (f g h : A -> R) l : (forall a, h a = p * f a + q * g a) -> mean (map h l) = p * mean (map f l) + q * mean (map g l).
Proof. intro H. unfold mean. rewrite (lin_sum f g h) by exact H. rewrite !map_length. unfold Rdiv. ring. Qed.

Variables (n m : nat) (dx dy : R) (x1 x2 x3 y1 y2 y3 : grid).
Hypothesis X : lin x1 x2 x3.
Hypothesis Y : lin y1 y2 y3.
Lemma lin_along_x d a b c i j : lin a b c -> along_x dx x3 d c i j = p * along_x dx x1 d a i j + q * along_x dx x2 d b i j.
Proof. intro L. unfold along_x. rewrite L, !X. field. Qed.
Lemma lin_along_y d a b c i j : lin a b c -> along_y dy y3 d c i j = p * along_y dy y1 d a i j + q * along_y dy y2 d b i j.
Proof. intro L. unfold along_y. rewrite L, !Y. field. Qed.
Lemma lin_borders d e : lin (borders n m dx dy x1 y1 d e) (borders n m dx dy x2 y2 d e) (borders n m dx dy x3 y3 d e).
Proof.
  unfold borders. apply lin_fold; [intros; apply lin_put; [assumption|apply lin_along_y; assumption]|].
  apply lin_fold; [intros; apply lin_put; [assumption|apply lin_along_x; assumption]|]. intros i j. unfold zeros. ring.
Qed.
Lemma lin_halved a b c i j : lin a b c -> lin (halved a i j) (halved b i j) (halved c i j).
Proof. intro L. unfold halved. apply lin_put; [exact L|]. rewrite L. field. Qed.
Lemma lin_centred a b c : lin a b c -> lin (centred n m a) (centred n m b) (centred n m c).
Proof.
  intros L i j. unfold centred. destruct (border n m (i, j)); [|apply L].
  rewrite (lin_mean (fun p => a (fst p) (snd p)) (fun p => b (fst p) (snd p)) (fun p => c (fst p) (snd p))) by (intro; apply L). rewrite L. ring.
Qed.
Lemma lin_frame : lin (frame n m dx dy x1 y1) (frame n m dx dy x2 y2) (frame n m dx dy x3 y3).
Proof.
  assert (A : lin (ua n m dx dy x1 y1) (ua n m dx dy x2 y2) (ua n m dx dy x3 y3)).
  { unfold ua. apply lin_centred, lin_halved, lin_halved. intros i j. unfold shift.
    rewrite !(lin_borders Up Up i j), !(lin_borders Up Up _ _), !(lin_borders Down Down _ _). destruct (_ && _); field. }
  assert (B : lin (ub n m dx dy x1 y1) (ub n m dx dy x2 y2) (ub n m dx dy x3 y3)).
  { unfold ub. apply lin_centred, lin_halved, lin_halved. intros i j. unfold shift.
    rewrite !(lin_borders Up Down _ _), !(lin_borders Down Up _ _). destruct (_ && _); field. }
  intros i j. unfold frame. rewrite A, B. field.
Qed.
Lemma lin_sweep d e : lin (sweep n m dx dy x1 y1 d e) (sweep n m dx dy x2 y2 d e) (sweep n m dx dy x3 y3 d e).
Proof.
  unfold sweep. apply lin_fold; [|apply lin_frame]. intros a b c i L. apply lin_fold; [|exact L]. intros a' b' c' j L'. apply lin_put; [exact L'|].
  rewrite (lin_along_x d a' b' c' i j L'), (lin_along_y e a' b' c' i j L'). field.
Qed.
Lemma lin_normalized a b c : lin a b c -> lin (normalized n m a) (normalized n m b) (normalized n m c).
Proof.
  intros L i j. unfold normalized, shift, corner_mean. rewrite L.
  assert (E : forall u : grid, flat_map (fun c => map (u (corner n m (fst c) (snd c))) (seq 0 m)) (cells n m)
    = map (fun x => u (fst x) (snd x)) (flat_map (fun c => map (fun k => (corner n m (fst c) (snd c), k)) (seq 0 m)) (cells n m))).
  { intro u. generalize (cells n m). induction l as [|x l IH]; [reflexivity|]. cbn [flat_map]. rewrite IH, map_app, map_map. reflexivity. }
  rewrite !E. rewrite (lin_mean (fun x => a (fst x) (snd x)) (fun x => b (fst x) (snd x)) (fun x => c (fst x) (snd x))) by (intro; apply L). ring.
Qed.
Lemma lin_merged : lin (merged n m dx dy x1 y1) (merged n m dx dy x2 y2) (merged n m dx dy x3 y3).
Proof.
  intros i j. unfold merged. rewrite !(lin_normalized _ _ _ (lin_sweep Up Up) i j), !(lin_normalized _ _ _ (lin_sweep Up Down) i j), !(lin_normalized _ _ _ (lin_sweep Down Up) i j), !(lin_normalized _ _ _ (lin_sweep Down Down) i j).
  unfold Rdiv. ring.
Qed.
Lemma lin_relative fact a b c : lin a b c -> lin (relative n m fact a) (relative n m fact b) (relative n m fact c).
Proof.
  intros L i j. unfold relative, shift. rewrite (lin_mean (fun x => a (fst x) (snd x) * fact) (fun x => b (fst x) (snd x) * fact) (fun x => c (fst x) (snd x) * fact)) by (intro; rewrite L; ring).
  rewrite L. ring.
Qed.
End Linear.
Lemma reconstruct_linear solver axe_x axe_y p q x1 x2 y1 y2 fact k u1 u2 :
  reconstruct solver axe_x axe_y x1 y1 fact false k = Ok u1 -> reconstruct solver axe_x axe_y x2 y2 fact false k = Ok u2 ->
  exists u, reconstruct solver axe_x axe_y (fun i j => p * x1 i j + q * x2 i j) (fun i j => p * y1 i j + q * y2 i j) fact false k = Ok u /\ forall i j, u i j = p * u1 i j + q * u2 i j.
Proof.
  unfold reconstruct. destruct axe_x as [|a [|b lx]]; try discriminate. destruct axe_y as [|c [|d ly]]; try discriminate. intros E1 E2. injection E1 as <-. injection E2 as <-.
  eexists. split; [reflexivity|]. apply lin_relative, lin_merged; intros i j; reflexivity.
Qed.
Lemma reconstruct_mean solver axe_x axe_y x y fact ols k u : reconstruct solver axe_x axe_y x y fact ols k = Ok u -> mean_of (length axe_x) (length axe_y) u = 0.
Proof.
  unfold reconstruct. destruct axe_x as [|a [|b lx]]; try discriminate. destruct axe_y as [|c [|d ly]]; try discriminate. intros E1. injection E1 as <-. apply relative_mean; cbn; lia.
Qed.
