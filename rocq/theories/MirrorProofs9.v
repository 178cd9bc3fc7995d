(** * MirrorProofs9: mirroring with the gap filled *)
From Verif Require Import Num Res ListLib Arr FieldModel FieldSpec FieldProofs FieldProofs2 FieldProofs3 ScalarFieldModel ScalarProofs
  TemporalModel GradModel GradSpec BlModel MirrorModel MirrorSpec MirrorProofs MirrorProofs2 MirrorProofs3 MirrorProofs4 MirrorProofs5 MirrorProofs6 MirrorProofs7 MirrorProofs8.
Open Scope num_scope.

Lemma gap_grid nearest cubic f d gk r : mirror_gap nearest cubic f d gk = Ok r -> sg r = sg f.
Proof.
  unfold mirror_gap. destruct (any_masked f); cbn [negb]; [|intro H; now injection H as <-].
  destruct gk as [|c| | | |].
  - intro H. now injection H as <-.
  - intro H. now apply store_lemma in H.
  - destruct (linear_rows f d) as [v|]; cbn [bind]; [|discriminate]. intro H. now apply store_lemma in H.
  - intro H. now apply store_lemma in H.
  - intro H. now apply store_lemma in H.
  - discriminate.
Qed.
Section Filled.
Variables (ci : sfield -> nat -> nat -> num -> num -> onum) (nearest cubic : interps).
Context (f : sfield) (d : pdir) (p : num) (n : option Z) (coef : num) (gk : gkind) (r : sfield).
Hypothesis (W : sf_wf f) (C : sf_clean f) (HS : grid_sorted (sg f)) (HE : evenly (pos_axis f d)).
Hypothesis (H : sf_mirroring ci nearest cubic f d p n coef gk = Ok r).
Hypothesis (LX : (2 <= length (ax (sg r)))%nat) (LY : (2 <= length (ay (sg r)))%nat).
Lemma filled_base : exists r0 dl, sf_mirroring ci nearest cubic f d p n coef GNone = Ok r0 /\ mirror_gap nearest cubic r0 d gk = Ok r /\
  sg r = sg r0 /\ sf_wf r0 /\ sf_clean r0 /\ grid_sorted (sg r0) /\ 0 < dl /\ axis_evenly (pos_axis r0 d) dl.
Proof using All.
  destruct (gap_split _ _ _ _ _ _ _ _ _ _ H) as (r0 & E0 & EG). pose proof (gap_grid _ _ _ _ _ _ EG) as G.
  destruct HE as (dl & Hd & He). rewrite G in LX, LY.
  destruct (mirror_run ci nearest cubic f d p n coef r0 dl W C HS Hd He E0 LX LY)
    as (g & k & s & c & B & P2 & KP & P4 & P5 & P6 & P7 & P8 & P9 & P10 & P11 & P12 & P13 & P14 & P15 & P16 & P17 & P18).
  exists r0, dl. repeat (split; [assumption|]). destruct KP as (_ & _ & Sk & _).
  apply (ext_even (pos_axis k d) (pos_axis r0 d) s c p dl); auto using pos_sorted.
  intros x Q. apply P6 in Q. now apply (side_kept _ p s _ P2).
Qed.
End Filled.
(** C125 *)
Lemma mirror_value ci nearest cubic f d p n coef c r :
  sf_wf f -> sf_clean f -> grid_sorted (sg f) -> evenly (pos_axis f d) ->
  sf_mirroring ci nearest cubic f d p n coef (GValue c) = Ok r -> (2 <= length (ax (sg r)))%nat -> (2 <= length (ay (sg r)))%nat ->
  exists r0, sf_mirroring ci nearest cubic f d p n coef GNone = Ok r0 /\ sg r = sg r0 /\
    forall x y v m, sf_shows r0 x y v m -> sf_shows r x y (if m then Some c else v) false.
Proof.
  intros W C S E H LX LY. destruct (filled_base _ _ _ _ _ _ _ _ _ _ W C S E H LX LY) as (r0 & dl & E0 & EG & G & W0 & C0 & S0 & _).
  exists r0. split; [exact E0|]. split; [exact G|]. now apply (gap_value nearest cubic r0 d c r W0 C0).
Qed.
Lemma mirror_smooth ci nearest cubic f d p n coef gk r :
  sf_wf f -> sf_clean f -> grid_sorted (sg f) -> evenly (pos_axis f d) -> gk = GNearest \/ gk = GCubic ->
  sf_mirroring ci nearest cubic f d p n coef gk = Ok r -> (2 <= length (ax (sg r)))%nat -> (2 <= length (ay (sg r)))%nat ->
  exists r0, sf_mirroring ci nearest cubic f d p n coef GNone = Ok r0 /\ sg r = sg r0 /\ nothing_masked r /\
    forall x y v, sf_shows r0 x y v false -> sf_shows r x y v false.
Proof.
  intros W C S E K H LX LY. destruct (filled_base _ _ _ _ _ _ _ _ _ _ W C S E H LX LY) as (r0 & dl & E0 & EG & G & W0 & C0 & S0 & _).
  exists r0. split; [exact E0|]. split; [exact G|]. now apply (gap_smooth nearest cubic r0 d gk r W0 C0 K).
Qed.
Lemma mirror_linear_y ci nearest cubic f p n coef r :
  sf_wf f -> sf_clean f -> grid_sorted (sg f) -> evenly (ay (sg f)) ->
  sf_mirroring ci nearest cubic f DY p n coef GLinear = Ok r -> (2 <= length (ax (sg r)))%nat -> (2 <= length (ay (sg r)))%nat ->
  exists r0, sf_mirroring ci nearest cubic f DY p n coef GNone = Ok r0 /\ sg r = sg r0 /\
    forall a b, band r0 DY a b ->
      (forall x y v, sf_shows r0 x y v false -> sf_shows r x y v false) /\
      (forall x y va vb, In y (ay (sg r0)) -> a < y -> y < b -> sf_shows r0 x a (Some va) false -> sf_shows r0 x b (Some vb) false ->
         exists v, sf_shows r x y (Some v) false /\ (v - va) * (b - a) = (vb - va) * (y - a)).
Proof.
  intros W C S E H LX LY. destruct (filled_base ci nearest cubic f DY p n coef _ r W C S E H LX LY) as (r0 & dl & E0 & EG & G & W0 & C0 & S0 & Hd & He).
  exists r0. split; [exact E0|]. split; [exact G|]. intros a b HB.
  destruct (gap_linear_y nearest cubic r0 a b dl r W0 C0 S0 ltac:(rewrite <- G; lia) Hd He HB EG) as (_ & _ & Q1 & Q2). split; assumption.
Qed.
Lemma mirror_linear_x ci nearest cubic f p n coef r :
  sf_wf f -> sf_clean f -> grid_sorted (sg f) -> evenly (ax (sg f)) ->
  sf_mirroring ci nearest cubic f DX p n coef GLinear = Ok r -> (2 <= length (ax (sg r)))%nat -> (2 <= length (ay (sg r)))%nat ->
  exists r0, sf_mirroring ci nearest cubic f DX p n coef GNone = Ok r0 /\ sg r = sg r0 /\
    forall a b, band r0 DX a b -> nths (ax (sg r0)) 0%nat < a ->
      forall x y, In x (ax (sg r0)) -> In y (ay (sg r0)) -> a <= x -> x < b -> sf_shows r x y None false.
Proof.
  intros W C S E H LX LY. destruct (filled_base ci nearest cubic f DX p n coef _ r W C S E H LX LY) as (r0 & dl & E0 & EG & G & W0 & C0 & S0 & Hd & He).
  exists r0. split; [exact E0|]. split; [exact G|]. intros a b HB HF.
  apply (gap_linear_x nearest cubic r0 a b r W0 C0 S0 ltac:(rewrite <- G; lia) HB HF EG).
Qed.
