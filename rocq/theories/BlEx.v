(** * BlEx: profiles and fields on which the theorems on boundary layers are instantiated *)
From Verif Require Import Num Res ListLib SortLib Arr FieldModel ScalarFieldModel FieldSpec ProfileModel ProfileSpec ProfileProofs Concrete TemporalEx BlModel BlSpec.

(** an unmasked profile through the points *)
Definition plain_prof (l : list (num * num)) : profile := mkprof (map fst l) (map (fun t => Some (snd t)) l) (map (fun _ => false) l) metre second.
Lemma plain_curve l : nondecreasing (map fst l) -> curve (plain_prof l) l.
Proof.
  intro N. assert (Y : yv (plain_prof l) = map (fun t => Some (snd t)) l).
  { unfold yv, nan_at. cbn [plain_prof pm py]. clear. induction l as [|t l IH]; [reflexivity|]. cbn [map combine fst snd]. now rewrite IH. }
  split.
  - split; [cbn; now rewrite !map_length|]. split; [cbn; now rewrite !map_length|]. split; [exact N|exact Y].
  - unfold samples. rewrite Y. cbn [plain_prof px pm]. unfold zip3. clear. induction l as [|t l IH]; [reflexivity|]. cbn [map combine]. now rewrite IH.
Qed.
Definition pairs_of (l : list (Z * Z)) : list (num * num) := map (fun t => (qz (fst t), qz (snd t))) l.
(** a boundary layer: velocities 0, 12, 18, 20, 20 at 1, 2, 3, 5, 6 from the wall; 19 is reached at x = 4 *)
Definition ex_bl : list (num * num) := pairs_of [(1, 0); (2, 12); (3, 18); (5, 20); (6, 20)]%Z.
Lemma ex_bl_inc : increasing (map fst ex_bl).
Proof. incr. Qed.
Lemma ex_bl_curve : curve (plain_prof ex_bl) ex_bl.
Proof. apply plain_curve, increasing_nondecreasing, ex_bl_inc. Qed.
Ltac pts := intros x u H; cbn in H; repeat (destruct H as [H|H]; [injection H as <- <-; first [now apply qleb_le|now apply qltb_lt|discriminate|reflexivity|vmr]|]); try contradiction.
Lemma ex_bl_great : greatest ex_bl (qz 20).
Proof. split; [exists (qz 5); cbn; tauto|pts]. Qed.
Lemma ex_bl_wall : from_wall ex_bl.
Proof. split; [exact ex_bl_inc|pts]. Qed.
