(** * Sf2Proofs: line integrals. *)
From Coq Require Import Lia QArith Qcanon List ZArith.
From Verif Require Import Num Res ListLib SortLib Arr FieldModel ScalarFieldModel FieldSpec PointsSpec PointsProofs5 ProfileModel ProfileSpec ProfileProofs3 ProfileProofs4 CritProofs2 Prof2Model BlModel BlSpec BlProofs VpropSpec Sf2Model Sf2Spec.
From Verif Require Import FieldProofs FieldProofs2 ScalarProofs.

Lemma otrapz_area l : (forall x, ~ In (x, None) l) -> otrapz l = area l.
Proof.
  induction l as [|[x0 y0] r IH]; intro N; [reflexivity|]. destruct r as [|[x1 y1] r].
  - cbn. destruct y0; [reflexivity|]. exfalso. apply (N x0). now left.
  - change (otrapz ((x0, y0) :: (x1, y1) :: r)) with (oadd (odiv (oscale (x1 - x0)%num (oadd y0 y1)) (Some 2%num)) (otrapz ((x1, y1) :: r))).
    change (area ((x0, y0) :: (x1, y1) :: r)) with (match y0, y1, area ((x1, y1) :: r) with Some a, Some b, Some s => Some ((x1 - x0) * (a + b) / 2 + s)%num | _, _, _ => None end).
    rewrite IH by (intros x I; apply (N x); now right). destruct y0 as [a|]; [|exfalso; apply (N x0); now left]. destruct y1 as [b|]; [|exfalso; apply (N x1); right; now left].
    cbn [oadd lift2 oscale option_map odiv]. destruct (qeqb_spec 2%num 0%num) as [E|_]; [discriminate|]. destruct (area ((x1, Some b) :: r)); [|reflexivity]. unfold oadd, lift2. f_equal. f_equal. f_equal. apply Qcmult_comm.
Qed.
Lemma all_or_none {A} (g : A -> onum) l : (exists k, In k l /\ g k = None) \/ exists vs, map Some vs = map g l.
Proof.
  induction l as [|a l IH]; [right; now exists []|]. destruct (g a) as [v|] eqn:E; [|left; exists a; split; [now left|exact E]].
  destruct IH as [(k' & I & Z)|[vs Z]]; [left; exists k'; split; [now right|exact Z]|right; exists (v :: vs); cbn; now rewrite E, Z].
Qed.
Lemma averages_nan f d sel j y m : averages f d sel j y m -> m = isnan y.
Proof.
  intros (ks & ND & K & R1 & R2). destruct ks as [|k ks]; [destruct R1 as [-> ->]; auto|].
  destruct (all_or_none (fun k => cell_value f d k j) (k :: ks)) as [X|[vs X]]; [destruct R1 as [-> ->]; auto|]. destruct (R2 ltac:(discriminate) vs X) as (-> & v & -> & _). reflexivity.
Qed.
Lemma position_cases (l : list num) v : (nths l 0 <= v <= last l (qz 0))%num -> l <> [] ->
  (exists k, k < length l /\ v = nths l k) \/ exists k, S k < length l /\ (nths l k < v < nths l (S k))%num.
Proof.
  intros [V1 V2] NE. rewrite last_nths in V2 by exact NE.
  assert (G : forall n, n < length l -> (v <= nths l n)%num -> (exists k, k <= n /\ v = nths l k) \/ exists k, S k <= n /\ (nths l k < v < nths l (S k))%num).
  { induction n as [|n IH]; intros Hn Hv; [left; exists 0; split; [lia|now apply Qcle_antisym]|].
    destruct (Qclt_le_dec (nths l n) v) as [Q|Q].
    - destruct (Qc_eq_dec v (nths l (S n))) as [->|N]; [left; exists (S n); auto|]. right. exists n. split; [lia|]. split; [exact Q|]. apply Qcle_lt_or_eq in Hv. destruct Hv as [Hv|Hv]; [exact Hv|congruence].
    - destruct IH as [(k & H1 & H2)|(k & H1 & H2)]; [lia|exact Q| |]; [left; exists k; split; [lia|exact H2]|right; exists k; split; [lia|exact H2]]. }
  assert (0 < length l) by (destruct l; [congruence|cbn; lia]). destruct (G (length l - 1) ltac:(lia) V2) as [(k & H1 & H2)|(k & H1 & H2)]; [left|right]; exists k; (split; [lia|exact H2]).
Qed.
Lemma line_profile_along ci f d p : field_ok f -> position_ok f d p ->
  exists q, take_profile ci f d p = Ok q /\ px q = other_axis f d /\ length (yv q) = length (other_axis f d) /\ pm q = map isnan (yv q) /\ along f d p (yv q).
Proof.
  intros FO PO. destruct (pos_facts f d FO) as [I NE]. pose proof FO as (W & G & _ & _).
  assert (K : exists q, take_profile ci f d p = Ok q /\ runs f d q (fun j y m => line_sample f d p j y /\ m = isnan y)).
  { destruct p as [v|a b|]; cbn [take_profile line_sample position_ok] in *.
    - destruct (position_cases _ v PO NE) as [(k & Hk & E)|(k & Hk & E)].
      + destruct (linear_node ci f d k FO Hk) as [(q & E1 & R) _]. exists q. rewrite E at 1. split; [exact E1|]. destruct R as (R1 & R2 & R3 & R4 & R5). do 4 (split; [assumption|]).
        intros j Hj. destruct (R5 j Hj) as [Y M]. split; [left; exists k; auto|]. rewrite M, Y. unfold cell_mask, cell_value, values. destruct d; cbn; destruct (at_ (msk f) _ _); reflexivity.
      + destruct (linear_between ci f d k v FO Hk E) as (q & E1 & R). exists q. split; [exact E1|]. destruct R as (R1 & R2 & R3 & R4 & R5). do 4 (split; [assumption|]).
        intros j Hj. destruct (R5 j Hj) as [Y M]. split; [right; exists k; auto|exact M].
    - destruct (interval_profile f d a b FO) as (q & E1 & R1 & R2 & R3 & R4 & R5). exists q. split; [exact E1|]. do 4 (split; [assumption|]). intros j Hj. specialize (R5 j Hj). assert (M := averages_nan _ _ _ _ _ _ R5). split; [now rewrite <- M|exact M].
    - destruct (all_profile f d FO) as (q & E1 & R1 & R2 & R3 & R4 & R5). exists q. split; [exact E1|]. do 4 (split; [assumption|]). intros j Hj. specialize (R5 j Hj). assert (M := averages_nan _ _ _ _ _ _ R5). split; [now rewrite <- M|exact M]. }
  destruct K as (q & E & X & U & V & (O1 & O2 & O3 & O4) & R). exists q. split; [exact E|]. split; [exact X|].
  assert (L : length (yv q) = length (other_axis f d)) by (rewrite O4, O1, X; reflexivity). split; [exact L|]. split.
  - apply (nth_ext _ _ false (isnan None)); [rewrite map_length, L, O2, X; reflexivity|]. intros j Hj. rewrite O2, X in Hj. rewrite map_nth. apply (R j Hj).
  - split; [exact L|]. intros j Hj. apply (R j Hj).
Qed.
Lemma line_integral ci f d p : field_ok f -> position_ok f d p ->
  exists ys, along f d p ys /\
    (In None ys -> integrate_line ci f d p = Err GenericErr) /\
    (~ In None ys -> exists u, integrate_line ci f d p = Ok (area (combine (other_axis f d) ys), u) /\ (d = DY -> u = unit_mul (uv f) (other_unit f d))).
Proof.
  intros FO PO. destruct (line_profile_along ci f d p FO PO) as (q & E & X & L & M & A). exists (yv q). split; [exact A|].
  unfold integrate_line. rewrite E. cbn [bind]. rewrite M. split; intro N.
  - assert (existsb (fun b => b) (map isnan (yv q)) = true) as ->; [|reflexivity]. apply existsb_exists. exists true. split; [|reflexivity]. apply in_map_iff. now exists None.
  - assert (existsb (fun b => b) (map isnan (yv q)) = false) as ->.
    { destruct (existsb (fun b => b) (map isnan (yv q))) eqn:Q; [|reflexivity]. apply existsb_exists in Q. destruct Q as (b & I & ->). apply in_map_iff in I. destruct I as ([v|] & Z & I); [discriminate|contradiction]. }
    cbn [guard]. rewrite otrapz_area, X; [eexists; split; [reflexivity|now intros ->]|]. rewrite X. intros x I. apply in_combine_r in I. contradiction.
Qed.
Lemma total_bounds lo hi l : (forall v, In v l -> (lo <= v <= hi)%num) -> (lo * qn (length l) <= total l <= hi * qn (length l))%num.
Proof.
  induction l as [|a l IH]; intro H; cbn [length total fold_right].
  - change (qn 0) with 0%num. split; qlra.
  - rewrite qn_S. fold (total l). destruct IH as [I1 I2]; [intros; apply H; now right|]. destruct (H a (or_introl eq_refl)) as [A1 A2]. split; qlra.
Qed.
(** every sample is between the extreme values of the field *)
Lemma sample_bounds f d p j y lo hi : line_sample f d p j y -> j < length (other_axis f d) ->
  (forall k, k < length (pos_axis f d) -> exists v, cell_value f d k j = Some v /\ (lo <= v <= hi)%num) ->
  (match p with LOver a b => exists k, k < length (pos_axis f d) /\ (a <= nths (pos_axis f d) k <= b)%num | _ => 0 < length (pos_axis f d) end) ->
  exists v, y = Some v /\ (lo <= v <= hi)%num.
Proof.
  intros S0 Hj B NE.
  assert (AV : forall sel m, averages f d sel j y m -> (exists k, k < length (pos_axis f d) /\ sel k) -> exists v, y = Some v /\ (lo <= v <= hi)%num).
  { intros sel m (ks & ND & K & R1 & R2) (k0 & Hk0). apply K in Hk0. assert (N0 : ks <> []) by (intros ->; contradiction).
    destruct (all_or_none (fun k => cell_value f d k j) ks) as [(k & I & Z)|[vs Z]].
    - apply K in I. destruct (B k (proj1 I)) as (v & E & _). congruence.
    - destruct (R2 N0 vs Z) as (_ & v & -> & E). exists v. split; [reflexivity|].
      assert (L : length vs = length ks) by (apply (f_equal (@length _)) in Z; now rewrite !map_length in Z).
      assert (TB : (lo * qn (length vs) <= total vs <= hi * qn (length vs))%num).
      { apply total_bounds. intros w Hw. assert (I : In (Some w) (map Some vs)) by now apply in_map. rewrite Z in I. apply in_map_iff in I. destruct I as (k & Ek & Ik). apply K in Ik. destruct (B k (proj1 Ik)) as (v' & E' & B'). rewrite E' in Ek. injection Ek as <-. exact B'. }
      assert (P : (0 < qn (length ks))%num) by (destruct ks; [congruence|]; cbn [length]; rewrite qn_S; pose proof (qn_nonneg (length ks)); qlra).
      rewrite <- E, L in TB. destruct TB as [T1 T2]. split.
      + destruct (Qclt_le_dec v lo) as [Q|]; [|assumption]. exfalso. pose proof (qmul_lt_r _ _ _ P Q). qlra.
      + destruct (Qclt_le_dec hi v) as [Q|]; [|assumption]. exfalso. pose proof (qmul_lt_r _ _ _ P Q). qlra. }
  destruct p as [v|a b|]; cbn [line_sample] in S0.
  - destruct S0 as [(k & Hk & _ & ->)|(k & Hk & _ & S0)]; [now apply B|]. unfold blends in S0.
    destruct (B k ltac:(lia)) as (v1 & E1 & B1). destruct (B (S k) Hk) as (v2 & E2 & B2). rewrite E1, E2 in S0. destruct S0 as (r & -> & _ & M1 & M2). exists r. split; [reflexivity|].
    destruct (qmin_spec v1 v2) as [[_ Q1]|[_ Q1]], (qmax_spec v1 v2) as [[_ Q2]|[_ Q2]]; rewrite Q1 in M1; rewrite Q2 in M2; split; qlra.
  - apply (AV _ _ S0). exact NE.
  - apply (AV _ _ S0). exists 0. auto.
Qed.
Lemma line_integral_bounds ci f d p lo hi : field_ok f -> position_ok f d p -> some_line f d p ->
  (forall k j, k < length (pos_axis f d) -> j < length (other_axis f d) -> exists v, cell_value f d k j = Some v /\ (lo <= v <= hi)%num) ->
  exists s u, integrate_line ci f d p = Ok (Some s, u) /\
    (lo * (last (other_axis f d) (qz 0) - nths (other_axis f d) 0) <= s <= hi * (last (other_axis f d) (qz 0) - nths (other_axis f d) 0))%num.
Proof.
  intros FO PO SL B. destruct (line_integral ci f d p FO PO) as (ys & (L & A) & _ & V). pose proof FO as (W & [G1 G2] & N1 & N2). destruct (pos_facts f d FO) as [I NE].
  assert (P0 : 0 < length (pos_axis f d)) by (destruct (pos_axis f d); [congruence|cbn; lia]).
  assert (SB : forall y, In y ys -> exists v, y = Some v /\ (lo <= v <= hi)%num).
  { intros y Iy. apply (In_nth _ _ None) in Iy. destruct Iy as (j & Hj & <-). rewrite L in Hj. apply (sample_bounds f d p j _ lo hi (A j Hj) Hj); [intros k Hk; now apply B|]. destruct p; cbn in *; auto. }
  destruct V as (u & E & _). { intro N. destruct (SB _ N) as (v & Z & _). discriminate. }
  assert (O : other_axis f d <> []) by (destruct d; assumption). assert (OI : increasing (other_axis f d)) by (destruct d; assumption).
  destruct (other_axis f d) as [|x0 xs] eqn:EO; [congruence|]. destruct ys as [|y0 ys]; [discriminate|].
  destruct (area_bound lo hi (combine (x0 :: xs) (y0 :: ys))) with (x0 := x0) (y0 := y0) (r := combine xs ys) as (s & AE & BD).
  - intros x y Ixy. apply SB. now apply in_combine_r in Ixy.
  - rewrite combine_map_fst by (cbn [length] in *; lia). now apply increasing_nondecreasing.
  - reflexivity.
  - exists s, u. split; [rewrite E; (rewrite EO + idtac); now rewrite AE|]. rewrite combine_map_fst in BD by (cbn [length] in *; lia). exact BD.
Qed.
(** along x, or when both axes have the same unit, the unit is that of the values times that of the axis *)
Lemma line_integral_unit ci f d p s u : integrate_line ci f d p = Ok (s, u) -> d = DY \/ ux (sg f) = uy (sg f) -> u = unit_mul (uv f) (other_unit f d).
Proof.
  unfold integrate_line. destruct (take_profile ci f d p) as [q|]; [|discriminate]. cbn [bind]. destruct (existsb (fun b => b) (pm q)); [discriminate|]. cbn [guard]. intros [= _ <-] [->|E]; [reflexivity|].
  destruct d; cbn [other_unit]; congruence.
Qed.
