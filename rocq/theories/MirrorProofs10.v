(** * MirrorProofs10: mirrored vector fields *)
From Verif Require Import Num Res ListLib Arr FieldModel FieldSpec FieldProofs FieldProofs2 FieldProofs3 ScalarFieldModel VectorFieldModel ScalarProofs
  TemporalModel TemporalSpec GradModel GradSpec GradProofs2 TurbModel TurbProofs2 BlModel MirrorModel MirrorSpec MirrorProofs MirrorProofs2 MirrorProofs3 MirrorProofs4 MirrorProofs5 MirrorProofs6
  MirrorProofs7 RotateProofs.
From Coq Require Import QArith.Qcanon.
Open Scope num_scope.

(** two fields on one grid with one mask *)
Definition same_mask (f h : sfield) : Prop := sg f = sg h /\ forall i j, (i < length (ax (sg f)))%nat -> (j < length (ay (sg f)))%nat -> at_ (msk f) i j = at_ (msk h) i j.
Definition cmask (f h : sfield) : Prop := ax (sg f) = ax (sg h) /\ ay (sg f) = ay (sg h) /\
  forall x y v m v' m', sf_shows f x y v m -> sf_shows h x y v' m' -> m = m'.

Lemma find_ext {A} (P Q : A -> bool) l : (forall x, In x l -> P x = Q x) -> find P l = find Q l.
Proof. induction l as [|x l IH]; intro H; [reflexivity|]. cbn. rewrite H by now left. destruct (Q x); [reflexivity|]. apply IH. intros; apply H; now right. Qed.
Lemma existsb_ext {A} (P Q : A -> bool) l : (forall x, In x l -> P x = Q x) -> existsb P l = existsb Q l.
Proof. induction l as [|x l IH]; intro H; [reflexivity|]. cbn. rewrite H by now left. f_equal. apply IH. intros; apply H; now right. Qed.
Lemma any_masked_same f h : sf_wf f -> sf_wf h -> same_mask f h -> any_masked f = any_masked h.
Proof.
  intros [_ [M0 M1]] [_ [N0 N1]] [G E]. unfold any_masked, flatten. rewrite M0, M1, N0, N1, <- G.
  f_equal. apply map_ext_in. intros [i j] I. apply in_aidx in I. cbn in *; apply E; tauto.
Qed.
Lemma wb_same f h g g' : sf_wf f -> sf_wf h -> same_mask f h -> without_border f = Ok g -> without_border h = Ok g' -> sg g = sg g'.
Proof.
  intros W W' SM H H'. pose proof (any_masked_same f h W W' SM) as EA. unfold without_border, crop_masked_border in *. rewrite <- EA in H'.
  destruct (any_masked f); cbn [bind] in *; [|injection H as <-; injection H' as <-; apply SM].
  destruct W as [_ [M0 M1]], W' as [_ [N0 N1]], SM as [G E]. rewrite <- G in N0, N1.
  assert (forall i, (i < length (ax (sg f)))%nat -> row_ok f i = row_ok h i) as RO.
  { intros i Li. unfold row_ok. rewrite M1, N1. apply existsb_ext. intros j Ij. apply in_seq in Ij. now rewrite E by lia. }
  assert (forall i, (i < length (ay (sg f)))%nat -> col_ok f i = col_ok h i) as CO.
  { intros j Lj. unfold col_ok. rewrite M0, N0. apply existsb_ext. intros i Ij. apply in_seq in Ij. now rewrite E by lia. }
  assert (soft_crop f = Ok g /\ soft_crop h = Ok g') as [Hf Hh].
  { destruct (soft_crop f), (soft_crop h); cbn [bind] in *; try discriminate. now injection H as <-; injection H' as <-. }
  unfold soft_crop in *. rewrite N0, N1, <- ?M0, <- ?M1 in Hh. rewrite M0, M1 in *.
  assert (first_ok (row_ok h) (length (ax (sg f))) = first_ok (row_ok f) (length (ax (sg f)))) as Q1.
  { unfold first_ok. apply find_ext. intros i Ij. apply in_seq in Ij. symmetry. apply RO. lia. }
  assert (last_ok (row_ok h) (length (ax (sg f))) = last_ok (row_ok f) (length (ax (sg f)))) as Q2.
  { unfold last_ok. apply find_ext. intros i Ij. apply in_rev, in_seq in Ij. symmetry. apply RO. lia. }
  assert (first_ok (col_ok h) (length (ay (sg f))) = first_ok (col_ok f) (length (ay (sg f)))) as Q3.
  { unfold first_ok. apply find_ext. intros i Ij. apply in_seq in Ij. symmetry. apply CO. lia. }
  assert (last_ok (col_ok h) (length (ay (sg f))) = last_ok (col_ok f) (length (ay (sg f)))) as Q4.
  { unfold last_ok. apply find_ext. intros i Ij. apply in_rev, in_seq in Ij. symmetry. apply CO. lia. }
  rewrite Q1, Q2, Q3, Q4 in Hh.
  destruct (first_ok (row_ok f) _); [|discriminate]. destruct (last_ok (row_ok f) _); [|discriminate].
  destruct (first_ok (col_ok f) _); [|discriminate]. destruct (last_ok (col_ok f) _); [|discriminate].
  unfold sf_crop_ind in *. rewrite <- G in Hh. destruct (grid_crop_ind (sg f) _ _) as [[w gr]|]; cbn [bind] in *; [|discriminate].
  injection Hf as <-. injection Hh as <-. destruct w as [[? ?] [? ?]]. reflexivity.
Qed.
Lemma sub_shows f g x y v m : subgrid f g -> sf_shows g x y v m -> sf_shows f x y v m.
Proof.
  intros (x0 & y0 & Q1 & Q2 & Q3) (i & j & E1 & E2 & E3 & E4). exists (x0 + i)%nat, (y0 + j)%nat.
  pose proof (nth_error_Some_lt _ _ _ E1) as L1. pose proof (nth_error_Some_lt _ _ _ E2) as L2.
  rewrite <- Q1, <- Q2 by assumption. destruct (Q3 i j L1 L2) as [V1 V2]. rewrite <- V1, <- V2. auto.
Qed.
Lemma same_cmask f h : grid_sorted (sg f) -> same_mask f h -> cmask f h.
Proof.
  intros S [G E]. split; [congruence|]. split; [congruence|]. intros x y v m v' m' (i & j & E1 & E2 & E3 & E4) (i' & j' & F1 & F2 & F3 & F4).
  rewrite <- G in F1, F2. destruct S as [S1 S2].
  assert (i' = i) as ->. { apply (increasing_inj (ax (sg f))); auto; try (eapply nth_error_Some_lt; eassumption).
      rewrite (nth_error_nths _ _ _ E1), (nth_error_nths _ _ _ F1). reflexivity. }
  assert (j' = j) as ->. { apply (increasing_inj (ay (sg f))); auto; try (eapply nth_error_Some_lt; eassumption).
      rewrite (nth_error_nths _ _ _ E2), (nth_error_nths _ _ _ F2). reflexivity. }
  rewrite <- E4, <- F4. apply E; eapply nth_error_Some_lt; eassumption.
Qed.
Lemma axis_extends_unique K R R' lo hi : axis_extends K R lo hi -> axis_extends K R' lo hi -> R = R'.
Proof.
  intros (L & _ & H1 & H2 & H3) (L' & _ & H1' & H2' & H3'). apply list_nth_eq; [congruence|]. intros i Li.
  rewrite (nths_nth_error R i) by congruence. rewrite (nths_nth_error R' i Li). f_equal.
  destruct (Nat.lt_ge_cases i lo) as [Q|Q]; [now rewrite H1, H1'|].
  destruct (Nat.lt_ge_cases (i - lo) (length K)) as [Q2|Q2].
  - specialize (H2 _ Q2). specialize (H2' _ Q2). replace (lo + (i - lo))%nat with i in * by lia.
    rewrite (nths_nth_error R i) in H2 by congruence. rewrite (nths_nth_error R' i Li) in H2'. congruence.
  - specialize (H3 (i - lo - length K)%nat ltac:(lia)). specialize (H3' (i - lo - length K)%nat ltac:(lia)).
    replace (lo + length K + (i - lo - length K))%nat with i in * by lia. congruence.
Qed.
(** the kept parts *)
Lemma axis_shown f x : In x (ax (sg f)) -> ay (sg f) <> [] -> exists y v m, sf_shows f x y v m.
Proof.
  intros I N. apply In_nth_error in I. destruct I as (i & E). destruct (ay (sg f)) as [|y l] eqn:EY; [congruence|].
  exists y, (at_ (values f) i 0), (at_ (msk f) i 0), i, 0%nat. rewrite EY. auto.
Qed.
Lemma axis_shown_y f y : In y (ay (sg f)) -> ax (sg f) <> [] -> exists x v m, sf_shows f x y v m.
Proof.
  intros I N. apply In_nth_error in I. destruct I as (j & E). destruct (ax (sg f)) as [|x l] eqn:EX; [congruence|].
  exists x, (at_ (values f) 0 j), (at_ (msk f) 0 j), 0%nat, j. rewrite EX. auto.
Qed.
Lemma shown_on f x y v m : sf_shows f x y v m -> In x (ax (sg f)) /\ In y (ay (sg f)).
Proof. intros (i & j & E1 & E2 & _). split; eapply nth_error_In; eassumption. Qed.
Lemma on_shown f x y : In x (ax (sg f)) -> In y (ay (sg f)) -> exists v m, sf_shows f x y v m.
Proof.
  intros I J. apply In_nth_error in I. apply In_nth_error in J. destruct I as (i & E), J as (j & F).
  exists (at_ (values f) i j), (at_ (msk f) i j), i, j. auto.
Qed.
Lemma part_axes A d p g k : kept_part A d p g k -> ax (sg k) <> [] -> ay (sg k) <> [] ->
  (forall x, In x (ax (sg k)) <-> exists y, In x (ax (sg g)) /\ In y (ay (sg g)) /\ kept_side A p (coord d x y)) /\
  (forall y, In y (ay (sg k)) <-> exists x, In x (ax (sg g)) /\ In y (ay (sg g)) /\ kept_side A p (coord d x y)).
Proof.
  intros (_ & _ & _ & _ & _ & _ & H) NX NY. split; intro z; split.
  - intro I. destruct (axis_shown k z I NY) as (y & v & m & Q). apply H in Q. destruct Q as [Q1 Q2]. apply shown_on in Q1. exists y. tauto.
  - intros (y & I & J & K). destruct (on_shown g z y I J) as (v & m & Q). assert (sf_shows k z y v m) as Q2 by (apply H; auto). apply shown_on in Q2. tauto.
  - intro I. destruct (axis_shown_y k z I NX) as (x & v & m & Q). apply H in Q. destruct Q as [Q1 Q2]. apply shown_on in Q1. exists x. tauto.
  - intros (x & I & J & K). destruct (on_shown g x z I J) as (v & m & Q). assert (sf_shows k x z v m) as Q2 by (apply H; auto). apply shown_on in Q2. tauto.
Qed.
Lemma cmask_part A d p g g' k k' : cmask g g' -> kept_part A d p g k -> kept_part A d p g' k' ->
  ax (sg k) <> [] -> ay (sg k) <> [] -> ax (sg k') <> [] -> ay (sg k') <> [] -> cmask k k'.
Proof.
  intros (GX & GY & GM) P P' N1 N2 N3 N4. destruct (part_axes _ _ _ _ _ P N1 N2) as [X Y]. destruct (part_axes _ _ _ _ _ P' N3 N4) as [X' Y'].
  destruct P as (_ & _ & [S1 S2] & _ & _ & _ & H), P' as (_ & _ & [S1' S2'] & _ & _ & _ & H').
  split; [apply increasing_ext; auto; intro x; rewrite X, X', GX, GY; reflexivity|].
  split; [apply increasing_ext; auto; intro x; rewrite Y, Y', GX, GY; reflexivity|].
  intros x y v m v' m' Q Q'. apply H in Q. apply H' in Q'. apply (GM x y v m v' m'); tauto.
Qed.
(** whether a field has a value at a point on one of its lines is a matter of mask *)
Lemma cmask_idx k k' i j : grid_sorted (sg k) -> sf_clean k -> sf_clean k' -> cmask k k' -> (i < length (ax (sg k)))%nat -> (j < length (ay (sg k)))%nat ->
  (at_ (values k) i j = None <-> at_ (values k') i j = None).
Proof.
  intros S C C' (X & Y & M) Li Lj.
  assert (sf_shows k (nths (ax (sg k)) i) (nths (ay (sg k)) j) (at_ (values k) i j) (at_ (msk k) i j)) as Q by (exists i, j; repeat split; now apply nths_nth_error).
  assert (sf_shows k' (nths (ax (sg k)) i) (nths (ay (sg k)) j) (at_ (values k') i j) (at_ (msk k') i j)) as Q'.
  { exists i, j. rewrite <- X, <- Y. repeat split; now apply nths_nth_error. }
  pose proof (M _ _ _ _ _ _ Q Q') as E. apply C in Q. apply C' in Q'. rewrite Q, Q', E. reflexivity.
Qed.
Lemma ointerp1_none a b q u v : ointerp1 a b q u v = None <-> u = None \/ v = None.
Proof. destruct u, v; cbn; split; intuition discriminate. Qed.
Lemma lval_none A w w' q : increasing A -> A <> [] -> nths A 0%nat <= q -> q <= last A (qz 0) ->
  (forall i, (i < length A)%nat -> (w i = None <-> w' i = None)) -> (lval A w q = None <-> lval A w' q = None).
Proof.
  intros H N B1 B2 E. destruct (bounds_cases A q H N B1 B2) as [(i & L & <- & _)|(i & L & Q1 & Q2 & _)].
  - rewrite !lval_node by assumption. now apply E.
  - rewrite !(lval_between _ _ _ i) by assumption. rewrite !ointerp1_none. rewrite (E i), (E (S i)) by lia. reflexivity.
Qed.
Lemma value_none ci k k' d q u u' : grid_sorted (sg k) -> sf_clean k -> sf_clean k' -> cmask k k' -> ax (sg k) <> [] -> ay (sg k) <> [] ->
  match d with DX => In (snd q) (ay (sg k)) | DY => In (fst q) (ax (sg k)) end ->
  value_at ci k q u -> value_at ci k' q u' -> (u = None <-> u' = None).
Proof.
  intros S C C' M NX NY HQ V V'. pose proof M as (X & Y & _).
  assert (inside k' (fst q) (snd q) <-> inside k (fst q) (snd q)) as EI. { unfold inside. rewrite X, Y. tauto. }
  destruct V as [[I V]|[I ->]], V' as [[I' V']|[I' ->]]; try tauto.
  pose proof S as [S1 S2]. assert (grid_sorted (sg k')) as S' by (split; [rewrite <- X|rewrite <- Y]; assumption).
  pose proof I as J. unfold inside in J. destruct q as [qx qy]. cbn [fst snd] in *.
  destruct d; apply In_nth_error in HQ; destruct HQ as (j & Ej); pose proof (nth_error_Some_lt _ _ _ Ej) as Lj.
  - rewrite (gv_line_x ci k qx qy j) in V by tauto. rewrite (gv_line_x ci k' qx qy j) in V' by (rewrite <- ?X, <- ?Y; tauto).
    injection V as <-. injection V' as <-. rewrite <- X. apply lval_none; try tauto. intros i Li. now apply cmask_idx.
  - rewrite (gv_line_y ci k qy qx j) in V by tauto. rewrite (gv_line_y ci k' qy qx j) in V' by (rewrite <- ?X, <- ?Y; tauto).
    injection V as <-. injection V' as <-. rewrite <- Y. apply lval_none; try tauto. intros i Li. now apply cmask_idx.
Qed.

(** the two components of a mirrored vector field have one mask *)
Lemma mirror_same_mask ci nearest cubic f h d p n a b r r' dl :
  sf_wf f -> sf_clean f -> grid_sorted (sg f) -> sf_wf h -> sf_clean h -> same_mask f h -> 0 < dl -> axis_evenly (pos_axis f d) dl ->
  sf_mirroring ci nearest cubic f d p n a GNone = Ok r -> sf_mirroring ci nearest cubic h d p n b GNone = Ok r' ->
  (2 <= length (ax (sg r)))%nat -> (2 <= length (ay (sg r)))%nat -> (2 <= length (ax (sg r')))%nat -> (2 <= length (ay (sg r')))%nat ->
  ax (sg r) = ax (sg r') /\ ay (sg r) = ay (sg r') /\ cmask r r'.
Proof.
  intros W C S W' C' SM Hd HE H H' L1 L2 L1' L2'. pose proof SM as [G _].
  assert (grid_sorted (sg h)) as S' by now rewrite <- G.
  assert (pos_axis h d = pos_axis f d) as PA by (unfold pos_axis; now rewrite G).
  pose proof HE as HE'. rewrite <- PA in HE'.
  assert (exists g g', without_border f = Ok g /\ without_border h = Ok g') as (g & g' & EG & EG').
  { unfold sf_mirroring in H, H'. destruct (without_border f) as [g|]; [|discriminate]. destruct (without_border h) as [g'|]; [|discriminate]. eauto. }
  destruct (mirror_run ci nearest cubic f d p n a r dl W C S Hd HE H L1 L2)
    as (g1 & k & s & c & B & P2 & KP & P4 & P5 & P6 & P7 & P8 & P9 & P10 & P11 & P12 & P13 & P14 & P15 & P16 & P17 & P18).
  destruct (mirror_run ci nearest cubic h d p n b r' dl W' C' S' Hd HE' H' L1' L2')
    as (g1' & k' & s' & c' & B' & P2' & KP' & P4' & P5' & P6' & P7' & P8' & P9' & P10' & P11' & P12' & P13' & P14' & P15' & P16' & P17' & P18').
  rewrite PA in *.
  assert (g1 = g) as ->. { unfold without_border in EG. destruct B as [B|[B ->]]; rewrite B in EG; cbn in EG; congruence. }
  assert (g1' = g') as ->. { unfold without_border in EG'. destruct B' as [B'|[B' ->]]; rewrite B' in EG'; cbn in EG'; congruence. }
  pose proof (wb_same f h g g' W W' SM EG EG') as GG.
  assert (cmask g g') as CG.
  { split; [congruence|]. split; [congruence|]. intros x y v m v' m' Q Q'. apply (sub_shows f) in Q; [|exact P4]. apply (sub_shows h) in Q'; [|exact P4'].
    now apply (proj2 (proj2 (same_cmask f h S SM)) x y v m v' m'). }
  assert (s' = s) as ->. { destruct s, s'; auto; cbn in P2, P2'; unfold low_plane, high_plane in *; exfalso; qlra. }
  pose proof KP as (Wk & Ck & Sk & _). pose proof KP' as (Wk' & Ck' & Sk' & _).
  assert (ax (sg k) <> [] /\ ay (sg k) <> []) as [NX NY].
  { destruct d; cbn [pos_axis run_axis] in *; split; intro Q; rewrite Q in *; [cbn in P17; lia|rewrite P11 in L2; cbn in L2; lia|rewrite P11 in L1; cbn in L1; lia|cbn in P17; lia]. }
  assert (ax (sg k') <> [] /\ ay (sg k') <> []) as [NX' NY'].
  { destruct d; cbn [pos_axis run_axis] in *; split; intro Q; rewrite Q in *; [cbn in P17'; lia|rewrite P11' in L2'; cbn in L2'; lia|rewrite P11' in L1'; cbn in L1'; lia|cbn in P17'; lia]. }
  pose proof (cmask_part _ _ _ _ _ _ _ CG KP KP' NX NY NX' NY') as CK. pose proof CK as (KX & KY & KM).
  assert (pos_axis k' d = pos_axis k d) as PK by (destruct d; cbn; congruence).
  assert (c' = c) as ->. { rewrite PK in P18'. lia. }
  rewrite PK in P10'.
  pose proof (axis_extends_unique _ _ _ _ _ P10 P10') as RP.
  assert (run_axis r' d = run_axis r d) as RR by (rewrite P11, P11'; destruct d; cbn; congruence).
  assert (ax (sg r) = ax (sg r')) as RX by (destruct d; cbn in *; congruence).
  assert (ay (sg r) = ay (sg r')) as RY by (destruct d; cbn in *; congruence).
  split; [exact RX|]. split; [exact RY|]. split; [exact RX|]. split; [exact RY|].
  intros x y v m v' m' Q Q'.
  destruct P15 as [I1 I2], P15' as [I1' I2'].
  assert ((In x (ax (sg k)) /\ In y (ay (sg k))) \/ ~ (In x (ax (sg k)) /\ In y (ay (sg k)))) as [IN|NIN].
  { destruct (in_dec Qc_eq_dec x (ax (sg k))), (in_dec Qc_eq_dec y (ay (sg k))); tauto. }
  - destruct (on_shown k x y) as (w & mw & T); [tauto..|]. destruct (on_shown k' x y) as (w' & mw' & T'); [rewrite <- KX; tauto|rewrite <- KY; tauto|].
    pose proof (KM _ _ _ _ _ _ T T') as EM. apply I1 in T. apply I1' in T'.
    pose proof (shows_unique _ _ _ _ _ _ _ P9 T Q) as [_ <-]. pose proof (shows_unique _ _ _ _ _ _ _ P9' T' Q') as [_ <-]. exact EM.
  - destruct (I2 _ _ _ _ Q NIN) as (u & V & -> & ->). destruct (I2' _ _ _ _ Q') as (u' & V' & -> & ->); [rewrite <- KX, <- KY; exact NIN|].
    assert (u = None <-> u' = None) as E.
    { apply (value_none ci k k' d (image d p x y)); auto. pose proof (shown_on _ _ _ _ _ Q) as [J1 J2].
      destruct d; cbn [image fst snd run_axis] in *; [rewrite <- P11|rewrite <- P11]; assumption. }
    destruct u, u'; try reflexivity; exfalso; intuition congruence.
Qed.
