(** * AsciiProofs4: what is exported is imported again. *)
From Coq Require Import Lia Permutation.
From Verif Require Import Num Res ListLib SortLib Arr FieldModel ScalarFieldModel VectorFieldModel FieldSpec ProfileModel PointsModel ProfileSpec AsciiModel AsciiSpec.
From Verif Require Import RotateProofs FieldProofs FieldProofs2 GradProofs2 PodProofs AsciiProofs AsciiProofs2 AsciiProofs3.

Lemma lists_app {A} (gives : list onum -> A -> Prop) f l g m : lists gives f l -> lists gives g m -> lists gives (f ++ g) (l ++ m).
Proof. intros H K. induction H; cbn; [assumption|now constructor|now constructor]. Qed.
Lemma lists_map {A B : Type} (gives : list onum -> A -> Prop) (R : B -> list onum) (P : B -> A) l :
  (forall b, In b l -> gives (R b) (P b)) -> lists gives (map (fun b => Row (R b)) l) (map P l).
Proof. induction l; intros H; cbn; constructor; [apply H; now left|apply IHl; intros; apply H; now right]. Qed.
Lemma lists_flat {A C : Type} (gives : list onum -> A -> Prop) (F : C -> list line) (P : C -> list A) l :
  (forall c, In c l -> lists gives (F c) (P c)) -> lists gives (flat_map F l) (flat_map P l).
Proof. induction l; intros H; cbn; [constructor|]. apply lists_app; [apply H; now left|apply IHl; intros; apply H; now right]. Qed.

Definition sf_points (f : sfield) : list (num * num * onum) :=
  flat_map (fun i => map (fun j => (nths (ax (sg f)) i, nths (ay (sg f)) j, at_ (values f) i j)) (seq 0 (length (ay (sg f)))))
           (seq 0 (length (ax (sg f)))).
Lemma export_sf_lists f : lists (gives1 1 2 3) (export_sf f) (sf_points f).
Proof.
  constructor. apply lists_flat. intros i _.
  apply (lists_map _ (fun j => [Some (nths (ax (sg f)) i); Some (nths (ay (sg f)) j); at_ (values f) i j])).
  intros j _. repeat split; lia.
Qed.
Lemma export_sf_regular f : regular (export_sf f) 3.
Proof.
  intros r [H|H]; [discriminate|]. apply in_flat_map in H. destruct H as (i & _ & H). apply in_map_iff in H.
  destruct H as (j & [= <-] & _). reflexivity.
Qed.
Lemma nth_error_seq' n i : i < n -> nth_error (seq 0 n) i = Some i.
Proof. intros H. rewrite (nth_error_nth' _ 0) by (now rewrite seq_length). now rewrite seq_nth. Qed.
Lemma sf_clean_cells f i j : sf_clean f -> i < length (ax (sg f)) -> j < length (ay (sg f)) -> at_ (msk f) i j = isnan (at_ (values f) i j).
Proof.
  intros C Hi Hj. assert (sf_shows f (nths (ax (sg f)) i) (nths (ay (sg f)) j) (at_ (values f) i j) (at_ (msk f) i j)) as S.
  { exists i, j. repeat split; now apply nths_nth_error. }
  apply C in S. destruct (at_ (values f) i j), (at_ (msk f) i j); cbn; try reflexivity; [now (destruct S as [_ S]; specialize (S eq_refl))|].
  destruct S as [S _]. now specialize (S eq_refl).
Qed.
(** ** C128 *)
Lemma sf_roundtrip_lemma f : sf_wf f -> sf_clean f -> grid_sorted (sg f) -> 2 <= length (ax (sg f)) -> 2 <= length (ay (sg f)) ->
  exists g, import_sf (export_sf f) 1 2 3 (ux (sg f)) (uy (sg f)) (uv f) = Ok g /\ sf_same f g.
Proof.
  intros [[R0 R1] [M0 M1]] C [IX IY] LX LY.
  assert (length (sf_points f) = length (ax (sg f)) * length (ay (sg f))) as Ll.
  { unfold sf_points. now rewrite (grid_length (fun i j => (nths (ax (sg f)) i, nths (ay (sg f)) j, at_ (values f) i j))), !seq_length. }
  rewrite (import_sf_read _ 3 1 2 3 (sf_points f)); [|apply export_sf_lists|apply export_sf_regular|lia|nia].
  destruct (columns_cells (ax (sg f)) (ay (sg f)) (at_ (values f)) (sf_points f) IX IY LX LY Ll (ux (sg f)) (uy (sg f)) (uv f))
    as (g & E & G & U & W & H).
  { intros i j Hi Hj. unfold sf_points. rewrite <- (seq_length (length (ay (sg f))) 0) at 1.
    now rewrite (grid_nth (fun i j => (nths (ax (sg f)) i, nths (ay (sg f)) j, at_ (values f) i j)) _ _ i j i j)
      by (now apply nth_error_seq'). }
  exists g. split; [exact E|]. unfold sf_same. rewrite G, U. cbn [ax ay ux uy]. repeat (split; [reflexivity|]).
  destruct W as [[W0 W1] [W2 W3]]. rewrite G in W0, W1, W2, W3. cbn [ax ay] in *. split.
  - repeat split; cbn; try congruence. intros i j Hi Hj. rewrite R0 in Hi. rewrite R1 in Hj. symmetry. exact (proj1 (H i j Hi Hj)).
  - repeat split; cbn; try congruence. intros i j Hi Hj. rewrite M0 in Hi. rewrite M1 in Hj. rewrite (sf_clean_cells f i j C Hi Hj).
    symmetry. exact (proj2 (H i j Hi Hj)).
Qed.

Definition vf_points (f : vfield) : list (num * num * (onum * onum)) :=
  flat_map (fun i => map (fun j => (nths (ax (vg f)) i, nths (ay (vg f)) j, (at_ (cx f) i j, at_ (cy f) i j))) (seq 0 (length (ay (vg f)))))
           (seq 0 (length (ax (vg f)))).
Lemma export_vf_lists f : lists (gives2 1 2 3 4) (export_vf f) (vf_points f).
Proof.
  constructor. apply lists_flat. intros i _.
  apply (lists_map _ (fun j => [Some (nths (ax (vg f)) i); Some (nths (ay (vg f)) j); at_ (cx f) i j; at_ (cy f) i j])).
  intros j _. repeat split; lia.
Qed.
Lemma export_vf_regular f : regular (export_vf f) 4.
Proof.
  intros r [H|H]; [discriminate|]. apply in_flat_map in H. destruct H as (i & _ & H). apply in_map_iff in H.
  destruct H as (j & [= <-] & _). reflexivity.
Qed.
Lemma vf_points_in f p : In p (vf_points f) <-> exists i j, i < length (ax (vg f)) /\ j < length (ay (vg f)) /\
  p = (nths (ax (vg f)) i, nths (ay (vg f)) j, (at_ (cx f) i j, at_ (cy f) i j)).
Proof.
  unfold vf_points. rewrite (grid_in (fun i j => (nths (ax (vg f)) i, nths (ay (vg f)) j, (at_ (cx f) i j, at_ (cy f) i j)))).
  split; intros (i & j & Hi & Hj & ->); exists i, j; rewrite ?in_seq in *; repeat split; lia.
Qed.
Lemma vf_points_last f i j : grid_sorted (vg f) -> i < length (ax (vg f)) -> j < length (ay (vg f)) ->
  last_at (vf_points f) (nths (ax (vg f)) i) (nths (ay (vg f)) j) (at_ (cx f) i j, at_ (cy f) i j).
Proof.
  intros [IX IY] Hi Hj. destruct (last_or_nothing (vf_points f) (nths (ax (vg f)) i) (nths (ay (vg f)) j)) as [Hn|[v Hv]].
  - exfalso. apply (Hn (at_ (cx f) i j, at_ (cy f) i j)). apply vf_points_in. now exists i, j.
  - destruct Hv as (a & b & E & Hb) eqn:Ev. clear Ev.
    assert (In (nths (ax (vg f)) i, nths (ay (vg f)) j, v) (vf_points f)) as Hin by (rewrite E; apply in_elt).
    apply vf_points_in in Hin. destruct Hin as (i' & j' & Hi' & Hj' & Eq). injection Eq as E1 E2 E3.
    apply (increasing_inj _ _ _ IX) in E1; [|assumption|assumption]. apply (increasing_inj _ _ _ IY) in E2; [|assumption|assumption]. subst i' j' v.
    now exists a, b.
Qed.
Lemma vf_roundtrip_lemma f : vf_wf f -> vf_nan_masked f -> grid_sorted (vg f) -> 2 <= length (ax (vg f)) -> 2 <= length (ay (vg f)) ->
  exists g, import_vf (export_vf f) 1 2 3 4 (ux (vg f)) (uy (vg f)) (vuv f) = Ok g /\ vf_same f g.
Proof.
  intros ((X0 & X1) & (Y0 & Y1) & (M0 & M1)) C GS LX LY. pose proof GS as [IX IY].
  assert (forall i j, i < length (ax (vg f)) -> j < length (ay (vg f)) -> x_in (vf_points f) (nths (ax (vg f)) i) /\ y_in (vf_points f) (nths (ay (vg f)) j)) as Hxy.
  { intros i j Hi Hj. split; [exists (nths (ay (vg f)) j)|exists (nths (ax (vg f)) i)]; exists (at_ (cx f) i j, at_ (cy f) i j);
      apply vf_points_in; now exists i, j. }
  assert (forall l a b, increasing l -> a < b -> b < length l -> nths l a <> nths l b) as Nd.
  { intros l a b I Hab Hb E. pose proof (I a b Hab Hb). rewrite E in H. qlra. }
  destruct (import_vf_lemma (export_vf f) 4 1 2 3 4 (vf_points f) (ux (vg f)) (uy (vg f)) (vuv f)) as
    (g & E & W & [JX JY] & U1 & U2 & U3 & AX & AY & H).
  { apply export_vf_lists. } { apply export_vf_regular. } { lia. }
  { exists (nths (ax (vg f)) 0), (nths (ax (vg f)) 1). repeat split; [apply (Hxy 0 0); lia|apply (Hxy 1 0); lia|apply Nd; auto; lia]. }
  { exists (nths (ay (vg f)) 0), (nths (ay (vg f)) 1). repeat split; [apply (Hxy 0 0); lia|apply (Hxy 0 1); lia|apply Nd; auto; lia]. }
  assert (ax (vg g) = ax (vg f)) as EX.
  { apply increasing_ext; [assumption|assumption|]. intros x. rewrite AX. split.
    - intros (y & v & Hin). apply vf_points_in in Hin. destruct Hin as (i & j & Hi & Hj & [= -> _ _]). now apply nth_In.
    - intros Hx. destruct (In_nth_error _ _ Hx) as [i Hi]. rewrite <- (nth_error_nths _ _ _ Hi). apply (Hxy i 0); [eapply nth_error_Some_lt; eauto|lia]. }
  assert (ay (vg g) = ay (vg f)) as EY.
  { apply increasing_ext; [assumption|assumption|]. intros y. rewrite AY. split.
    - intros (x & v & Hin). apply vf_points_in in Hin. destruct Hin as (i & j & Hi & Hj & [= _ -> _]). now apply nth_In.
    - intros Hy. destruct (In_nth_error _ _ Hy) as [j Hj]. rewrite <- (nth_error_nths _ _ _ Hj). apply (Hxy 0 j); [lia|eapply nth_error_Some_lt; eauto]. }
  exists g. split; [exact E|].
  assert (forall i j, i < length (ax (vg f)) -> j < length (ay (vg f)) ->
    at_ (cx f) i j = at_ (cx g) i j /\ at_ (cy f) i j = at_ (cy g) i j /\ at_ (vmsk f) i j = at_ (vmsk g) i j) as K.
  { intros i j Hi Hj. destruct (H (nths (ax (vg f)) i) (nths (ay (vg f)) j)) as [_ H2]; [apply (Hxy i j); assumption|apply (Hxy i j); assumption|].
    specialize (H2 _ _ (vf_points_last f i j GS Hi Hj)). cbv zeta in H2. destruct H2 as (i' & j' & Ei & Ej & V1 & V2 & V3).
    rewrite EX in Ei. rewrite EY in Ej.
    assert (i' = i) as -> by (apply (increasing_inj _ _ _ IX); [eapply nth_error_Some_lt; eauto|assumption|now apply nth_error_nths]).
    assert (j' = j) as -> by (apply (increasing_inj _ _ _ IY); [eapply nth_error_Some_lt; eauto|assumption|now apply nth_error_nths]).
    assert (vf_shows f (nths (ax (vg f)) i) (nths (ay (vg f)) j) (at_ (cx f) i j) (at_ (cy f) i j) (at_ (vmsk f) i j)) as S.
    { exists i, j. repeat split; now apply nths_nth_error. }
    apply C in S. rewrite V1, V2, V3.
    destruct (at_ (cx f) i j), (at_ (cy f) i j), (at_ (vmsk f) i j); cbn; auto; destruct S as [[S1 S2] [S3 S4]];
      repeat match goal with H : ?a = ?a -> _ |- _ => specialize (H eq_refl) end; try discriminate; auto. }
  destruct W as ((A0 & A1) & (B0 & B1) & (C0 & C1)).
  unfold vf_same. rewrite EX, EY. repeat (split; [congruence|]).
  repeat split; try congruence; intros i j Hi Hj; apply K; congruence.
Qed.

(** ** Profiles and points *)
Lemma nan_at_self (y : list onum) : nan_at (map isnan y) y = y.
Proof. unfold nan_at. induction y as [|[v|] y IH]; cbn in *; [reflexivity| |]; now rewrite IH. Qed.
Lemma nan_at_none (y : list onum) : nan_at (repeat false (length y)) y = y.
Proof. unfold nan_at. induction y as [|v y IH]; cbn in *; [reflexivity|]. now rewrite IH. Qed.
Lemma or_false_isnan (y : list onum) : map (fun t : bool * onum => orb (fst t) (isnan (snd t))) (combine (repeat false (length y)) y) = map isnan y.
Proof. induction y; cbn; [reflexivity|]. now rewrite IHy. Qed.
Lemma nth_error_ext' {A} (l m : list A) : (forall i, nth_error l i = nth_error m i) -> l = m.
Proof.
  revert m; induction l as [|a l IH]; intros [|b m] H; [reflexivity|specialize (H 0); discriminate|specialize (H 0); discriminate|].
  f_equal; [specialize (H 0); cbn in H; congruence|apply IH; intros i; exact (H (S i))].
Qed.
Lemma nth_error_combine' {A B} (l : list A) (m : list B) i a b : nth_error l i = Some a -> nth_error m i = Some b -> nth_error (combine l m) i = Some (a, b).
Proof. revert m i; induction l as [|a0 l IH]; intros [|b0 m] [|i] H K; cbn in *; try discriminate; [congruence|]. now apply IH. Qed.
Lemma combine_maps {A B} (l : list A) (m : list B) : length l = length m -> map fst (combine l m) = l /\ map snd (combine l m) = m.
Proof.
  revert m; induction l as [|a l IH]; intros [|b m] H; cbn in *; try lia; [auto|]. destruct (IH m) as [-> ->]; [lia|]. auto.
Qed.
Lemma gather_all {A} (d : A) n l : length l = n -> gather d (seq 0 n) l = l.
Proof. intros <-. apply gather_seq. Qed.
Lemma profile_roundtrip_lemma p : prof_ok p -> prof_clean p -> increasing (px p) -> 2 <= length (px p) ->
  exists q, import_prof (export_prof p) 1 2 (pux p) (puy p) = Ok q /\ px q = px p /\ yv q = yv p /\ pm q = pm p /\ pux q = pux p /\ puy q = puy p.
Proof.
  intros (L1 & L2 & _ & Yv) N I L. unfold import_prof. cbn [Nat.eqb orb guard].
  assert (length (yv p) = length (px p)) as Ly by congruence.
  set (gives := fun (r : list onum) (t : num * onum) => cell r 1 (Some (fst t)) /\ cell r 2 (snd t)).
  assert (lists gives (export_prof p) (map (fun t => t) (combine (px p) (yv p)))) as Ls.
  { constructor. apply (lists_map gives (fun t : num * onum => [Some (fst t); snd t])). intros t _. repeat split; lia. }
  rewrite map_id in Ls.
  assert (forall r t, gives r t -> r <> []) as Ne by (intros r t [H _]; now apply cell_nonempty in H).
  rewrite (genfromtxt_ok gives Ne _ _ 2 Ls); [|intros r [H|H]; [discriminate|]; apply in_map_iff in H; now destruct H as (t & [= <-] & _)|lia|].
  2:{ rewrite combine_length. lia. }
  pose proof (rows_forall2 gives Ne _ _ Ls) as F. cbn [bind].
  rewrite (coords_ok gives _ _ 1 fst F) by (intros ? ? H; apply H). cbn [bind].
  rewrite (column_ok gives _ _ 2 snd F) by (intros ? ? H; apply H). cbn [bind].
  destruct (combine_maps (px p) (yv p)) as [-> ->]; [congruence|].
  unfold prof_new. rewrite Ly, Nat.eqb_refl, repeat_length, Nat.ltb_irrefl. cbn [negb guard].
  rewrite (argsort_id (px p)) by (now apply increasing_nondecreasing).
  rewrite (gather_all (qz 0)) by reflexivity. rewrite (gather_all None) by assumption. rewrite (gather_all false) by apply repeat_length.
  rewrite <- Ly. rewrite nan_at_none, or_false_isnan, nan_at_self.
  eexists. split; [reflexivity|]. cbn [px py pm pux puy]. repeat split.
  - unfold yv at 1. cbn [pm py]. apply nan_at_self.
  - apply nth_error_ext'. intros i. rewrite nth_error_map.
    destruct (nth_error (pm p) i) as [m|] eqn:Em.
    + assert (i < length (pm p)) as Hi by (eapply nth_error_Some_lt; eauto).
      destruct (nth_error (yv p) i) as [v|] eqn:Ev; [|apply nth_error_None in Ev; lia].
      destruct (nth_error (px p) i) as [x|] eqn:Ex; [|apply nth_error_None in Ex; lia].
      assert (In (x, v, m) (samples p)) as Hin.
      { apply nth_error_In with (n := i). apply nth_error_combine'; [|assumption]. now apply nth_error_combine'. }
      apply N in Hin. cbn in Hin. cbn. now rewrite Hin.
    + apply nth_error_None in Em. rewrite (proj2 (nth_error_None _ _)); [reflexivity|]. lia.
Qed.
Lemma points_roundtrip_lemma p : v_fits (pv p) (length (xy p)) = true -> 2 <= length (xy p) ->
  import_pts (export_pts p) 1 2 (if Nat.eqb (length (pv p)) 0 then None else Some 3) (ptx p) (pty p) (ptv p) = Ok p.
Proof.
  intros V L. unfold import_pts. cbn [Nat.eqb orb guard]. unfold v_fits in V. apply orb_true_iff in V. unfold export_pts.
  destruct (Nat.eqb_spec (length (pv p)) 0) as [Z|Z].
  - clear V. set (gives := fun (r : list onum) (t : num * num) => cell r 1 (Some (fst t)) /\ cell r 2 (Some (snd t))).
    set (f := Comment :: _).
    assert (lists gives f (map (fun t => t) (xy p))) as Ls.
    { constructor. apply (lists_map gives (fun q : num * num => [Some (fst q); Some (snd q)])). intros t _. repeat split; lia. }
    rewrite map_id in Ls.
    assert (forall r t, gives r t -> r <> []) as Ne by (intros r t [H _]; now apply cell_nonempty in H).
    rewrite (genfromtxt_ok gives Ne _ _ 2 Ls); [|intros r [H|H]; [discriminate|]; apply in_map_iff in H; now destruct H as (t & [= <-] & _)|lia|assumption].
    pose proof (rows_forall2 gives Ne _ _ Ls) as F. cbn [bind].
    rewrite (coords_ok gives _ _ 1 fst F) by (intros ? ? H; apply H). cbn [bind].
    rewrite (coords_ok gives _ _ 2 snd F) by (intros ? ? H; apply H). cbn [bind].
    rewrite combine_map2. replace (map _ (xy p)) with (xy p) by (rewrite <- (map_id (xy p)) at 1; apply map_ext; now intros []).
    unfold pts_new, v_fits. cbn. destruct p as [q v a b c]. cbn in *. now destruct v.
  - destruct V as [V|V]; [discriminate|]. apply Nat.eqb_eq in V.
    set (gives := fun (r : list onum) (t : num * num * num) => cell r 1 (Some (fst (fst t))) /\ cell r 2 (Some (snd (fst t))) /\ cell r 3 (Some (snd t))).
    set (f := Comment :: _).
    assert (lists gives f (map (fun t => t) (combine (xy p) (pv p)))) as Ls.
    { constructor. apply (lists_map gives (fun t : (num * num) * num => [Some (fst (fst t)); Some (snd (fst t)); Some (snd t)])). intros t _. repeat split; lia. }
    rewrite map_id in Ls.
    assert (forall r t, gives r t -> r <> []) as Ne by (intros r t [H _]; now apply cell_nonempty in H).
    rewrite (genfromtxt_ok gives Ne _ _ 3 Ls); [|intros r [H|H]; [discriminate|]; apply in_map_iff in H; now destruct H as (t & [= <-] & _)|lia|].
    2:{ rewrite combine_length. lia. }
    pose proof (rows_forall2 gives Ne _ _ Ls) as F. cbn [bind].
    rewrite (coords_ok gives _ _ 1 (fun t => fst (fst t)) F) by (intros ? ? H; apply H). cbn [bind].
    rewrite (coords_ok gives _ _ 2 (fun t => snd (fst t)) F) by (intros ? ? H; apply H). cbn [bind].
    cbn [Nat.eqb]. rewrite (coords_ok gives _ _ 3 snd F) by (intros ? ? H; apply H). cbn [bind].
    destruct (combine_maps (xy p) (pv p)) as [E1 E2]; [congruence|]. rewrite E2, combine_map2.
    replace (map _ (combine (xy p) (pv p))) with (xy p) by (rewrite <- E1 at 1; apply map_ext; now intros [[]]).
    unfold pts_new, v_fits. rewrite V, Nat.eqb_refl, orb_true_r. now destruct p.
Qed.
(** a single point cannot be read again *)
Lemma points_single_lemma p : length (xy p) = 1 -> forall xc yc vc u w z, 1 <= xc -> 1 <= yc ->
  import_pts (export_pts p) xc yc vc u w z = Err IndexErr.
Proof.
  intros L xc yc vc u w z Hx Hy. unfold import_pts. destruct (Nat.eqb_spec xc 0); [lia|]. destruct (Nat.eqb_spec yc 0); [lia|]. cbn [orb guard].
  unfold export_pts. destruct (xy p) as [|a [|b t]]; cbn in L; try lia.
  destruct (pv p) as [|v [|]]; reflexivity.
Qed.
Lemma profile_single_lemma p : length (px p) = 1 -> forall xc yc u w, 1 <= xc -> 1 <= yc ->
  import_prof (export_prof p) xc yc u w = Err IndexErr.
Proof.
  intros L xc yc u w Hx Hy. unfold import_prof. destruct (Nat.eqb_spec xc 0); [lia|]. destruct (Nat.eqb_spec yc 0); [lia|]. cbn [orb guard].
  unfold export_prof. destruct (px p) as [|a [|b t]]; cbn in L; try lia.
  destruct (yv p) as [|v [|]]; reflexivity.
Qed.

(** ** lines with different numbers of columns *)
Lemma ragged_read f r s : In (Row r) f -> In (Row s) f -> r <> [] -> s <> [] -> length r <> length s -> genfromtxt f = Err ValueErr.
Proof.
  intros R S Nr Ns D. assert (IR : In r (rows_of f)) by (apply in_flat_map; exists (Row r); split; [exact R|destruct r; [congruence|now left]]).
  assert (IS : In s (rows_of f)) by (apply in_flat_map; exists (Row s); split; [exact S|destruct s; [congruence|now left]]).
  unfold genfromtxt. destruct (rows_of f) as [|q t]; [contradiction|].
  assert (X : exists z, In z t /\ length z <> length q).
  { destruct IR as [<-|IR]; [destruct IS as [<-|IS]; [congruence|exists s; split; [exact IS|congruence]]|].
    destruct (Nat.eq_dec (length r) (length q)) as [E|]; [|now exists r]. destruct IS as [<-|IS]; [congruence|]. exists s. split; [exact IS|congruence]. }
  destruct X as (z & Iz & Hz). replace (existsb _ t) with true; [reflexivity|]. symmetry. apply existsb_exists. exists z. split; [exact Iz|].
  apply negb_true_iff. now apply Nat.eqb_neq.
Qed.
Lemma ragged_lemma f r s : In (Row r) f -> In (Row s) f -> r <> [] -> s <> [] -> length r <> length s ->
  (forall xc yc vc u w z, import_sf f xc yc vc u w z = Err ValueErr) /\ (forall xc yc vxc vyc u w z, import_vf f xc yc vxc vyc u w z = Err ValueErr) /\
  (forall xc yc u w, import_prof f xc yc u w = Err ValueErr) /\ (forall xc yc vc u w z, import_pts f xc yc vc u w z = Err ValueErr).
Proof.
  intros R S Nr Ns D. pose proof (ragged_read f r s R S Nr Ns D) as E.
  split; [|split; [|split]]; intros; unfold import_sf, import_vf, import_prof, import_pts, guard; rewrite E; match goal with |- (if ?b then _ else _) = _ => now destruct b end.
Qed.
