(** * WallProofs2: the extrapolation of vector fields until a wall *)
From Coq Require Import Lia.
From Verif Require Import Num Res ListLib Arr FieldModel ScalarFieldModel VectorFieldModel FieldSpec FieldProofs2 FieldProofs3
  GradModel GradSpec GradProofs GradProofs2 PodModel WallModel WallSpec WallProofs.

Lemma comp_fill nearest w c g v m u : grid_sorted g -> 2 <= length (ax g) -> 2 <= length (ay g) -> has_shape v (length (ax g)) (length (ay g)) -> has_shape m (length (ax g)) (length (ay g)) ->
  exists s s', sf_import (ax g) (ay g) v (Some m) (ux g) (uy g) u = Ok s /\ sf_fill nearest w c s FLinear 0%num = Ok s' /\ has_shape (values s') (length (ax g)) (length (ay g)) /\
    forall i j, i < length (ax g) -> j < length (ay g) -> at_ (msk s) i j = (at_ m i j || isnan (at_ v i j))%bool /\
      at_ (values s') i j = if at_ (msk s) i j then or_else (w s i j) (nearest s i j) else at_ v i j.
Proof.
  intros S LX LY (V0 & V1) (M0 & M1). pose proof S as (SX & SY). rewrite (sf_import_plain _ _ v m _ _ u SX SY LX LY V0 V1). set (s := mksf _ _ _ _). exists s.
  assert (Ms : forall i j, at_ (msk s) i j = (at_ m i j || isnan (at_ v i j))%bool) by reflexivity.
  assert (Ws : sf_wf s) by (split; split; assumption).
  assert (Cs : sf_clean s).
  { apply sf_clean_idx. intros i j Hi Hj. change (at_ (values s) i j) with (if at_ (msk s) i j then None else at_ v i j). rewrite Ms. destruct (at_ m i j), (at_ v i j); cbn; split; congruence. }
  destruct (sf_fill_run nearest w c s FLinear 0%num Ws Cs S LX LY) as (s' & E & O & P); [left; discriminate|].
  exists s'. split; [reflexivity|]. split; [exact E|]. destruct O as (G & _ & Wf). split; [pose proof (values_shape s' Wf) as Q; rewrite G in Q; exact Q|].
  intros i j Hi Hj. split; [apply Ms|]. destruct (P i j Hi Hj) as (-> & _). cbn [replacement]. destruct (at_ (msk s) i j) eqn:Q; [reflexivity|]. change (at_ (values s) i j) with (if at_ (msk s) i j then None else at_ v i j). now rewrite Q.
Qed.
Lemma vf_fill_in_run nearest w c h : vf_wf h -> grid_sorted (vg h) -> 2 <= length (ax (vg h)) -> 2 <= length (ay (vg h)) ->
  exists f', vf_fill_in nearest w c h = Ok f' /\ vf_wf f' /\ vuv f' = vuv h /\ vf_filled nearest w h f'.
Proof.
  intros (W1 & W2 & W3) S LX LY. unfold vf_fill_in, comp_x_sf, comp_y_sf.
  destruct (comp_fill nearest w c (vg h) (cx h) (vmsk h) (vuv h) S LX LY W1 W3) as (sx & sx' & Ex & Fx & (Sx0 & Sx1) & Px).
  destruct (comp_fill nearest w c (vg h) (cy h) (vmsk h) (vuv h) S LX LY W2 W3) as (sy & sy' & Ey & Fy & (Sy0 & Sy1) & Py).
  rewrite Ex, Ey. cbn [bind]. rewrite Fx, Fy. cbn [bind]. unfold vf_set_comp_x, vf_set_comp_y, shape_is. rewrite Sx0, Sx1, !Nat.eqb_refl. cbn [andb bind vg]. rewrite Sy0, Sy1, !Nat.eqb_refl. cbn [andb bind vg cx cy vuv].
  eexists. split; [reflexivity|]. split; [split; [split; assumption|split; [split; assumption|split; reflexivity]]|]. split; [reflexivity|]. split; [reflexivity|].
  exists sx, sy. split; [exact Ex|]. split; [exact Ey|]. intros i j Hi Hj. destruct (Px i j Hi Hj) as (A & B). destruct (Py i j Hi Hj) as (A' & B'). split; [reflexivity|]. auto.
Qed.
Lemma vf_wall_run nearest linear cubic f d pos kind low n : vf_wf f -> grid_sorted (vg f) -> 2 <= length (ax (vg f)) -> 2 <= length (ay (vg f)) ->
  is_dir d -> wall_checks (vg f) d pos kind = Ok (low, Z.of_nat n) ->
  exists h f', vf_until_wall nearest linear cubic f d pos kind = Ok f' /\ vf_wf f' /\ grid_sorted (vg f') /\ grown d low n (vg f) (vg f') /\ vuv f' = vuv f /\
    vf_wf h /\ vf_walled d (end_of low (waxis d (vg f'))) f h /\ vf_filled nearest (wall_interp linear cubic kind) h f'.
Proof.
  intros W S LX LY D E. unfold vf_until_wall. rewrite E. cbn [bind]. assert ((Z.of_nat n <? 0)%Z = false) as -> by (apply Z.ltb_ge; lia). cbn [guard]. rewrite Nat2Z.id.
  assert (X : exists nl nr nu nd, wall_sides d low n = (nl, nr, nu, nd) /\
     (d = WX -> nl = (if low then n else 0) /\ nr = (if low then 0 else n) /\ nu = 0 /\ nd = 0) /\ (d = WY -> nd = (if low then n else 0) /\ nu = (if low then 0 else n) /\ nl = 0 /\ nr = 0)).
  { destruct D as [-> | ->], low; cbn; do 4 eexists; (split; [reflexivity|]); split; intro; try discriminate; auto. }
  destruct X as (nl & nr & nu & nd & -> & DX & DY).
  destruct (vf_extend_full f nl nr nu nd W S LX LY) as (f1 & -> & W1 & S1 & AX & AY & K & Fr & U1 & U2 & U3). cbn [bind].
  pose proof W1 as ((A0 & A1) & (C0 & C1) & (B0 & B1)).
  set (h := mkvf (vg f1) _ _ _ _).
  assert (Wh : vf_wf h) by (split; [split; assumption|split; split; assumption]).
  assert (Wd : vf_walled d (end_of low (waxis d (vg f1))) f h).
  { intros x y vx vy m (i & j & Ei & Ej & Ev & Ew & Em). pose proof (on_wall_coord d low (vg f1) i j x y S1 D Ei Ej) as O.
    cbn [h cx cy vmsk wall_set at_] in Ev, Ew, Em. rewrite A0, A1 in Ev. rewrite C0, C1 in Ew. rewrite B0, B1 in Em. change (vg h) with (vg f1) in Ei, Ej.
    destruct (on_wall _ _ _ _ i j).
    - assert (Q : across d x y = end_of low (waxis d (vg f1))) by now apply O. subst vx vy m. split; [intros _; repeat split; reflexivity|]. split; intro Z; contradiction.
    - assert (Q : across d x y <> end_of low (waxis d (vg f1))) by (intro Z; apply O in Z; discriminate Z). split; [intro Z; contradiction|].
      assert (Sh : vf_shows f1 x y vx vy m) by (exists i, j; auto 6). split; [intros _ Ix Iy; apply (K x y vx vy m Ix Iy); exact Sh|]. intros _ N. exact (Fr x y vx vy m Sh N). }
  assert (LX' : 2 <= length (ax (vg f1))) by (destruct AX as (-> & _); lia). assert (LY' : 2 <= length (ay (vg f1))) by (destruct AY as (-> & _); lia).
  destruct (vf_fill_in_run nearest (wall_interp linear cubic kind) cubic h Wh S1 LX' LY') as (f' & -> & W' & U' & Fl).
  pose proof Fl as (Sg & _). change (vg h) with (vg f1) in Sg. exists h, f'. split; [reflexivity|]. split; [exact W'|]. rewrite Sg. split; [exact S1|]. split.
  { split; [|split; [|split; assumption]].
    - destruct D as [-> | ->]; [destruct (DX eq_refl) as (<- & <- & _)|destruct (DY eq_refl) as (<- & <- & _)]; assumption.
    - destruct D as [-> | ->]; cbn [along_axis]; [destruct (DX eq_refl) as (_ & _ & -> & ->); apply axis_same; exact AY|destruct (DY eq_refl) as (_ & _ & -> & ->); apply axis_same; exact AX]. }
  split; [rewrite U'; exact U3|]. split; [exact Wh|]. split; [exact Wd|]. exact Fl.
Qed.
