(** * TurbProofs: Reynolds stresses *)
From Coq Require Import Permutation Lia.
From Verif Require Import Num Res ListLib SortLib Arr FieldModel ScalarFieldModel VectorFieldModel FieldSpec FieldProofs FieldProofs2 SeqSpec PointsModel PointsSpec
  TemporalModel TemporalSpec TemporalSpec2 TemporalProofs2 TemporalProofs5 TemporalProofs6 TemporalProofs10 TemporalProofs14 GradProofs2 TurbModel TurbSpec.

Lemma forall2_frames {F G} (R : F -> G -> Prop) (ts : list num) (fs : list F) (us : list num) (gs : list G) : length fs = length ts -> length gs = length us ->
  Forall2 (fun a b => fst b = fst a /\ R (snd a) (snd b)) (combine ts fs) (combine us gs) -> Forall2 R fs gs.
Proof.
  revert fs us gs. induction ts as [|t ts IH]; intros [|f fs] [|u us] [|g gs] L1 L2 H; try discriminate L1; try discriminate L2; cbn in *; inversion H; subst; constructor; [tauto|]. apply (IH fs us gs); auto.
Qed.
Lemma shape_is_iff {A} (a : arr A) g : d0 a = length (ax g) -> d1 a = length (ay g) -> shape_is a g = true.
Proof. intros E1 E2. unfold shape_is. now rewrite E1, E2, !Nat.eqb_refl. Qed.

Section Cell.
  Context (c d : vfield -> arr onum) (m : vfield) (u : unit_t) (i j : nat).
  (** the frames of the fluctuations, each against the frame it comes from *)
  Definition frame_ok (f e : vfield) : Prop := vuv f = u /\ at_ (vmsk e) i j = (at_ (vmsk f) i j || at_ (vmsk m) i j)%bool /\
    (at_ (vmsk e) i j = false -> exists a ma b mb, at_ (c f) i j = Some a /\ at_ (c m) i j = Some ma /\ at_ (d f) i j = Some b /\ at_ (d m) i j = Some mb /\
       at_ (c e) i j = Some (a - ma)%num /\ at_ (d e) i j = Some (b - mb)%num).
  Lemma dev_known f e : vuv m = u -> frame_ok f e -> at_ (vmsk e) i j = false -> exists a b, at_ (c e) i j = Some a /\ at_ (d e) i j = Some b /\
    dev c m f i j = Some (a * sc u)%num /\ dev d m f i j = Some (b * sc u)%num.
  Proof.
    intros UM (U & M & H) E. destruct (H E) as (a & ma & b & mb & E1 & E2 & E3 & E4 & E5 & E6). exists (a - ma)%num, (b - mb)%num. split; [exact E5|]. split; [exact E6|].
    rewrite M in E. apply orb_false_iff in E. destruct E as (F1 & F2). unfold dev, phys. rewrite F1, F2, E1, E2, E3, E4, U, UM. cbn. split; f_equal; qring.
  Qed.
  Lemma dev_unknown f e : frame_ok f e -> at_ (vmsk e) i j = true -> dev c m f i j = None /\ dev d m f i j = None.
  Proof.
    intros (U & M & H) E. rewrite M in E. unfold dev, phys. destruct (at_ (vmsk f) i j); [auto|]. cbn in E. rewrite E. split; [destruct (option_map _ _)|destruct (option_map _ _)]; reflexivity.
  Qed.
  Lemma rs_fold fs es : vuv m = u -> Forall2 frame_ok fs es -> forall s n,
    exists s', fold_left (fun (a : onum * nat) f => if at_ (vmsk f) i j then a else (oadd (fst a) (omul (at_ (c f) i j) (at_ (d f) i j)), S (snd a))) es (Some s, n)
      = (Some s', n + length (dev_products c d m fs i j)) /\ (s' * (sc u * sc u) = s * (sc u * sc u) + total (dev_products c d m fs i j))%num /\
    rs_count es i j = length (dev_products c d m fs i j).
  Proof.
    intros UM F. induction F as [|f e fs es H F IH]; intros s n.
    - exists s. split; [cbn; now rewrite Nat.add_0_r|]. split; [unfold total; cbn; qring|reflexivity].
    - cbn [fold_left]. unfold rs_count in *. cbn [filter]. unfold dev_products, known2 in *. cbn [flat_map].
      destruct (at_ (vmsk e) i j) eqn:E.
      + destruct (dev_unknown _ _ H E) as (R1 & _). rewrite R1. cbn [app negb]. apply IH.
      + destruct (dev_known _ _ UM H E) as (a & b & E1 & E2 & R1 & R2). rewrite R1, R2, E1, E2. cbn [fst snd omul lift2 oadd app length negb].
        destruct (IH (s + a * b)%num (S n)) as (s' & -> & H1 & H2). exists s'. split; [f_equal; lia|]. split; [|cbn [length]; lia].
        unfold total in *. cbn [fold_right]. rewrite H1. qring.
  Qed.
End Cell.

Lemma qmul_inj_r a b c : c <> 0%num -> (a * c = b * c)%num -> a = b.
Proof. intros N H. rewrite <- (qmul_div a c N), <- (qmul_div b c N). now rewrite H. Qed.
Lemma qn_pos n : (0 < n)%nat -> (0 < qn n)%num.
Proof. intro H. unfold qn. apply qz_lt. lia. Qed.
Lemma rs_field c d m u fs es g nmin : good_unit u -> grid_ok2 g -> vuv m = u -> (0 <= nmin)%Z ->
  (forall i j, i < length (ax g) -> j < length (ay g) -> Forall2 (frame_ok c d m u i j) fs es) ->
  exists r, sf_import (ax g) (ay g) (mkarr (length (ax g)) (length (ay g)) (rs_cell c d es nmin))
      (Some (mkarr (length (ax g)) (length (ay g)) (fun i j => (Z.of_nat (rs_count es i j) <=? nmin)%Z))) (ux g) (uy g) (unit_mul u u) = Ok r /\
    uv r = unit_mul u u /\ shows_averages r g (dev_products c d m fs) nmin.
Proof.
  intros GU ((IX & IY) & LX & LY) UM NM H. eexists. split; [apply sf_import_plain; auto|]. split; [reflexivity|].
  split; [destruct g; reflexivity|]. split; [repeat split|]. intros i j Hi Hj. cbn [msk amap2 amap at_ uv raw values].
  destruct (rs_fold c d m u i j fs es UM (H i j Hi Hj) 0%num 0) as (s & E & Hs & Hc). unfold rs_cell. rewrite E. rewrite Hc. cbn [Nat.add].
  set (l := dev_products c d m fs i j) in *. destruct (Z.leb_spec (Z.of_nat (length l)) nmin) as [A|A].
  - split; [tauto|]. cbn [orb]. discriminate.
  - destruct (Z.ltb_spec nmin (Z.of_nat (length l))) as [B|B]; [|lia]. cbn [option_map isnan orb]. split; [split; [discriminate|lia]|]. intros _.
    exists (s / qn (length l))%num. split; [reflexivity|]. cbn [unit_mul sc].
    assert (P : (0 < qn (length l))%num) by (apply qn_pos; lia). rewrite <- (qdiv_mul s (qn (length l))) in Hs by (now apply qgt_neq).
    transitivity (s / qn (length l) * qn (length l) * (sc u * sc u))%num; [qring|]. rewrite Hs. qring.
Qed.

Lemma reynolds_lemma asort t nmin u : is_argsort asort -> vf_series_ok t -> tf_ok t -> increasing (tft t) -> good_unit (tfu t) -> tff t <> [] -> (0 <= nmin)%Z -> one_unit_for t u ->
  exists m xx yy xy, tf_mean vf_ops t 1 = Ok m /\ reynolds asort t nmin = Ok (xx, yy, xy) /\
    uv xx = unit_mul u u /\ uv yy = unit_mul u u /\ uv xy = unit_mul u u /\
    shows_averages xx (tfg t) (dev_products cx cx m (tff t)) nmin /\ shows_averages yy (tfg t) (dev_products cy cy m (tff t)) nmin /\
    shows_averages xy (tfg t) (dev_products cx cy m (tff t)) nmin.
Proof.
  intros AS SO O I GU NE NM OU. destruct (tf_fluct_vf asort t 1 AS SO O I GU NE) as (m & t' & Em & Et & O' & G' & _ & EF & _); [lia|].
  destruct (tf_mean_vf t 1 SO NE) as (m2 & Em2 & _ & _ & (f0 & r & E0 & Um) & _); [lia|]. rewrite Em in Em2. injection Em2 as <-.
  assert (UM : vuv m = u) by (rewrite Um; apply OU; rewrite E0; now left).
  destruct SO as (GO & OG & FO & _). assert (GUu : good_unit u) by (rewrite <- UM, Um; apply FO; rewrite E0; now left).
  assert (FF : Forall2 (fun f e => vminus_mean f m e) (tff t) (tff t')) by (apply (forall2_frames (fun f e => vminus_mean f m e) (tft t) (tff t) (tft t') (tff t')); [symmetry; apply O|symmetry; apply O'|exact EF]).
  unfold reynolds. rewrite Et. cbn [bind].
  assert (SH : existsb (fun f => negb (shape_is (cx f) (tfg t') && shape_is (cy f) (tfg t'))) (tff t') = false).
  { apply not_true_is_false. intro X. apply existsb_exists in X. destruct X as (e & Ie & X). apply negb_true_iff in X. destruct (Forall2_in_r _ _ _ _ FF Ie) as (f & If & Gd & _ & ((W1 & W2) & (W3 & W4) & _) & _).
    assert (Ge : vg e = tfg t') by (rewrite Gd, G'; now apply OG). rewrite Ge in *. rewrite !shape_is_iff in X by assumption. discriminate. }
  rewrite SH. cbn [guard]. rewrite E0 at 1 || (rewrite E0).
  assert (Eu : vuv f0 = u) by (apply OU; rewrite E0; now left). rewrite Eu.
  assert (FR : forall (a b : vfield -> arr onum), (a = cx \/ a = cy) -> (b = cx \/ b = cy) -> forall i j, i < length (ax (tfg t)) -> j < length (ay (tfg t)) -> Forall2 (frame_ok a b m u i j) (tff t) (tff t')).
  { intros a b Ha Hb i j Hi Hj. assert (forall f, In f (tff t) -> vuv f = u /\ vg f = tfg t) as P by (intros; split; [now apply OU|now apply OG]). clear - FF P Hi Hj Ha Hb UM GUu.
    induction FF as [|f e l l' (Gd & Ud & Wd & V) FF IH]; constructor; [|apply IH; intros; apply P; now right]. destruct (P f (or_introl eq_refl)) as (Uf & Gf). rewrite Gf in V. destruct (V i j Hi Hj) as (M & V').
    split; [exact Uf|]. split; [exact M|]. intro E. destruct (V' E) as (X & Y).
    assert (G : forall c, c = cx \/ c = cy -> exists x mx, at_ (c f) i j = Some x /\ at_ (c m) i j = Some mx /\ at_ (c e) i j = Some (x - mx)%num).
    { intros c0 [-> | ->]; [destruct X as (x & mx & z & X1 & X2 & X3 & X4)|destruct Y as (x & mx & z & X1 & X2 & X3 & X4)]; exists x, mx; (split; [exact X1|]; split; [exact X2|]; rewrite X3; f_equal;
        rewrite Uf, UM in X4; unfold good_unit in GUu; apply (qmul_inj_r _ _ (sc u)); [now apply qgt_neq|]; rewrite X4; qring). }
    destruct (G a Ha) as (x & mx & A1 & A2 & A3). destruct (G b Hb) as (y & my & B1 & B2 & B3). exists x, mx, y, my. auto 8. }
  destruct (rs_field cx cx m u (tff t) (tff t') (tfg t) nmin GUu GO UM NM) as (xx & Ex & Ux & Sx); [apply FR; auto|].
  destruct (rs_field cy cy m u (tff t) (tff t') (tfg t) nmin GUu GO UM NM) as (yy & Ey & Uy & Sy); [apply FR; auto|].
  destruct (rs_field cx cy m u (tff t) (tff t') (tfg t) nmin GUu GO UM NM) as (xy & Exy & Uxy & Sxy); [apply FR; auto|].
  exists m, xx, yy, xy. rewrite <- E0. rewrite Ex. cbn [bind]. rewrite Ey. cbn [bind]. rewrite Exy. cbn [bind]. auto 10.
Qed.
