(** * TemporalProofs4: change of unit and scale of a series *)
From Verif Require Import Num Res ListLib SortLib Arr FieldModel ScalarFieldModel VectorFieldModel ProfileModel FieldSpec SeqSpec
  FieldProofs RotateProofs FieldProofs2 FieldProofs3 PointsModel PointsProofs6 ProfileProofs3 TemporalModel TemporalSpec TemporalProofs TemporalProofs2 TemporalProofs3.
From Coq Require Import Lia.

Lemma setgrid_same {F} (ops : fops F) (set : grid -> grid) g' fs : setgrid_ok ops -> (forall f, In f fs -> o_grid ops f = g') -> set g' = g' ->
  map (fun f => o_setgrid ops f (set (o_grid ops f))) fs = fs.
Proof.
  intros (_ & _ & H3) G E. induction fs as [|f fs IH]; [reflexivity|]. cbn. rewrite IH by (intros; apply G; now right). f_equal.
  rewrite (G f) by now left. rewrite E, <- (G f) by now left. apply H3.
Qed.
Lemma tf_change_unit_gen {F} (ops : fops F) t a new : setgrid_ok ops -> tf_ok t -> one_grid ops t -> a = AxX \/ a = AxY ->
  (forall f g, grid_change_unit (o_grid ops f) a new = Ok g -> exists f', o_unit ops f a new = Ok f' /\ o_grid ops f' = g) ->
  is_ok (conv (match a with AxX => ux (tfg t) | _ => uy (tfg t) end) new) = true ->
  exists t', tf_change_unit ops t (TAx a) new = Ok t' /\ tf_ok t' /\ one_grid ops t' /\ tfu t' = tfu t /\
    grid_change_unit (tfg t) a new = Ok (tfg t') /\ each_frame (fun f f' => o_unit ops f a new = Ok f') t t'.
Proof.
  intros SG O G Ha Hu C.
  assert (exists g', grid_change_unit (tfg t) a new = Ok g') as (g' & EG).
  { destruct Ha as [-> | ->]; cbn; destruct (conv _ new); try discriminate C; cbn [bind]; eauto. }
  destruct (each_map_gen ops (fun f => o_unit ops f a new) t g' O G) as (fs & E & A & B & CC).
  { intros f _ Ef. apply Hu. rewrite Ef. exact EG. }
  exists (mktf g' fs (tfa t) (tft t) (tfu t)). split; [|auto].
  assert (Gf : forall f, In f fs -> o_grid ops f = g') by (intros f I; apply (B f I)).
  destruct Ha as [-> | ->]; unfold tf_change_unit; rewrite E; cbn [bind tfg]; cbn in EG; destruct (conv _ new) as [fact|] eqn:EC; try discriminate EG; cbn [bind] in EG |- *;
    injection EG as EG'; subst g'; unfold tf_set_ux, tf_set_axe_x, tf_set_uy, tf_set_axe_y; cbn [tfg tff tfa tft tfu ax ay ux uy]; f_equal; f_equal.
  - rewrite map_map. erewrite map_ext_in; [exact (map_id fs)|]. intros f I. destruct SG as (S1 & S2 & S3). cbn. rewrite S1, S2. cbn. rewrite (Gf f I). cbn.
    rewrite <- (Gf f I). apply S3.
  - rewrite map_map. erewrite map_ext_in; [exact (map_id fs)|]. intros f I. destruct SG as (S1 & S2 & S3). cbn. rewrite S1, S2. cbn. rewrite (Gf f I). cbn.
    rewrite <- (Gf f I). apply S3.
Qed.
Lemma sf_unit_follows f a new g : a = AxX \/ a = AxY -> grid_change_unit (sg f) a new = Ok g -> exists f', sf_change_unit f a new = Ok f' /\ sg f' = g.
Proof. intros [-> | ->] E; unfold sf_change_unit; rewrite E; cbn [bind]; eexists; split; reflexivity. Qed.
Lemma vf_unit_follows f a new g : a = AxX \/ a = AxY -> grid_change_unit (vg f) a new = Ok g -> exists f', vf_change_unit f a new = Ok f' /\ vg f' = g.
Proof. intros [-> | ->] E; unfold vf_change_unit; rewrite E; cbn [bind]; eexists; split; reflexivity. Qed.
Lemma tf_change_unit_sf t a new : tf_ok t -> one_grid sf_ops t -> a = AxX \/ a = AxY ->
  is_ok (conv (match a with AxX => ux (tfg t) | _ => uy (tfg t) end) new) = true ->
  exists t', tf_change_unit sf_ops t (TAx a) new = Ok t' /\ tf_ok t' /\ one_grid sf_ops t' /\ tfu t' = tfu t /\
    grid_change_unit (tfg t) a new = Ok (tfg t') /\ each_frame (fun f f' => sf_change_unit f a new = Ok f') t t'.
Proof. intros O G Ha C. apply (tf_change_unit_gen sf_ops); auto using sf_setgrid_ok. intros f g. apply sf_unit_follows. exact Ha. Qed.
Lemma tf_change_unit_vf t a new : tf_ok t -> one_grid vf_ops t -> a = AxX \/ a = AxY ->
  is_ok (conv (match a with AxX => ux (tfg t) | _ => uy (tfg t) end) new) = true ->
  exists t', tf_change_unit vf_ops t (TAx a) new = Ok t' /\ tf_ok t' /\ one_grid vf_ops t' /\ tfu t' = tfu t /\
    grid_change_unit (tfg t) a new = Ok (tfg t') /\ each_frame (fun f f' => vf_change_unit f a new = Ok f') t t'.
Proof. intros O G Ha C. apply (tf_change_unit_gen vf_ops); auto using vf_setgrid_ok. intros f g. apply vf_unit_follows. exact Ha. Qed.
(** unit of the values *)
Lemma tf_change_unit_values_sf t new : tf_ok t -> one_grid sf_ops t -> (forall f, In f (tff t) -> is_ok (conv (uv f) new) = true) ->
  exists t', tf_change_unit sf_ops t (TAx AxValues) new = Ok t' /\ tf_ok t' /\ one_grid sf_ops t' /\ tfu t' = tfu t /\ tfg t' = tfg t /\
    each_frame (fun f f' => sf_change_unit f AxValues new = Ok f') t t'.
Proof.
  intros O G C. destruct (each_map_gen sf_ops (fun f => sf_change_unit f AxValues new) t (tfg t) O G) as (fs & E & A & B & CC).
  { intros f I Ef. specialize (C f I). cbn in *. destruct (conv (uv f) new); [|discriminate]. cbn [bind]. eexists; split; [reflexivity|exact Ef]. }
  unfold tf_change_unit. cbn [o_unit sf_ops]. rewrite E. cbn [bind]. eexists. split; [reflexivity|]. auto.
Qed.
Lemma tf_change_unit_values_vf t new : tf_ok t -> one_grid vf_ops t -> (forall f, In f (tff t) -> is_ok (conv (vuv f) new) = true) ->
  exists t', tf_change_unit vf_ops t (TAx AxValues) new = Ok t' /\ tf_ok t' /\ one_grid vf_ops t' /\ tfu t' = tfu t /\ tfg t' = tfg t /\
    each_frame (fun f f' => vf_change_unit f AxValues new = Ok f') t t'.
Proof.
  intros O G C. destruct (each_map_gen vf_ops (fun f => vf_change_unit f AxValues new) t (tfg t) O G) as (fs & E & A & B & CC).
  { intros f I Ef. specialize (C f I). cbn in *. destruct (conv (vuv f) new); [|discriminate]. cbn [bind]. eexists; split; [reflexivity|exact Ef]. }
  unfold tf_change_unit. cbn [o_unit vf_ops]. rewrite E. cbn [bind]. eexists. split; [reflexivity|]. auto.
Qed.
(** unit of the times: the same instants, the same frames *)
Lemma tf_change_unit_time {F} (ops : fops F) t new : tf_ok t -> one_grid ops t -> good_unit (tfu t) -> good_unit new -> dim (tfu t) = dim new ->
  exists t', tf_change_unit ops t TTime new = Ok t' /\ tf_ok t' /\ one_grid ops t' /\ tfg t' = tfg t /\ tfu t' = new /\
    Forall2 (fun a b => snd b = snd a /\ (fst b * sc new = fst a * sc (tfu t))%num) (frames t) (frames t').
Proof.
  intros [L S0] G U1 U2 D. unfold tf_change_unit, conv. rewrite D. assert (dim_eqb (dim new) (dim new) = true) as -> by now apply dim_eqb_eq.
  cbn [bind]. eexists. split; [reflexivity|]. unfold good_unit in *.
  assert (P : (0 < sc (tfu t) / sc new)%num) by now apply qdiv_pos.
  split; [split; cbn; [rewrite map_length; exact L|]|].
  - intros i j Hij Hj. rewrite map_length in Hj. rewrite !nths_map by lia. specialize (S0 i j Hij Hj). apply qmul_le_r; [now apply qlt_le|exact S0].
  - split; [exact G|]. split; [reflexivity|]. split; [reflexivity|]. unfold frames. cbn. clear -L U2. revert L. generalize (tff t) as fs. induction (tft t) as [|x l IH]; intros [|f fs] L; try discriminate L; cbn; constructor.
    + cbn. split; [reflexivity|]. qfield. now apply qgt_neq.
    + apply IH. now injection L.
Qed.
(** scale *)
Lemma scale_axis_pos l u a : (0 <= sfact a)%num ->
  scale_axis l u a = (map (fun x => x * sfact a)%num l, match a with SUnum _ w => unit_mul u w | _ => u end, false).
Proof.
  intro H. destruct a as [|s|s w]; cbn in *.
  - f_equal. f_equal. rewrite <- (map_id l) at 1. apply map_ext. intro. qring.
  - destruct (qltb_spec s 0%num); [qlra|reflexivity].
  - destruct (qltb_spec s 0%num); [qlra|reflexivity].
Qed.
Lemma scale_axis_fst_pos l u a : (0 <= sfact a)%num -> snd (scale_axis l u a) = false.
Proof. intro H. rewrite scale_axis_pos by exact H. reflexivity. Qed.
Lemma grid_scale_pos g sx sy : (0 <= sfact sx)%num -> (0 <= sfact sy)%num ->
  exists g', grid_scale g sx sy = (g', false, false).
Proof. intros. unfold grid_scale. rewrite !scale_axis_pos by assumption. eexists; reflexivity. Qed.
Lemma tf_scale_gen {F} (ops : fops F) t sx sy sv st : setgrid_ok ops -> one_grid ops t -> (forall f g, o_grid ops (o_scalev ops (o_setgrid ops f g) sv) = g) ->
  (0 <= sfact sx)%num -> (0 <= sfact sy)%num ->
  tf_scale ops t sx sy sv st =
    mktf (fst (fst (grid_scale (tfg t) sx sy))) (map (fun f => o_scalev ops (o_setgrid ops f (fst (fst (grid_scale (tfg t) sx sy)))) sv) (tff t)) (tfa t)
         (map (fun x => x * sfact st)%num (tft t)) (match st with SUnum _ w => unit_mul (tfu t) w | _ => tfu t end).
Proof.
  intros SG G SV PX PY. unfold tf_scale. rewrite (scale_axis_pos _ _ _ PX).
  set (gx := mkgrid (map (fun x => x * sfact sx)%num (ax (tfg t))) (ay (tfg t)) (match sx with SUnum _ w => unit_mul (ux (tfg t)) w | _ => ux (tfg t) end) (uy (tfg t))).
  assert (E1 : (match sx with SNone => t | SNum _ => tf_set_axe_x ops t (map (fun x => x * sfact sx)%num (ax (tfg t)))
            | SUnum _ _ => tf_set_axe_x ops (tf_set_ux ops t (match sx with SUnum _ w => unit_mul (ux (tfg t)) w | _ => ux (tfg t) end)) (map (fun x => x * sfact sx)%num (ax (tfg t))) end) = all_on ops t gx).
  { destruct sx as [|s|s w].
    - rewrite (all_on_id ops t SG G) at 1. f_equal. unfold gx. destruct (tfg t) as [x0 y0 u0 w0]. cbn. f_equal. rewrite <- (map_id x0) at 1. apply map_ext. intro. qring.
    - apply set_x_all; assumption.
    - rewrite (set_ux_all ops t _ SG G). rewrite set_x_all by (try apply all_on_one; exact SG). rewrite all_on_twice by exact SG. reflexivity. }
  rewrite E1. rewrite (scale_axis_pos _ _ _ PY). cbn [tfg all_on].
  set (gy := fst (fst (grid_scale (tfg t) sx sy))).
  assert (Egy : gy = mkgrid (ax gx) (map (fun x => x * sfact sy)%num (ay gx)) (ux gx) (match sy with SUnum _ w => unit_mul (uy gx) w | _ => uy gx end)).
  { unfold gy, grid_scale. rewrite !scale_axis_pos by assumption. reflexivity. }
  assert (E2 : (match sy with SNone => all_on ops t gx | SNum _ => tf_set_axe_y ops (all_on ops t gx) (map (fun x => x * sfact sy)%num (ay gx))
            | SUnum _ _ => tf_set_axe_y ops (tf_set_uy ops (all_on ops t gx) (match sy with SUnum _ w => unit_mul (uy gx) w | _ => uy gx end)) (map (fun x => x * sfact sy)%num (ay gx)) end) = all_on ops t gy).
  { destruct sy as [|s|s w].
    - rewrite Egy. f_equal. destruct gx as [x0 y0 u0 w0]. cbn. f_equal. rewrite <- (map_id y0) at 1. apply map_ext. intro. qring.
    - rewrite set_y_all by (try apply all_on_one; exact SG). rewrite all_on_twice by exact SG. now rewrite Egy.
    - rewrite set_uy_all by (try apply all_on_one; exact SG). rewrite set_y_all by (try apply all_on_one; exact SG). rewrite !all_on_twice by exact SG. now rewrite Egy. }
  rewrite E2. cbn [tfg tff tft tfu tfa all_on]. rewrite map_map.
  destruct st as [|s|s w]; try reflexivity. f_equal. cbn. rewrite <- (map_id (tft t)) at 1. apply map_ext. intro. qring.
Qed.
Lemma scaled_ok {F} (t : tfield F) g (h : F -> F) st u : tf_ok t -> (0 <= sfact st)%num ->
  let t' := mktf g (map h (tff t)) (tfa t) (map (fun x => x * sfact st)%num (tft t)) u in
  tf_ok t' /\ Forall2 (fun a b => (fst b = fst a * sfact st)%num /\ snd b = h (snd a)) (frames t) (frames t').
Proof.
  intros [L S0] P. cbn zeta. split.
  - split; cbn; [now rewrite !map_length|]. intros i j Hij Hj. rewrite map_length in Hj. rewrite !nths_map by lia. apply qmul_le_r; [exact P|]. now apply S0.
  - unfold frames. cbn. clear -L. revert L. generalize (tff t) as fs. induction (tft t) as [|x l IH]; intros [|f fs] L; try discriminate L; cbn; constructor.
    + split; reflexivity.
    + apply IH. now injection L.
Qed.
Lemma tf_scale_sf t sx sy sv st : tf_ok t -> one_grid sf_ops t -> (0 <= sfact sx)%num -> (0 <= sfact sy)%num -> (0 <= sfact st)%num ->
  let t' := tf_scale sf_ops t sx sy sv st in
  tf_ok t' /\ one_grid sf_ops t' /\ tfu t' = match st with SUnum _ w => unit_mul (tfu t) w | _ => tfu t end /\
  Forall2 (fun a b => (fst b = fst a * sfact st)%num /\ snd b = sf_scale (snd a) sx sy sv) (frames t) (frames t').
Proof.
  intros O G PX PY PT. cbn zeta. rewrite (tf_scale_gen sf_ops) by (auto using sf_setgrid_ok; intros ? []; destruct sv; reflexivity).
  destruct (scaled_ok t (fst (fst (grid_scale (tfg t) sx sy))) (fun f => o_scalev sf_ops (o_setgrid sf_ops f (fst (fst (grid_scale (tfg t) sx sy)))) sv) st
     (match st with SUnum _ w => unit_mul (tfu t) w | _ => tfu t end) O PT) as [A B].
  split; [exact A|]. split; [|split; [reflexivity|]].
  - intros f I. cbn in *. apply in_map_iff in I. destruct I as (a & <- & _). destruct (fst (fst (grid_scale (tfg t) sx sy))), sv; reflexivity.
  - eapply Forall2_impl'; [|exact B]. intros a b I [H1 H2]. split; [exact H1|]. rewrite H2.
    destruct a as [ta fa]. apply in_combine_r in I. specialize (G fa I). cbn in G. cbn [snd o_scalev o_setgrid sf_ops].
    unfold sf_scale. rewrite G. destruct (grid_scale_pos (tfg t) sx sy PX PY) as (g' & ->). cbn [fst sg raw msk uv].
    destruct g'; destruct sv; reflexivity.
Qed.
Lemma tf_scale_vf t sx sy sv st : tf_ok t -> one_grid vf_ops t -> (0 <= sfact sx)%num -> (0 <= sfact sy)%num -> (0 <= sfact st)%num ->
  let t' := tf_scale vf_ops t sx sy sv st in
  tf_ok t' /\ one_grid vf_ops t' /\ tfu t' = match st with SUnum _ w => unit_mul (tfu t) w | _ => tfu t end /\
  Forall2 (fun a b => (fst b = fst a * sfact st)%num /\ snd b = vf_scale (snd a) sx sy sv) (frames t) (frames t').
Proof.
  intros O G PX PY PT. cbn zeta. rewrite (tf_scale_gen vf_ops) by (auto using vf_setgrid_ok; intros ? []; destruct sv; reflexivity).
  destruct (scaled_ok t (fst (fst (grid_scale (tfg t) sx sy))) (fun f => o_scalev vf_ops (o_setgrid vf_ops f (fst (fst (grid_scale (tfg t) sx sy)))) sv) st
     (match st with SUnum _ w => unit_mul (tfu t) w | _ => tfu t end) O PT) as [A B].
  split; [exact A|]. split; [|split; [reflexivity|]].
  - intros f I. cbn in *. apply in_map_iff in I. destruct I as (a & <- & _). destruct (fst (fst (grid_scale (tfg t) sx sy))), sv; reflexivity.
  - eapply Forall2_impl'; [|exact B]. intros a b I [H1 H2]. split; [exact H1|]. rewrite H2.
    destruct a as [ta fa]. apply in_combine_r in I. specialize (G fa I). cbn in G. cbn [snd o_scalev o_setgrid vf_ops].
    unfold vf_scale. rewrite G. destruct (grid_scale_pos (tfg t) sx sy PX PY) as (g' & ->). cbn [fst vg cx cy vmsk vuv].
    destruct g'; destruct sv; reflexivity.
Qed.
