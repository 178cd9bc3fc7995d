(** * TemporalProofs3: operations that treat every frame: rotation, extension, change of unit, origin, scale *)
From Verif Require Import Num Res ListLib SortLib Arr FieldModel ScalarFieldModel VectorFieldModel ProfileModel FieldSpec SeqSpec
  FieldProofs RotateProofs FieldProofs2 FieldProofs3 PointsModel PointsProofs6 ProfileProofs3 TemporalModel TemporalSpec TemporalProofs TemporalProofs2.
From Coq Require Import Lia.

Lemma each_map_gen {F} (ops : fops F) (op : F -> res F) (t : tfield F) g' : tf_ok t -> one_grid ops t ->
  (forall f, In f (tff t) -> o_grid ops f = tfg t -> exists f', op f = Ok f' /\ o_grid ops f' = g') ->
  exists fs, mapM op (tff t) = Ok fs /\
    (let t' := mktf g' fs (tfa t) (tft t) (tfu t) in
     tf_ok t' /\ one_grid ops t' /\ each_frame (fun a b => op a = Ok b) t t').
Proof.
  intros [L S0] G H. destruct (mapM_total op (tff t)) as (fs & E).
  { intros f I. destruct (H f I (G f I)) as (f' & E & _). eauto. }
  exists fs. split; [exact E|]. cbn zeta. apply mapM_forall2 in E. pose proof (Forall2_len _ _ _ E) as L'.
  split; [split; cbn; [lia|exact S0]|]. split.
  - intros b I. cbn in *. destruct (Forall2_in_r _ _ _ _ E I) as (a & Ia & Ea). destruct (H a Ia (G a Ia)) as (f' & E' & Eg).
    cbn in Ea. rewrite Ea in E'. injection E' as ->. exact Eg.
  - unfold each_frame, frames. cbn. apply (forall2_frames (fun a b => op a = Ok b)); assumption.
Qed.
(** rotation *)
Lemma rotate_mod (g : grid) angle : (angle mod 90 = 0)%Z -> ((angle mod 360) mod 90 = 0)%Z.
Proof. intro H. rewrite mod360_mod90. exact H. Qed.
Lemma sf_rotate_mod f angle : sf_rotate f (angle mod 360) = sf_rotate f angle.
Proof. unfold sf_rotate. rewrite mod360_mod90, quarter_mod360, Z.mod_mod by lia. reflexivity. Qed.
Lemma vf_rotate_mod f angle : vf_rotate f (angle mod 360) = vf_rotate f angle.
Proof. unfold vf_rotate. rewrite mod360_mod90, quarter_mod360, Z.mod_mod by lia. reflexivity. Qed.
Lemma tf_rotate_gen {F} (ops : fops F) t angle :
  (forall f, o_rotate ops f (angle mod 360) = o_rotate ops f angle) ->
  (forall f g, grid_rotate (o_grid ops f) (angle mod 360) = Ok g -> (angle mod 90 = 0)%Z -> exists f', o_rotate ops f angle = Ok f' /\ o_grid ops f' = g) ->
  tf_ok t -> one_grid ops t -> grid_ok2 (tfg t) -> (angle mod 90 = 0)%Z ->
  exists t', tf_rotate ops t angle = Ok t' /\ tf_ok t' /\ one_grid ops t' /\ tfu t' = tfu t /\
    each_frame (fun a b => o_rotate ops a angle = Ok b) t t'.
Proof.
  intros Hm Hr O G (GS & LX & LY) Ha. unfold tf_rotate. rewrite Ha. cbn [Z.eqb negb guard].
  pose proof (grid_rotate_ok (tfg t) angle Ha GS LX LY) as EG. set (g' := mkgrid _ _ _ _) in EG. rewrite EG. cbn [bind].
  destruct (each_map_gen ops (fun f => o_rotate ops f angle) t g' O G) as (fs & E & A & B & C).
  { intros f _ Ef. apply Hr; [rewrite Ef; exact EG|exact Ha]. }
  assert (EE : mapM (fun f => o_rotate ops f (angle mod 360)) (tff t) = Ok fs).
  { rewrite <- E. clear -Hm. induction (tff t) as [|f l IH]; [reflexivity|]. cbn [mapM]. rewrite Hm, IH. reflexivity. }
  rewrite EE. cbn [bind]. eexists. split; [reflexivity|]. split; [exact A|]. split; [exact B|]. split; [reflexivity|]. exact C.
Qed.
Lemma tf_rotate_sf t angle : tf_ok t -> one_grid sf_ops t -> grid_ok2 (tfg t) -> (angle mod 90 = 0)%Z ->
  exists t', tf_rotate sf_ops t angle = Ok t' /\ tf_ok t' /\ one_grid sf_ops t' /\ tfu t' = tfu t /\
    each_frame (fun a b => sf_rotate a angle = Ok b) t t'.
Proof.
  apply (tf_rotate_gen sf_ops); cbn.
  - intro. apply sf_rotate_mod.
  - intros f g E Ha. unfold sf_rotate. rewrite Ha. cbn [Z.eqb negb guard]. rewrite E. cbn [bind]. eexists; split; reflexivity.
Qed.
Lemma tf_rotate_vf t angle : tf_ok t -> one_grid vf_ops t -> grid_ok2 (tfg t) -> (angle mod 90 = 0)%Z ->
  exists t', tf_rotate vf_ops t angle = Ok t' /\ tf_ok t' /\ one_grid vf_ops t' /\ tfu t' = tfu t /\
    each_frame (fun a b => vf_rotate a angle = Ok b) t t'.
Proof.
  apply (tf_rotate_gen vf_ops); cbn.
  - intro. apply vf_rotate_mod.
  - intros f g E Ha. unfold vf_rotate. rewrite Ha. cbn [Z.eqb negb guard]. rewrite E. cbn [bind]. eexists; split; reflexivity.
Qed.
Lemma tf_rotate_bad {F} (ops : fops F) t angle : (angle mod 90 <> 0)%Z -> tf_rotate ops t angle = Err ValueErr.
Proof. intro H. unfold tf_rotate. destruct (Z.eqb_spec (angle mod 90) 0); [contradiction|reflexivity]. Qed.

(** extension *)
Lemma tf_extend_sf t nl nr nu nd : tf_ok t -> one_grid sf_ops t -> grid_ok2 (tfg t) -> (forall f, In f (tff t) -> sf_wf f /\ sf_clean f) ->
  exists t', tf_extend sf_ops t nl nr nu nd = Ok t' /\ tf_ok t' /\ one_grid sf_ops t' /\ tfu t' = tfu t /\
    each_frame (fun a b => sf_extend a nl nr nu nd None true = Ok b) t t'.
Proof.
  intros O G (GS & LX & LY) W. unfold tf_extend.
  destruct (extend_axis_spec (ax (tfg t)) nl nr (proj1 GS) LX) as (X' & EX & _).
  destruct (extend_axis_spec (ay (tfg t)) nd nu (proj2 GS) LY) as (Y' & EY & _).
  unfold grid_extend. rewrite EX, EY. cbn [bind].
  destruct (each_map_gen sf_ops (fun f => sf_extend f nl nr nu nd None true) t (mkgrid X' Y' (ux (tfg t)) (uy (tfg t))) O G) as (fs & E & A & B & C).
  { intros f I Ef. cbn in Ef. destruct (W f I) as [Wf Cf].
    destruct (sf_extend_lemma f nl nr nu nd None Wf Cf) as (f' & E & _ & _ & _ & _ & [EX' EY'] & U1 & U2 & _); try (rewrite Ef; assumption).
    exists f'. split; [exact E|]. rewrite Ef in EX', EY', U1, U2. rewrite EX in EX'. rewrite EY in EY'. injection EX' as ->. injection EY' as ->.
    cbn. rewrite <- U1, <- U2. destruct (sg f'); reflexivity. }
  cbn [o_extend sf_ops]. rewrite E. cbn [bind]. eexists. split; [reflexivity|]. auto.
Qed.
Lemma tf_extend_vf t nl nr nu nd : tf_ok t -> one_grid vf_ops t -> grid_ok2 (tfg t) ->
  exists t', tf_extend vf_ops t nl nr nu nd = Ok t' /\ tf_ok t' /\ one_grid vf_ops t' /\ tfu t' = tfu t /\
    each_frame (fun a b => vf_extend a nl nr nu nd = Ok b) t t'.
Proof.
  intros O G (GS & LX & LY). unfold tf_extend.
  destruct (extend_axis_spec (ax (tfg t)) nl nr (proj1 GS) LX) as (X' & EX & _).
  destruct (extend_axis_spec (ay (tfg t)) nd nu (proj2 GS) LY) as (Y' & EY & _).
  unfold grid_extend. rewrite EX, EY. cbn [bind].
  destruct (each_map_gen vf_ops (fun f => vf_extend f nl nr nu nd) t (mkgrid X' Y' (ux (tfg t)) (uy (tfg t))) O G) as (fs & E & A & B & C).
  { intros f I Ef. cbn in Ef. unfold vf_extend, grid_extend. rewrite Ef, EX, EY. cbn [bind]. eexists; split; reflexivity. }
  cbn [o_extend vf_ops]. rewrite E. cbn [bind]. eexists. split; [reflexivity|]. auto.
Qed.

(** origin: each frame keeps its values and takes the shifted axes *)
Lemma setgrid_sf f g : o_setgrid sf_ops f g = mksf g (raw f) (msk f) (uv f). Proof. reflexivity. Qed.
Lemma map_frames {F} (t : tfield F) (h : F -> F) g' : tf_ok t ->
  each_frame (fun a b => b = h a) t (mktf g' (map h (tff t)) (tfa t) (tft t) (tfu t)).
Proof.
  intros [L S0]. unfold each_frame, frames. cbn. apply (forall2_frames (fun a b => b = h a)); [exact L|].
  clear. induction (tff t); cbn; constructor; auto.
Qed.
Definition setgrid_ok {F} (ops : fops F) : Prop :=
  (forall f g, o_grid ops (o_setgrid ops f g) = g) /\ (forall f g g', o_setgrid ops (o_setgrid ops f g) g' = o_setgrid ops f g') /\
  (forall f, o_setgrid ops f (o_grid ops f) = f).
Lemma sf_setgrid_ok : setgrid_ok sf_ops. Proof. repeat split; intros []; intros; reflexivity. Qed.
Lemma vf_setgrid_ok : setgrid_ok vf_ops. Proof. repeat split; intros []; intros; reflexivity. Qed.
(** the container's setters amount to writing one grid everywhere *)
Definition all_on {F} (ops : fops F) (t : tfield F) (g : grid) : tfield F :=
  mktf g (map (fun f => o_setgrid ops f g) (tff t)) (tfa t) (tft t) (tfu t).
Lemma all_on_id {F} (ops : fops F) t : setgrid_ok ops -> one_grid ops t -> t = all_on ops t (tfg t).
Proof.
  intros (_ & _ & H3) G. destruct t as [g fs a ts u]. unfold all_on, one_grid in *. cbn in *. f_equal.
  induction fs as [|f fs IH]; [reflexivity|]. cbn. rewrite <- IH by (intros; apply G; now right). f_equal.
  rewrite <- (G f) by now left. now rewrite H3.
Qed.
Lemma all_on_twice {F} (ops : fops F) t g g' : setgrid_ok ops -> all_on ops (all_on ops t g) g' = all_on ops t g'.
Proof. intros (_ & H2 & _). unfold all_on. cbn. rewrite map_map. f_equal. apply map_ext. intro. apply H2. Qed.
Lemma set_all {F} (ops : fops F) t (set : grid -> grid) : setgrid_ok ops -> one_grid ops t ->
  mktf (set (tfg t)) (map (fun f => o_setgrid ops f (set (o_grid ops f))) (tff t)) (tfa t) (tft t) (tfu t) = all_on ops t (set (tfg t)).
Proof.
  intros _ G. unfold all_on. f_equal. apply map_ext_in. intros f I. now rewrite (G f I).
Qed.
Lemma all_on_one {F} (ops : fops F) t g : setgrid_ok ops -> one_grid ops (all_on ops t g).
Proof. intros (H1 & _) f I. unfold all_on in *. cbn in *. apply in_map_iff in I. destruct I as (a & <- & _). apply H1. Qed.
Lemma all_on_grid {F} (ops : fops F) t g : tfg (all_on ops t g) = g. Proof. reflexivity. Qed.
Lemma set_x_all {F} (ops : fops F) t x : setgrid_ok ops -> one_grid ops t ->
  tf_set_axe_x ops t x = all_on ops t (mkgrid x (ay (tfg t)) (ux (tfg t)) (uy (tfg t))).
Proof. intros H G. exact (set_all ops t (fun g => mkgrid x (ay g) (ux g) (uy g)) H G). Qed.
Lemma set_y_all {F} (ops : fops F) t y : setgrid_ok ops -> one_grid ops t ->
  tf_set_axe_y ops t y = all_on ops t (mkgrid (ax (tfg t)) y (ux (tfg t)) (uy (tfg t))).
Proof. intros H G. exact (set_all ops t (fun g => mkgrid (ax g) y (ux g) (uy g)) H G). Qed.
Lemma set_ux_all {F} (ops : fops F) t u : setgrid_ok ops -> one_grid ops t ->
  tf_set_ux ops t u = all_on ops t (mkgrid (ax (tfg t)) (ay (tfg t)) u (uy (tfg t))).
Proof. intros H G. exact (set_all ops t (fun g => mkgrid (ax g) (ay g) u (uy g)) H G). Qed.
Lemma set_uy_all {F} (ops : fops F) t u : setgrid_ok ops -> one_grid ops t ->
  tf_set_uy ops t u = all_on ops t (mkgrid (ax (tfg t)) (ay (tfg t)) (ux (tfg t)) u).
Proof. intros H G. exact (set_all ops t (fun g => mkgrid (ax g) (ay g) (ux g) u) H G). Qed.
Lemma each_all_on {F} (ops : fops F) t g : tf_ok t -> each_frame (fun a b => b = o_setgrid ops a g) t (all_on ops t g).
Proof. intros O. apply (map_frames t (fun f => o_setgrid ops f g)). exact O. Qed.

Lemma tf_set_origin_gen {F} (ops : fops F) t x y : setgrid_ok ops -> one_grid ops t ->
  tf_set_origin ops t x y = all_on ops t (grid_set_origin (tfg t) x y).
Proof.
  intros H G. unfold tf_set_origin, grid_set_origin.
  destruct x as [x|], y as [y|]; cbn [shift_axis].
  - rewrite (set_x_all ops t _ H G). rewrite set_y_all by (try apply all_on_one; exact H). rewrite all_on_twice by exact H. reflexivity.
  - rewrite (set_x_all ops t _ H G). reflexivity.
  - rewrite (set_y_all ops t _ H G). reflexivity.
  - rewrite (all_on_id ops t H G) at 1. destruct (tfg t); reflexivity.
Qed.
Lemma tf_set_origin_sf t x y : tf_ok t -> one_grid sf_ops t ->
  let t' := tf_set_origin sf_ops t x y in
  tf_ok t' /\ one_grid sf_ops t' /\ tfu t' = tfu t /\ each_frame (fun a b => b = sf_set_origin a x y) t t'.
Proof.
  intros O G. cbn zeta. rewrite (tf_set_origin_gen sf_ops t x y sf_setgrid_ok G).
  split; [destruct O; split; cbn; [now rewrite map_length|assumption]|]. split; [apply all_on_one, sf_setgrid_ok|]. split; [reflexivity|].
  unfold each_frame. pose proof (each_all_on sf_ops t (grid_set_origin (tfg t) x y) O) as E. unfold each_frame in E.
  eapply Forall2_impl'; [|exact E]. intros a b I [H1 H2]. split; [exact H1|]. rewrite H2. unfold sf_set_origin. cbn.
  destruct a as [ta fa]. apply in_combine_r in I. rewrite <- (G fa I). reflexivity.
Qed.
Lemma tf_set_origin_vf t x y : tf_ok t -> one_grid vf_ops t ->
  let t' := tf_set_origin vf_ops t x y in
  tf_ok t' /\ one_grid vf_ops t' /\ tfu t' = tfu t /\
  each_frame (fun a b => b = mkvf (grid_set_origin (vg a) x y) (cx a) (cy a) (vmsk a) (vuv a)) t t'.
Proof.
  intros O G. cbn zeta. rewrite (tf_set_origin_gen vf_ops t x y vf_setgrid_ok G).
  split; [destruct O; split; cbn; [now rewrite map_length|assumption]|]. split; [apply all_on_one, vf_setgrid_ok|]. split; [reflexivity|].
  unfold each_frame. pose proof (each_all_on vf_ops t (grid_set_origin (tfg t) x y) O) as E. unfold each_frame in E.
  eapply Forall2_impl'; [|exact E]. intros a b I [H1 H2]. split; [exact H1|]. rewrite H2. cbn.
  destruct a as [ta fa]. apply in_combine_r in I. cbn in *. rewrite <- (G fa I). reflexivity.
Qed.
