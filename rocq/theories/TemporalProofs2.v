(** * TemporalProofs2: cropping and the operations applied to every frame of a series. *)
From Verif Require Import Num Res ListLib SortLib Arr FieldModel ScalarFieldModel VectorFieldModel ProfileModel FieldSpec FieldProofs FieldProofs2 SeqSpec
  PointsModel PointsSpec PointsProofs PointsProofs2 PointsProofs6 ProfileProofs3 TemporalModel TemporalSpec TemporalProofs.

Lemma mapM_forall2 {A B} (f : A -> res B) l l' : mapM f l = Ok l' <-> Forall2 (fun a b => f a = Ok b) l l'.
Proof.
  revert l'; induction l as [|a l IH]; intro l'; cbn.
  - split; [intro H; injection H as <-; constructor|intro H; inversion H; reflexivity].
  - split.
    + intro H. apply bind_ok in H. destruct H as (b & E & H). apply bind_ok in H. destruct H as (bs & E2 & H). injection H as <-.
      constructor; [exact E|apply IH; exact E2].
    + intro H. inversion H; subst. rewrite H2. apply IH in H4. cbn [bind]. rewrite H4. reflexivity.
Qed.
Lemma mapM_total {A B} (f : A -> res B) l : (forall a, In a l -> exists b, f a = Ok b) -> exists l', mapM f l = Ok l'.
Proof.
  induction l as [|a l IH]; intro H; [exists []; reflexivity|]. destruct (H a (or_introl eq_refl)) as (b & E).
  destruct IH as (l' & E'); [intros; apply H; now right|]. exists (b :: l'). cbn. rewrite E. cbn [bind]. rewrite E'. reflexivity.
Qed.
Lemma forall2_frames {F G} (R : F -> G -> Prop) (times : list num) fs gs : length times = length fs -> Forall2 R fs gs ->
  Forall2 (fun a b => fst b = fst a /\ R (snd a) (snd b)) (combine times fs) (combine times gs).
Proof.
  intros L H. revert times L. induction H as [|f g fs gs H HH IH]; intros [|x times] L; cbn in *; try discriminate; constructor; [split; [reflexivity|exact H]|].
  apply IH. lia.
Qed.
Lemma Forall2_in_r {A B} (R : A -> B -> Prop) l l' b : Forall2 R l l' -> In b l' -> exists a, In a l /\ R a b.
Proof. induction 1 as [|x y l l' H HH IH]; intro I; [destruct I|]. destruct I as [<-|I]; [exists x; split; [now left|exact H]|]. destruct (IH I) as (a & J & K). exists a; split; [now right|exact K]. Qed.
Lemma Forall2_impl' {A B} (R S0 : A -> B -> Prop) l l' : (forall a b, In a l -> R a b -> S0 a b) -> Forall2 R l l' -> Forall2 S0 l l'.
Proof. intros I H. induction H; constructor; [apply I; [now left|assumption]|]. apply IHForall2. intros; apply I; [now right|assumption]. Qed.

(** ** crop *)
Lemma frames_slice {F} (t : tfield F) i j : length (tft t) = length (tff t) -> frames (tf_cut t i j) = slice i (j + 1) (frames t).
Proof. intro L. unfold frames, tf_cut; cbn [tft tff]. apply slice_combine. exact L. Qed.
Lemma tf_cut_time {F} (t : tfield F) t1 t2 : tf_ok t -> ivt_ok t (Some (t1, t2)) ->
  exists i1 i2, tp_window (tft t) t1 t2 = Ok (i1, i2) /\ frames (tf_cut t i1 i2) = in_time (Some (t1, t2)) t /\ tf_ok (tf_cut t i1 i2).
Proof.
  intros [L S0] (NE & H1 & H2). destruct (window_lemma (tft t) t1 t2 S0 NE H1 H2) as (i1 & i2 & E & W). exists i1, i2.
  split; [exact E|]. split.
  - rewrite frames_slice by exact L. apply slice_filter. intros k s N.
    assert (Lk : k < length (tft t)).
    { apply nth_error_Some_lt in N || (assert (nth_error (frames t) k <> None) by congruence; apply nth_error_Some in H; rename H into N').
      unfold frames in *. rewrite combine_length in *. lia. }
    assert (fst s = nths (tft t) k) as ->.
    { unfold frames in N. clear -N. revert k N. generalize (tff t). induction (tft t) as [|x l IH]; intros [|f fs] k N; destruct k; cbn in N; try discriminate.
      - injection N as <-. reflexivity.
      - cbn [nth]. eapply IH; exact N. }
    unfold in_ivt. rewrite Bool.andb_true_iff, !qleb_le. rewrite <- (W k Lk). reflexivity.
  - unfold tf_cut. split; cbn [tft tff].
    + rewrite !slice_length, L. reflexivity.
    + apply nondecreasing_slice. exact S0.
Qed.

Lemma grid_crop_ok g ivx ivy : grid_ok g -> (iv_ok2 g ivx ivy <-> exists w g', grid_crop g ivx ivy = Ok (w, g')).
Proof.
  intros ((Ix & Iy) & Nx & Ny). unfold grid_crop, iv_ok2.
  pose proof (proj1 (crop_window_ok_iff _ ivx Ix Nx)) as HX. pose proof (proj1 (crop_window_ok_iff _ ivy Iy Ny)) as HY. split.
  - intros [A B]. apply HX in A. apply HY in B. destruct A as (wx & ->), B as (wy & ->). eexists; eexists; reflexivity.
  - intros (w & g' & H). apply bind_ok in H. destruct H as (wx & E1 & H). apply bind_ok in H. destruct H as (wy & E2 & H).
    split; [apply HX|apply HY]; eauto.
Qed.
(** what the container needs to know of the crop of a frame *)
Definition crop_follows {F} (ops : fops F) : Prop := forall f ivx ivy w g, grid_crop (o_grid ops f) ivx ivy = Ok (w, g) ->
  exists f', o_crop ops f ivx ivy = Ok f' /\ o_grid ops f' = g.
Lemma sf_crop_follows : crop_follows sf_ops.
Proof. intros f ivx ivy w g H. cbn in *. unfold sf_crop. rewrite H. cbn [bind]. eexists; split; [reflexivity|]. destruct w as [[? ?] [? ?]]; reflexivity. Qed.
Lemma vf_crop_follows : crop_follows vf_ops.
Proof. intros f ivx ivy w g H. cbn in *. unfold vf_crop. rewrite H. cbn [bind]. eexists; split; [reflexivity|]. destruct w as [[? ?] [? ?]]; reflexivity. Qed.
Lemma tf_crop_gen {F} (ops : fops F) t ivx ivy ivt : crop_follows ops -> tf_ok t -> one_grid ops t -> grid_ok (tfg t) ->
  ivt_ok t ivt -> iv_ok2 (tfg t) ivx ivy ->
  exists c, tf_crop ops t ivx ivy ivt = Ok c /\ tf_ok c /\ one_grid ops c /\ tfu c = tfu t /\
    Forall2 (fun a b => fst b = fst a /\ o_crop ops (snd a) ivx ivy = Ok (snd b)) (in_time ivt t) (frames c).
Proof.
  intros CF O G GO IT IX. apply (grid_crop_ok _ _ _ GO) in IX. destruct IX as (w & g' & EG).
  assert (exists c0, (match ivt with None => Ok t | Some (t1, t2) => let* (i1, i2) := tp_window (tft t) t1 t2 in Ok (tf_cut t i1 i2) end) = Ok c0 /\
            frames c0 = in_time ivt t /\ tf_ok c0 /\ tfg c0 = tfg t /\ tfu c0 = tfu t /\ (forall f, In f (tff c0) -> In f (tff t))) as (c0 & E0 & F0 & O0 & G0 & U0 & I0).
  { destruct ivt as [[t1 t2]|].
    - destruct (tf_cut_time t t1 t2 O IT) as (i1 & i2 & E & Fr & OK). exists (tf_cut t i1 i2). rewrite E. cbn [bind].
      split; [reflexivity|]. split; [exact Fr|]. split; [exact OK|]. split; [reflexivity|]. split; [reflexivity|]. intros f. apply slice_in.
    - exists t. split; [reflexivity|]. split; [|auto]. unfold in_time. cbn. clear. induction (frames t); cbn; congruence. }
  unfold tf_crop. rewrite E0. cbn [bind]. rewrite G0, EG. cbn [bind].
  destruct (mapM_total (fun f => o_crop ops f ivx ivy) (tff c0)) as (fs & EF).
  { intros f I. destruct (CF f ivx ivy w g') as (f' & E & _); [rewrite G by auto; exact EG|]. eauto. }
  rewrite EF. cbn [bind]. eexists. split; [reflexivity|]. apply mapM_forall2 in EF.
  assert (L' : length (tft c0) = length fs) by (apply Forall2_len in EF; destruct O0; lia).
  split; [split; [exact L'|apply O0]|]. split; [|split; [exact U0|]].
  - intros f I. cbn [tff tfg] in *. destruct (Forall2_in_r _ _ _ _ EF I) as (a & J & K).
    destruct (CF a ivx ivy w g') as (f' & E & Eg); [rewrite G by auto; exact EG|]. cbn in K, E. rewrite K in E. injection E as ->. exact Eg.
  - rewrite <- F0. unfold frames; cbn [tft tff]. apply (forall2_frames (fun a b => o_crop ops a ivx ivy = Ok b)); [apply O0|exact EF].
Qed.
Lemma tf_crop_sf t ivx ivy ivt : tf_ok t -> one_grid sf_ops t -> (forall f, In f (tff t) -> sf_wf f) -> grid_ok (tfg t) ->
  ivt_ok t ivt -> iv_ok2 (tfg t) ivx ivy ->
  exists c, tf_crop sf_ops t ivx ivy ivt = Ok c /\ tf_ok c /\ one_grid sf_ops c /\ tfu c = tfu t /\
    Forall2 (fun a b => fst b = fst a /\ forall x y v m, sf_shows (snd b) x y v m <-> sf_shows (snd a) x y v m /\ FieldSpec.in_iv ivx x /\ FieldSpec.in_iv ivy y)
      (in_time ivt t) (frames c).
Proof.
  intros O G WF GO IT IX. destruct (tf_crop_gen sf_ops t ivx ivy ivt sf_crop_follows O G GO IT IX) as (c & E & OC & GC & U & FF).
  exists c. split; [exact E|]. split; [exact OC|]. split; [exact GC|]. split; [exact U|].
  eapply Forall2_impl'; [|exact FF]. intros a b I [H1 H2]. split; [exact H1|].
  assert (Ia : In (snd a) (tff t)).
  { unfold in_time in I. apply filter_In in I. destruct I as [I _]. destruct a as [x f]. apply in_combine_r in I. exact I. }
  specialize (G _ Ia). cbn in G. destruct GO as (GS & N1 & N2). destruct IX as [IX IY].
  assert (GA : grid_sorted (sg (snd a))) by (rewrite G; exact GS).
  destruct (sf_crop_lemma (snd a) ivx ivy) as [_ H]; try (rewrite G; assumption); [apply WF; exact Ia|].
  destruct H as (f' & E' & S' & _); [rewrite G; exact IX|rewrite G; exact IY|].
  cbn in H2. rewrite H2 in E'. injection E' as ->. exact S'.
Qed.
Lemma tf_crop_vf t ivx ivy ivt : tf_ok t -> one_grid vf_ops t -> (forall f, In f (tff t) -> vf_wf f) -> grid_ok (tfg t) ->
  ivt_ok t ivt -> iv_ok2 (tfg t) ivx ivy ->
  exists c, tf_crop vf_ops t ivx ivy ivt = Ok c /\ tf_ok c /\ one_grid vf_ops c /\ tfu c = tfu t /\
    Forall2 (fun a b => fst b = fst a /\ forall x y vx vy m, vf_shows (snd b) x y vx vy m <-> vf_shows (snd a) x y vx vy m /\ FieldSpec.in_iv ivx x /\ FieldSpec.in_iv ivy y)
      (in_time ivt t) (frames c).
Proof.
  intros O G WF GO IT IX. destruct (tf_crop_gen vf_ops t ivx ivy ivt vf_crop_follows O G GO IT IX) as (c & E & OC & GC & U & FF).
  exists c. split; [exact E|]. split; [exact OC|]. split; [exact GC|]. split; [exact U|].
  eapply Forall2_impl'; [|exact FF]. intros a b I [H1 H2]. split; [exact H1|].
  assert (Ia : In (snd a) (tff t)).
  { unfold in_time in I. apply filter_In in I. destruct I as [I _]. destruct a as [x f]. apply in_combine_r in I. exact I. }
  specialize (G _ Ia). cbn in G. destruct GO as (GS & N1 & N2). destruct IX as [IX IY].
  destruct (vf_crop_lemma (snd a) ivx ivy) as (f' & E' & S' & _); try (rewrite G; assumption); [apply WF; exact Ia|].
  cbn in H2. rewrite H2 in E'. injection E' as ->. exact S'.
Qed.
(** an interval of time entirely before or after the series raises ValueError *)
Lemma tf_crop_out {F} (ops : fops F) t ivx ivy t1 t2 : tf_ok t -> tft t <> [] -> (t2 < nths (tft t) 0)%num \/ (last (tft t) (qz 0) < t1)%num ->
  tf_crop ops t ivx ivy (Some (t1, t2)) = Err ValueErr.
Proof.
  intros [L S0] NE H. unfold tf_crop, tp_window. destruct (tft t) as [|x0 l] eqn:E; [congruence|]. rewrite <- E in *. cbn [guard].
  assert (FL : (nths (tft t) 0 <= last (tft t) (qz 0))%num).
  { assert (EL : last (tft t) (qz 0) = nths (tft t) (length (tft t) - 1)).
    { clear -NE. induction (tft t) as [|x m IH]; [congruence|]. destruct m as [|y m]; [reflexivity|].
      cbn [last length]. replace (S (S (length m)) - 1) with (S (length (y :: m) - 1)) by (cbn; lia). cbn [nth]. apply IH. congruence. }
    rewrite EL. apply S0; [lia|]. destruct (tft t); [congruence|cbn; lia]. }
  destruct H as [H|H].
  - destruct (qltb_spec t1 (nths (tft t) 0)) as [A|A]; cbn [bind].
    + destruct (qltb_spec (last (tft t) (qz 0)) t2) as [B|B]; [qlra|]. destruct (qltb_spec t2 (nths (tft t) 0)) as [C|C]; [reflexivity|qlra].
    + destruct (qltb_spec (last (tft t) (qz 0)) t1) as [B|B]; [reflexivity|].
      destruct (filter _ _) as [|i r] eqn:EF.
      * exfalso. assert (IN : In (length (tft t) - 1) (filter (fun i => qleb t1 (nths (tft t) i)) (seq 0 (length (tft t))))).
        { apply filter_In. split; [apply in_seq; destruct (tft t); [congruence|cbn; lia]|]. apply qleb_le.
          assert (EL : last (tft t) (qz 0) = nths (tft t) (length (tft t) - 1)).
          { clear -NE. induction (tft t) as [|x m IH]; [congruence|]. destruct m as [|y m]; [reflexivity|].
            cbn [last length]. replace (S (S (length m)) - 1) with (S (length (y :: m) - 1)) by (cbn; lia). cbn [nth]. apply IH. congruence. }
          rewrite <- EL. exact B. }
        rewrite EF in IN. destruct IN.
      * cbn [bind]. destruct (qltb_spec (last (tft t) (qz 0)) t2) as [B2|B2]; [qlra|]. destruct (qltb_spec t2 (nths (tft t) 0)) as [C|C]; [reflexivity|qlra].
  - destruct (qltb_spec t1 (nths (tft t) 0)) as [A|A]; [qlra|]. destruct (qltb_spec (last (tft t) (qz 0)) t1) as [B|B]; [reflexivity|qlra].
Qed.
