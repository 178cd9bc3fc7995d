(** * PropComps: the properties C324 and C325: components and masks of temporal fields as fields. *)
From Coq Require Import Lia.
From Verif Require Import FieldProofs2 Num Res ListLib SortLib Arr FieldModel ScalarFieldModel VectorFieldModel ProfileModel FieldSpec SeqSpec Concrete
  TemporalModel TemporalSpec TemporalProofs10 TemporalEx GradProofs2 PodModel PodProofs2 PodSpec PodEx TurbModel EvoModel EvoProofs CompsModel.
#[local] Ltac vmr := vm_compute; reflexivity.

(** ** C324: Vx_as_sf and Vy_as_sf give the temporal scalar field of a component: same times, units and axes, and at each time and place the
    component of the vectors, masked where they are, and where the component is NaN. *)
Lemma forall2_weaken {A B} (P Q : A -> B -> Prop) l l' : (forall a b, P a b -> Q a b) -> Forall2 P l l' -> Forall2 Q l l'.
Proof. intros H F. induction F; constructor; auto. Qed.
Lemma comp_one c f : (c = cx \/ c = cy) -> grid_ok2 (vg f) -> vf_wf f ->
  exists s, comp_as_sf c f = Ok s /\ sg s = vg f /\ uv s = vuv f /\
    forall i j, at_ (msk s) i j = (at_ (vmsk f) i j || isnan (at_ (c f) i j))%bool /\ at_ (values s) i j = if at_ (vmsk f) i j then None else at_ (c f) i j.
Proof.
  intros Hc ((IX & IY) & LX & LY) W. unfold comp_as_sf. assert (D : has_shape (c f) (length (ax (vg f))) (length (ay (vg f)))) by (destruct W as (W1 & W2 & _); destruct Hc as [-> | ->]; assumption).
  destruct D as (D0 & D1). rewrite sf_import_plain by assumption. eexists. split; [reflexivity|]. split; [cbn; destruct (vg f); reflexivity|]. split; [reflexivity|].
  intros i j. cbn. split; [reflexivity|]. destruct (at_ (vmsk f) i j); [reflexivity|]. now destruct (at_ (c f) i j).
Qed.
Lemma comps_lemma asort c t : (c = cx \/ c = cy) -> is_argsort asort -> (0 < sc (tfu t))%num -> grid_ok2 (tfg t) -> tff t <> [] -> length (tft t) = length (tff t) -> increasing (tft t) ->
  (forall f, In f (tff t) -> vg f = tfg t /\ vf_wf f) ->
  exists t', tv_comp_as_sf asort c t = Ok t' /\ tft t' = tft t /\ tfu t' = tfu t /\ tfg t' = tfg t /\
    Forall2 (fun f s => sg s = vg f /\ uv s = vuv f /\
      forall i j, at_ (msk s) i j = (at_ (vmsk f) i j || isnan (at_ (c f) i j))%bool /\ at_ (values s) i j = if at_ (vmsk f) i j then None else at_ (c f) i j) (tff t) (tff t').
Proof.
  intros Hc A U G N L I H.
  destruct (mapM_forall2_ex (fun p : vfield * num => let* s := comp_as_sf c (fst p) in Ok (s, snd p))
    (fun p q => snd q = snd p /\ sg (fst q) = vg (fst p) /\ uv (fst q) = vuv (fst p) /\
      forall i j, at_ (msk (fst q)) i j = (at_ (vmsk (fst p)) i j || isnan (at_ (c (fst p)) i j))%bool /\ at_ (values (fst q)) i j = if at_ (vmsk (fst p)) i j then None else at_ (c (fst p)) i j)
    (combine (tff t) (tft t))) as (l & E & F).
  { intros [f x] P. apply in_combine_l in P. destruct (H f P) as [GF W]. destruct (comp_one c f Hc) as (s & ES & R); [now rewrite GF|exact W|]. exists (s, x). cbn [fst snd]. rewrite ES. split; [reflexivity|]. split; [reflexivity|exact R]. }
  assert (ST : map snd l = tft t /\ Forall2 (fun f s => sg s = vg f /\ uv s = vuv f /\
      forall i j, at_ (msk s) i j = (at_ (vmsk f) i j || isnan (at_ (c f) i j))%bool /\ at_ (values s) i j = if at_ (vmsk f) i j then None else at_ (c f) i j) (tff t) (map fst l)).
  { clear E. revert L F. clear. generalize (tff t) (tft t). intros fs ts. revert ts l. induction fs as [|f fs IH]; intros [|x ts] l L F; try discriminate L; cbn [combine] in F; inversion F; subst; [split; constructor|].
    destruct (IH ts l' ltac:(cbn in L; lia) H3) as [I1 I2]. destruct H1 as [S1 S2]. cbn [map fst snd] in *. split; [now f_equal|constructor; assumption]. }
  destruct ST as [ST SF]. unfold tv_comp_as_sf. rewrite E. cbn [bind].
  rewrite (add_all_lemma sf_ops asort (tfu t) (tfg t) l A U).
  - cbn [out_res]. eexists. split; [reflexivity|]. cbn. split; [exact ST|]. split; [reflexivity|]. split; [reflexivity|]. exact SF.
  - intros p P. assert (P' : In (fst p) (map fst l)) by now apply in_map. clear -SF P' H. cbn. revert H. induction SF as [|f s fs ss R _ IH]; intros H; [destruct P'|]. destruct P' as [<-|P']; [destruct R as [-> _]; apply H; now left|apply IH; [exact P'|intros; apply H; now right]].
  - split; [reflexivity|]. intros i j _ J. cbn in J. lia.
  - cbn. rewrite ST. exact I.
  - now left.
  - intros ->. cbn in SF. inversion SF. congruence.
Qed.
Definition same_axes (f : vfield) (s : sfield) : Prop := sg s = vg f /\ uv s = vuv f.
Theorem C324_x asort t : is_argsort asort -> (0 < sc (tfu t))%num -> grid_ok2 (tfg t) -> tff t <> [] -> length (tft t) = length (tff t) -> increasing (tft t) ->
  (forall f, In f (tff t) -> vg f = tfg t /\ vf_wf f) ->
  exists t', tv_comp_as_sf asort cx t = Ok t' /\ tft t' = tft t /\ tfu t' = tfu t /\ tfg t' = tfg t /\
    Forall2 (fun f s => same_axes f s /\ forall x y vx vy m, vf_shows f x y vx vy m -> sf_shows s x y (if m then None else vx) (m || isnan vx)%bool) (tff t) (tff t').
Proof.
  intros A U G N L I H. destruct (comps_lemma asort cx t (or_introl eq_refl) A U G N L I H) as (t' & E & T & UT & GT & F). exists t'. do 4 (split; [assumption|]).
  eapply forall2_weaken; [|exact F]. cbn beta. intros f s (S1 & S2 & S3). split; [now split|]. intros x y vx vy m (i & j & HX & HY & <- & _ & <-). destruct (S3 i j) as [M V]. exists i, j. rewrite S1. auto.
Qed.
Print Assumptions C324_x.
Theorem C324_y asort t : is_argsort asort -> (0 < sc (tfu t))%num -> grid_ok2 (tfg t) -> tff t <> [] -> length (tft t) = length (tff t) -> increasing (tft t) ->
  (forall f, In f (tff t) -> vg f = tfg t /\ vf_wf f) ->
  exists t', tv_comp_as_sf asort cy t = Ok t' /\ tft t' = tft t /\ tfu t' = tfu t /\ tfg t' = tfg t /\
    Forall2 (fun f s => same_axes f s /\ forall x y vx vy m, vf_shows f x y vx vy m -> sf_shows s x y (if m then None else vy) (m || isnan vy)%bool) (tff t) (tff t').
Proof.
  intros A U G N L I H. destruct (comps_lemma asort cy t (or_intror eq_refl) A U G N L I H) as (t' & E & T & UT & GT & F). exists t'. do 4 (split; [assumption|]).
  eapply forall2_weaken; [|exact F]. cbn beta. intros f s (S1 & S2 & S3). split; [now split|]. intros x y vx vy m (i & j & HX & HY & _ & <- & <-). destruct (S3 i j) as [M V]. exists i, j. rewrite S1. auto.
Qed.
Print Assumptions C324_y.
Example C324_example : is_argsort argsort /\ (0 < sc (tfu pod_tv))%num /\ grid_ok2 (tfg pod_tv) /\ tff pod_tv <> [] /\ length (tft pod_tv) = length (tff pod_tv) /\ increasing (tft pod_tv) /\
  (forall f, In f (tff pod_tv) -> vg f = tfg pod_tv /\ vf_wf f).
Proof.
  split; [exact argsort_is|]. split; [reflexivity|]. split; [exact g22_ok|]. split; [discriminate|]. split; [reflexivity|]. split; [exact pod_t_inc|].
  intros f K. cbn in K. destruct K as [<-|[<-|[<-|[<-|[]]]]]; (split; [reflexivity|repeat split]).
Qed.
(** series without field: an empty series, without the unit of the times *)
Theorem C324_empty asort c t : tff t = [] -> tv_comp_as_sf asort c t = Ok tf_new.
Proof. intros E. unfold tv_comp_as_sf. rewrite E. reflexivity. Qed.
Print Assumptions C324_empty.

(** ** C325: mask_cum_as_sf is 1 at the places where every field is masked and 0 at the others, on the same axes, without mask. *)
Theorem C325_scalar (t : tfield sfield) : grid_ok2 (tfg t) -> (forall f, In f (tff t) -> sg f = tfg t) ->
  exists r, tf_mask_cum_as_sf sf_ops t = Ok r /\ sg r = tfg t /\ sf_wf r /\
    forall x y v m, sf_shows r x y v m -> m = false /\
      ((v = Some 1%num /\ forall f w k, In f (tff t) -> sf_shows f x y w k -> k = true) \/ (v = Some 0%num /\ exists f w, In f (tff t) /\ sf_shows f x y w false)).
Proof.
  intros ((IX & IY) & LX & LY) SG. destruct (mask_field (ax (tfg t)) (ay (tfg t)) (tf_mask_cum sf_ops t) (ux (tfg t)) (uy (tfg t)) one_unit IX IY LX LY (conj eq_refl eq_refl)) as (r & E & GR & _ & W & C).
  exists r. split; [exact E|]. split; [rewrite GR; now destruct (tfg t)|]. split; [exact W|]. intros x y v m (i & j & HX & HY & <- & <-). destruct (C i j) as [V M]. rewrite GR in HX, HY. cbn [ax ay] in HX, HY. rewrite V, M. split; [reflexivity|].
  cbn [tf_mask_cum at_]. destruct (forallb (fun f => at_ (o_mask sf_ops f) i j) (tff t)) eqn:K.
  - left. split; [reflexivity|]. intros f w k I (i' & j' & HX' & HY' & _ & <-). rewrite (SG f I) in HX', HY'.
    assert (i' = i) as ->. { destruct (Nat.lt_trichotomy i i') as [Q|[Q|Q]]; [|auto|]; exfalso; [assert (X := IX i i' Q)|assert (X := IX i' i Q)]; unfold nths in X; rewrite ?(nth_error_nth _ _ _ HX), ?(nth_error_nth _ _ _ HX') in X; (assert (Y : (x < x)%num) by (apply X; apply nth_error_Some; congruence)); qlra. }
    assert (j' = j) as ->. { destruct (Nat.lt_trichotomy j j') as [Q|[Q|Q]]; [|auto|]; exfalso; [assert (X := IY j j' Q)|assert (X := IY j' j Q)]; unfold nths in X; rewrite ?(nth_error_nth _ _ _ HY), ?(nth_error_nth _ _ _ HY') in X; (assert (Y : (y < y)%num) by (apply X; apply nth_error_Some; congruence)); qlra. }
    rewrite forallb_forall in K. exact (K f I).
  - right. split; [reflexivity|]. assert (X : exists f, In f (tff t) /\ at_ (msk f) i j = false).
    { clear -K. induction (tff t) as [|f l IH]; [discriminate K|]. cbn [forallb] in K. destruct (at_ (o_mask sf_ops f) i j) eqn:Q; [destruct (IH K) as (h & I & J); exists h; split; [now right|exact J]|exists f; split; [now left|exact Q]]. }
    destruct X as (f & I & Q). exists f, (at_ (values f) i j). split; [exact I|]. exists i, j. rewrite (SG f I). auto.
Qed.
Print Assumptions C325_scalar.
Theorem C325_vector (t : tfield vfield) : grid_ok2 (tfg t) -> (forall f, In f (tff t) -> vg f = tfg t) ->
  exists r, tf_mask_cum_as_sf vf_ops t = Ok r /\ sg r = tfg t /\ sf_wf r /\
    forall x y v m, sf_shows r x y v m -> m = false /\
      ((v = Some 1%num /\ forall f w w' k, In f (tff t) -> vf_shows f x y w w' k -> k = true) \/ (v = Some 0%num /\ exists f w w', In f (tff t) /\ vf_shows f x y w w' false)).
Proof.
  intros ((IX & IY) & LX & LY) SG. destruct (mask_field (ax (tfg t)) (ay (tfg t)) (tf_mask_cum vf_ops t) (ux (tfg t)) (uy (tfg t)) one_unit IX IY LX LY (conj eq_refl eq_refl)) as (r & E & GR & _ & W & C).
  exists r. split; [exact E|]. split; [rewrite GR; now destruct (tfg t)|]. split; [exact W|]. intros x y v m (i & j & HX & HY & <- & <-). destruct (C i j) as [V M]. rewrite GR in HX, HY. cbn [ax ay] in HX, HY. rewrite V, M. split; [reflexivity|].
  cbn [tf_mask_cum at_]. destruct (forallb (fun f => at_ (o_mask vf_ops f) i j) (tff t)) eqn:K.
  - left. split; [reflexivity|]. intros f w w' k I (i' & j' & HX' & HY' & _ & _ & <-). rewrite (SG f I) in HX', HY'.
    assert (i' = i) as ->. { destruct (Nat.lt_trichotomy i i') as [Q|[Q|Q]]; [|auto|]; exfalso; [assert (X := IX i i' Q)|assert (X := IX i' i Q)]; unfold nths in X; rewrite ?(nth_error_nth _ _ _ HX), ?(nth_error_nth _ _ _ HX') in X; (assert (Y : (x < x)%num) by (apply X; apply nth_error_Some; congruence)); qlra. }
    assert (j' = j) as ->. { destruct (Nat.lt_trichotomy j j') as [Q|[Q|Q]]; [|auto|]; exfalso; [assert (X := IY j j' Q)|assert (X := IY j' j Q)]; unfold nths in X; rewrite ?(nth_error_nth _ _ _ HY), ?(nth_error_nth _ _ _ HY') in X; (assert (Y : (y < y)%num) by (apply X; apply nth_error_Some; congruence)); qlra. }
    rewrite forallb_forall in K. exact (K f I).
  - right. split; [reflexivity|]. assert (X : exists f, In f (tff t) /\ at_ (vmsk f) i j = false).
    { clear -K. induction (tff t) as [|f l IH]; [discriminate K|]. cbn [forallb] in K. destruct (at_ (o_mask vf_ops f) i j) eqn:Q; [destruct (IH K) as (h & I & J); exists h; split; [now right|exact J]|exists f; split; [now left|exact Q]]. }
    destruct X as (f & I & Q). exists f, (at_ (cx f) i j), (at_ (cy f) i j). split; [exact I|]. exists i, j. rewrite (SG f I). repeat split; assumption.
Qed.
Print Assumptions C325_scalar.
Example C325_example : grid_ok2 (tfg pod_t) /\ forall f, In f (tff pod_t) -> sg f = tfg pod_t.
Proof. split; [exact g22_ok|]. intros f K. cbn in K. destruct K as [<-|[<-|[<-|[<-|[]]]]]; reflexivity. Qed.
Definition masked_t : tfield sfield := mktf g22 [fr (oz 1) None (oz 0) None; fr (oz 0) None (oz 1) (oz 0)] true (zs [0; 1]%Z) second.
Example C325_masked_example : grid_ok2 (tfg masked_t) /\ (forall f, In f (tff masked_t) -> sg f = tfg masked_t) /\
  match tf_mask_cum_as_sf sf_ops masked_t with Ok r => oseqb (flatten (values r)) [oz 0; oz 1; oz 0; oz 0] | Err _ => false end = true.
Proof. split; [exact g22_ok|]. split; [intros f K; cbn in K; destruct K as [<-|[<-|[]]]; reflexivity|vmr]. Qed.
