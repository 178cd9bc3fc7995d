(** * PodProofs11: cropping a modal base in space, scaling it *)
From Coq Require Import Sorted Permutation Lia.
From Verif Require Import Num Res ListLib SortLib Arr FieldModel ScalarFieldModel VectorFieldModel ProfileModel FieldSpec FieldProofs SeqSpec
  ProfileSpec ProfileProofs ProfileProofs2 PointsModel PointsSpec FieldProofs2 TemporalModel TemporalSpec TemporalProofs2 TemporalProofs4 GradModel
  PodModel PodSpec PodSpec2 PodProofs PodProofs2 PodProofs3 PodProofs10.

Lemma taken_rel {A B} (R : A -> B -> Prop) ps l l' a a' : Forall2 R l l' -> taken ps l a -> taken ps l' a' -> Forall2 R a a'.
Proof.
  intros H T. revert a'. induction T as [|p x ps a Hx T IH]; intros a' T'; inversion T' as [|p' y ps' a2 Hy T2]; subst; [constructor|]. constructor; [|now apply IH].
  destruct (forall2_nth' _ _ _ H _ _ Hy) as (x' & Hx' & Rx). rewrite Hx in Hx'. now injection Hx' as <-.
Qed.
Lemma numbers_scale k vs : forall cs, numbers (combine vs (map (oscale k) cs)) = option_map (map (fun p => (fst p, snd p * k)%num)) (numbers (combine vs cs)).
Proof.
  induction vs as [|v vs IH]; intros [|c cs]; [reflexivity..|]. cbn [map combine numbers]. destruct v as [v|]; [|destruct (oscale k c), c; reflexivity]. destruct c as [c|]; [|reflexivity]. cbn [oscale option_map numbers].
  rewrite IH. destruct (numbers (combine vs cs)); reflexivity.
Qed.
Lemma combination_scale k m vs cs : combination (oscale k m) (combine vs (map (oscale k) cs)) = oscale k (combination m (combine vs cs)).
Proof.
  unfold combination. rewrite numbers_scale. destruct m as [m|]; [|reflexivity]. cbn [oscale option_map]. destruct (numbers (combine vs cs)) as [l|]; [|reflexivity]. cbn [option_map].
  assert (G : total (map (fun p => fst p * snd p)%num (map (fun p => (fst p, snd p * k)%num) l)) = (total (map (fun p => fst p * snd p)%num l) * k)%num).
  { induction l as [|p l IH]; [unfold total; cbn; qring|]. cbn [map]. unfold total in *. cbn [fold_right fst snd]. rewrite IH. qring. }
  rewrite G. unfold oscale, option_map. f_equal. qring.
Qed.
Lemma oscale_nan k v : isnan (oscale k v) = isnan v. Proof. now destruct v. Qed.
Lemma oscale_one v : oscale 1%num v = v. Proof. destruct v; cbn; [f_equal; qring|reflexivity]. Qed.
Lemma evos_scaled k t t' (ea ea' : list profile) ca ca' : Forall2 (fun p p' => increasing (px p') /\ forall c, evo_at p t c -> evo_at p' t' (oscale k c)) ea ea' ->
  Forall2 (fun p c => evo_at p t c) ea ca -> Forall2 (fun p c => evo_at p t' c) ea' ca' -> ca' = map (oscale k) ca.
Proof.
  intro H. revert ca ca'. induction H as [|p p' ea ea' (I & E) _ IH]; intros ca ca' H1 H2; inversion H1; inversion H2; subst; [reflexivity|]. cbn [map]. f_equal; [|now apply IH].
  apply (evo_at_fun p' t'); auto.
Qed.
Section Rel.
  Context (g' : grid) (phi psi : nat -> nat) (k : num) (t t' : num).
  Definition sf_at (m m' : sfield) : Prop := forall i j, i < length (ax g') -> j < length (ay g') ->
    at_ (msk m') i j = at_ (msk m) (phi i) (psi j) /\ at_ (values m') i j = at_ (values m) (phi i) (psi j).
  Definition vf_at (m m' : vfield) : Prop := forall i j, i < length (ax g') -> j < length (ay g') ->
    at_ (vmsk m') i j = at_ (vmsk m) (phi i) (psi j) /\ at_ (cx m') i j = at_ (cx m) (phi i) (psi j) /\ at_ (cy m') i j = at_ (cy m) (phi i) (psi j).
  Definition evo_rel (p p' : profile) : Prop := increasing (px p') /\ forall c, evo_at p t c -> evo_at p' t' (oscale k c).
  Lemma sf_frame_rel mf mf' m0 m0' ks f f' : mf_g mf' = g' -> (forall i j, i < length (ax g') -> j < length (ay g') -> phi i < length (ax (mf_g mf)) /\ psi j < length (ay (mf_g mf))) ->
    (forall i j, i < length (ax g') -> j < length (ay g') -> at_ (values (mf_mean mf')) i j = oscale k (at_ (values (mf_mean mf)) (phi i) (psi j))) ->
    Forall2 sf_at (mf_modes mf) (mf_modes mf') -> sf_at m0 m0' -> Forall2 evo_rel (mf_evo mf) (mf_evo mf') ->
    sf_frame mf m0 ks t f -> sf_frame mf' m0' ks t' f' -> forall i j, i < length (ax g') -> j < length (ay g') ->
    at_ (msk f') i j = at_ (msk f) (phi i) (psi j) /\ at_ (values f') i j = oscale k (at_ (values f) (phi i) (psi j)).
  Proof.
    intros EG BD HME HMO H0 HEV (_ & _ & _ & ma & ea & ca & Ma & Ea & Ca & Va) (_ & _ & _ & mb & eb & cb & Mb & Eb & Cb & Vb) i j Hi Hj.
    destruct (BD i j Hi Hj) as (Bi & Bj). destruct (Va _ _ Bi Bj) as (-> & ->). rewrite EG in Vb. destruct (Vb i j Hi Hj) as (-> & ->).
    pose proof (taken_rel _ _ _ _ _ _ HMO Ma Mb) as RM. pose proof (taken_rel _ _ _ _ _ _ HEV Ea Eb) as RE.
    pose proof (evos_scaled k t t' ea eb ca cb RE Ca Cb) as ->. destruct (H0 i j Hi Hj) as (-> & _). rewrite HME by assumption.
    assert (map (fun m => at_ (values m) i j) mb = map (fun m => at_ (values m) (phi i) (psi j)) ma) as ->.
    { clear -RM Hi Hj. induction RM as [|m m' l l' H _ IH]; [reflexivity|]. cbn [map]. rewrite IH. f_equal. now apply H. }
    rewrite combination_scale, oscale_nan. split; [reflexivity|]. destruct (at_ (msk m0) (phi i) (psi j)); reflexivity.
  Qed.
  Lemma vf_frame_rel mf mf' m0 m0' ks f f' : mf_g mf' = g' -> (forall i j, i < length (ax g') -> j < length (ay g') -> phi i < length (ax (mf_g mf)) /\ psi j < length (ay (mf_g mf))) ->
    (forall i j, i < length (ax g') -> j < length (ay g') -> at_ (cx (mf_mean mf')) i j = oscale k (at_ (cx (mf_mean mf)) (phi i) (psi j)) /\ at_ (cy (mf_mean mf')) i j = oscale k (at_ (cy (mf_mean mf)) (phi i) (psi j))) ->
    Forall2 vf_at (mf_modes mf) (mf_modes mf') -> vf_at m0 m0' -> Forall2 evo_rel (mf_evo mf) (mf_evo mf') ->
    vf_frame mf m0 ks t f -> vf_frame mf' m0' ks t' f' -> forall i j, i < length (ax g') -> j < length (ay g') ->
    at_ (vmsk f') i j = at_ (vmsk f) (phi i) (psi j) /\ at_ (cx f') i j = oscale k (at_ (cx f) (phi i) (psi j)) /\ at_ (cy f') i j = oscale k (at_ (cy f) (phi i) (psi j)).
  Proof.
    intros EG BD HME HMO H0 HEV (_ & _ & _ & ma & ea & ca & Ma & Ea & Ca & Va) (_ & _ & _ & mb & eb & cb & Mb & Eb & Cb & Vb) i j Hi Hj.
    destruct (BD i j Hi Hj) as (Bi & Bj). destruct (Va _ _ Bi Bj) as (Fm & -> & ->). rewrite EG in Vb. destruct (Vb i j Hi Hj) as (Fm' & -> & ->).
    pose proof (taken_rel _ _ _ _ _ _ HMO Ma Mb) as RM. pose proof (taken_rel _ _ _ _ _ _ HEV Ea Eb) as RE.
    pose proof (evos_scaled k t t' ea eb ca cb RE Ca Cb) as ->. destruct (H0 i j Hi Hj) as (E0 & _). destruct (HME i j Hi Hj) as (HX & HY). rewrite HX, HY in *.
    assert (EX : map (fun m => at_ (cx m) i j) mb = map (fun m => at_ (cx m) (phi i) (psi j)) ma).
    { clear -RM Hi Hj. induction RM as [|m m' l l' H _ IH]; [reflexivity|]. cbn [map]. rewrite IH. f_equal. now apply H. }
    assert (EY : map (fun m => at_ (cy m) i j) mb = map (fun m => at_ (cy m) (phi i) (psi j)) ma).
    { clear -RM Hi Hj. induction RM as [|m m' l l' H _ IH]; [reflexivity|]. cbn [map]. rewrite IH. f_equal. now apply H. }
    rewrite EX, EY in *. rewrite !combination_scale, !oscale_nan in *. rewrite E0 in Fm'. rewrite <- Fm in Fm'. rewrite !Fm'. split; [reflexivity|]. destruct (at_ (vmsk f) (phi i) (psi j)); split; reflexivity.
  Qed.
End Rel.

(** ** crop in space *)
Lemma keeps_two_window axe iv : increasing axe -> keeps_two axe iv -> exists i0 i1, crop_window axe iv = Ok (i0, i1) /\ i0 < i1 /\ i1 < length axe.
Proof.
  intros I (i & L & A & B). assert (NE : axe <> []) by (intros ->; cbn in L; lia). destruct (crop_window_spec axe iv I NE) as (H & _).
  assert (OK : iv_ok axe iv).
  { destruct iv as [[a b]|]; [|exact Logic.I]. cbn in A, B |- *. destruct A as (A1 & A2). split; [qlra|]. split.
    - apply (qle_trans _ (nths axe i)); [|exact A2]. destruct i as [|i]; [apply Qcle_refl|]. apply Qclt_le_weak. apply I; lia.
    - rewrite last_nths by exact NE. apply (qle_trans _ (nths axe (S i))); [tauto|]. destruct (Nat.eq_dec (S i) (length axe - 1)) as [->|N]; [apply Qcle_refl|]. apply Qclt_le_weak. apply I; lia. }
  destruct (H OK) as (i0 & i1 & E & L1 & W). exists i0, i1. split; [exact E|]. split; [|exact L1].
  apply (W i) in A; [|lia]. apply (W (S i)) in B; [|lia]. lia.
Qed.
Lemma grid_crop_two g ivx ivy : grid_sorted g -> keeps_two (ax g) ivx -> keeps_two (ay g) ivy -> exists x0 x1 y0 y1,
  grid_crop g ivx ivy = Ok (((x0, x1), (y0, y1)), grid_crop_to g ((x0, x1), (y0, y1))) /\ x0 < x1 < length (ax g) /\ y0 < y1 < length (ay g).
Proof.
  intros (I & J) X Y. destruct (keeps_two_window _ _ I X) as (x0 & x1 & EX & LX). destruct (keeps_two_window _ _ J Y) as (y0 & y1 & EY & LY).
  exists x0, x1, y0, y1. unfold grid_crop. rewrite EX, EY. cbn [bind]. auto.
Qed.
Lemma cut_len {A} x0 x1 (l : list A) : x0 < x1 < length l -> length (slice x0 (x1 + 1) l) = x1 + 1 - x0.
Proof. intro H. rewrite slice_length. lia. Qed.
Lemma mapM_pure {A B} (f : A -> res B) (h : A -> B) l : (forall a, In a l -> f a = Ok (h a)) -> mapM f l = Ok (map h l).
Proof. induction l as [|a l IH]; intro H; [reflexivity|]. cbn. rewrite H by now left. cbn [bind]. rewrite IH by (intros; apply H; now right). reflexivity. Qed.
Lemma forall2_map_r {A B} (R : A -> B -> Prop) (h : A -> B) l : (forall a, In a l -> R a (h a)) -> Forall2 R l (map h l).
Proof. induction l as [|a l IH]; intro H; constructor; [apply H; now left|apply IH; intros; apply H; now right]. Qed.
Lemma forall2_join {A B C} (P : A -> B -> Prop) (Q : A -> C -> Prop) (R : B -> C -> Prop) l a b : (forall t x y, In t l -> P t x -> Q t y -> R x y) -> Forall2 P l a -> Forall2 Q l b -> Forall2 R a b.
Proof.
  intros H F. revert b. induction F as [|t x l a p F IH]; intros b G; inversion G; subst; constructor; [apply (H t); auto; now left|]. apply IH; [intros; apply (H t0); auto; now right|assumption].
Qed.
Lemma evo_rel_same mf_evo t : (forall p, In p mf_evo -> increasing (px p)) -> Forall2 (evo_rel 1%num t t) mf_evo mf_evo.
Proof. induction mf_evo as [|p l IH]; intro H; constructor; [|apply IH; intros; apply H; now right]. split; [apply H; now left|]. intros c E. now rewrite oscale_one. Qed.

Lemma sf_crop_space_lemma asort (mf : mfield sfield) ivx ivy : is_argsort asort -> base_core mf -> sf_base_ok mf ->
  ivx <> None \/ ivy <> None -> keeps_two (ax (mf_g mf)) ivx -> keeps_two (ay (mf_g mf)) ivy ->
  exists mf', mf_crop sf_mops mf ivx ivy None = Ok mf' /\ base_core mf' /\ sf_base_ok mf' /\ mf_times mf' = mf_times mf /\
    length (mf_modes mf') = length (mf_modes mf) /\
    forall w places ts, selects (length (mf_modes mf)) w places -> times_in mf ts -> increasing ts ->
      exists t t', reconstruct sf_mops asort mf w (Some ts) = Ok t /\ reconstruct sf_mops asort mf' w (Some ts) = Ok t' /\ tft t = ts /\ tft t' = ts /\
        Forall2 (fun f f' => exists fc, sf_crop f ivx ivy = Ok fc /\ sf_same fc f') (tff t) (tff t').
Proof.
  intros AS BC BO NN KX KY. pose proof BC as (K & NE & L1 & L2 & I & NT & PO). pose proof BO as ((GS & _ & _) & GM & UM & WM & MO & GU).
  destruct (grid_crop_two _ _ _ GS KX KY) as (x0 & x1 & y0 & y1 & EG & LX & LY).
  set (wd := ((x0, x1), (y0, y1))) in *. set (g' := grid_crop_to (mf_g mf) wd) in *. set (cr := fun f => sf_crop_to f wd g').
  assert (CR : forall f, sg f = mf_g mf -> sf_crop f ivx ivy = Ok (cr f)) by (intros f E; unfold sf_crop; rewrite E, EG; reflexivity).
  assert (CW : forall f, sg f = mf_g mf -> sf_wf f -> sg (cr f) = g' /\ uv (cr f) = uv f /\ sf_wf (cr f)).
  { intros f E ((A1 & A2) & (B1 & B2)). split; [reflexivity|]. split; [reflexivity|]. unfold sf_wf, has_shape, cr, wd, g', grid_crop_to, wd. cbn. rewrite !cut_len by assumption. rewrite E in A1, A2, B1, B2. lia. }
  set (mf' := mkmf (mf_kind mf) (cr (mf_mean mf)) (map cr (mf_modes mf)) (mf_nmb mf) (mf_evo mf) (mf_times mf) (mf_ut mf) g' (mf_uv mf)
           (mf_eigvals mf) (mf_eigvects mf) (mf_ritz mf) (mf_norms mf) (mf_growth mf) (mf_puls mf)).
  assert (E : mf_crop sf_mops mf ivx ivy None = Ok mf').
  { assert (mf_crop sf_mops mf ivx ivy None = mf_crop_space sf_mops mf ivx ivy) as -> by (unfold mf_crop; cbn [bind]; destruct ivx, ivy; try reflexivity; destruct NN; congruence).
    unfold mf_crop_space. rewrite EG. cbn [bind]. change (o_crop (m_ops sf_mops)) with sf_crop. rewrite (CR _ GM). cbn [bind].
    rewrite (mapM_pure _ cr) by (intros a Ha; apply CR, MO, Ha). reflexivity. }
  assert (BC' : base_core mf').
  { unfold base_core, mf'. cbn [mf_kind mf_modes mf_nmb mf_evo mf_times]. rewrite map_length. repeat split; auto; try apply PO; auto. destruct (mf_modes mf); [congruence|discriminate]. }
  assert (BO' : sf_base_ok mf').
  { unfold sf_base_ok, mf'. cbn [mf_g mf_mean mf_uv mf_modes mf_ut]. destruct (CW _ GM WM) as (A1 & A2 & A3). repeat split; try assumption; try (now rewrite A2); try apply A3.
    - unfold g', grid_crop_to, wd. cbn. apply increasing_slice. apply GS.
    - unfold g', grid_crop_to, wd. cbn. apply increasing_slice. apply GS.
    - unfold g', grid_crop_to, wd. cbn [ax]. rewrite cut_len by assumption. lia.
    - unfold g', grid_crop_to, wd. cbn [ay]. rewrite cut_len by assumption. lia.
    - apply in_map_iff in H. destruct H as (a & <- & Ha). destruct (MO a Ha). now apply CW.
    - apply in_map_iff in H. destruct H as (a & <- & Ha). destruct (MO a Ha). apply CW; auto.
    - apply in_map_iff in H. destruct H as (a & <- & Ha). destruct (MO a Ha). apply CW; auto.
    - apply in_map_iff in H. destruct H as (a & <- & Ha). destruct (MO a Ha). apply CW; auto.
    - apply in_map_iff in H. destruct H as (a & <- & Ha). destruct (MO a Ha). apply CW; auto. }
  exists mf'. split; [exact E|]. split; [exact BC'|]. split; [exact BO'|]. split; [reflexivity|]. split; [apply map_length|].
  intros w places ts SEL TI IT.
  destruct (sf_reconstruct_lemma asort mf w places ts AS BC BO SEL TI) as (m0 & t & fs & E0 & R & _ & _ & F & (_ & _ & _ & H)). destruct (H IT) as (H1 & H2).
  destruct (sf_reconstruct_lemma asort mf' w places ts AS BC' BO') as (m0' & t' & fs' & E0' & R' & _ & _ & F' & (_ & _ & _ & H')); [unfold mf'; cbn [mf_modes]; now rewrite map_length|exact TI|]. destruct (H' IT) as (H1' & H2').
  exists t, t'. repeat split; auto. rewrite H2, H2'.
  assert (m0' = cr m0) as ->. { unfold mf' in E0'. cbn [mf_modes] in E0'. rewrite nth_error_map, E0 in E0'. now injection E0' as <-. }
  assert (IM0 : In m0 (mf_modes mf)) by (eapply nth_error_In; exact E0).
  assert (CC : forall f i j, at_ (msk (cr f)) i j = at_ (msk f) (x0 + i) (y0 + j) /\ at_ (values (cr f)) i j = at_ (values f) (x0 + i) (y0 + j)).
  { intros f i j. cbn. split; [reflexivity|]. now destruct (at_ (msk f) (x0 + i) (y0 + j)). }
  eapply forall2_join; [|exact F|exact F']. intros u f f' Hu P P'. exists (cr f). pose proof P as (Q1 & Q2 & Q3 & _). pose proof P' as (Q1' & Q2' & Q3' & _). split; [now apply CR|].
  assert (BX : length (ax g') = x1 + 1 - x0) by (unfold g', grid_crop_to, wd; cbn [ax]; now apply cut_len).
  assert (BY : length (ay g') = y1 + 1 - y0) by (unfold g', grid_crop_to, wd; cbn [ay]; now apply cut_len).
  assert (CE : forall i j, i < length (ax g') -> j < length (ay g') -> at_ (msk f') i j = at_ (msk f) (x0 + i) (y0 + j) /\ at_ (values f') i j = oscale 1%num (at_ (values f) (x0 + i) (y0 + j))).
  { apply (sf_frame_rel g' (fun i => x0 + i) (fun j => y0 + j) 1%num u u mf mf' m0 (cr m0) places f f'); auto.
    - intros i j Hi Hj. lia.
    - intros i j Hi Hj. rewrite oscale_one. apply CC.
    - apply forall2_map_r. intros a _ i j _ _. apply CC.
    - intros i j _ _. apply CC.
    - apply evo_rel_same. intros p Hp. destruct (PO p Hp) as (_ & ->). exact I. }
  destruct (CW f Q1 Q3) as (W1 & W2 & ((W3 & W4) & (W5 & W6))). destruct Q3' as ((Z1 & Z2) & (Z3 & Z4)). rewrite W1 in W3, W4, W5, W6. rewrite Q1' in Z1, Z2, Z3, Z4. cbn [mf_g mf'] in Q1', Z1, Z2, Z3, Z4.
  change (mf_g mf') with g' in *.
  unfold sf_same. rewrite W1, Q1'. repeat split; auto.
  - rewrite W2, Q2, Q2'. reflexivity.
  - change (d0 (raw (cr f)) = d0 (raw f')). congruence.
  - change (d1 (raw (cr f)) = d1 (raw f')). congruence.
  - intros i j Hi Hj. change (i < d0 (raw (cr f))) in Hi. change (j < d1 (raw (cr f))) in Hj. rewrite W3 in Hi. rewrite W4 in Hj. destruct (CE i j Hi Hj) as (_ & ->). rewrite oscale_one. apply CC.
  - congruence.
  - congruence.
  - intros i j Hi Hj. rewrite W5 in Hi. rewrite W6 in Hj. destruct (CE i j Hi Hj) as (-> & _). apply CC.
Qed.
Lemma vf_crop_space_lemma asort (mf : mfield vfield) ivx ivy : is_argsort asort -> base_core mf -> vf_base_ok mf ->
  ivx <> None \/ ivy <> None -> keeps_two (ax (mf_g mf)) ivx -> keeps_two (ay (mf_g mf)) ivy ->
  exists mf', mf_crop vf_mops mf ivx ivy None = Ok mf' /\ base_core mf' /\ vf_base_ok mf' /\ mf_times mf' = mf_times mf /\
    length (mf_modes mf') = length (mf_modes mf) /\
    forall w places ts, selects (length (mf_modes mf)) w places -> times_in mf ts -> increasing ts ->
      exists t t', reconstruct vf_mops asort mf w (Some ts) = Ok t /\ reconstruct vf_mops asort mf' w (Some ts) = Ok t' /\ tft t = ts /\ tft t' = ts /\
        Forall2 (fun f f' => exists fc, vf_crop f ivx ivy = Ok fc /\ vf_same fc f') (tff t) (tff t').
Proof.
  intros AS BC BO NN KX KY. pose proof BC as (K & NE & L1 & L2 & I & NT & PO). pose proof BO as ((GS & _ & _) & GM & UM & WM & MO & GU).
  destruct (grid_crop_two _ _ _ GS KX KY) as (x0 & x1 & y0 & y1 & EG & LX & LY).
  set (wd := ((x0, x1), (y0, y1))) in *. set (g' := grid_crop_to (mf_g mf) wd) in *. set (cr := fun f => vf_crop_to f wd g').
  assert (CR : forall f, vg f = mf_g mf -> vf_crop f ivx ivy = Ok (cr f)) by (intros f E; unfold vf_crop; rewrite E, EG; reflexivity).
  assert (CW : forall f, vg f = mf_g mf -> vf_wf f -> vg (cr f) = g' /\ vuv (cr f) = vuv f /\ vf_wf (cr f)).
  { intros f E ((A1 & A2) & (C1 & C2) & (B1 & B2)). split; [reflexivity|]. split; [reflexivity|]. rewrite E in A1, A2, B1, B2, C1, C2. clear - A1 A2 B1 B2 C1 C2 LX LY. unfold vf_wf, has_shape, cr, wd, g', grid_crop_to, wd. cbn [vf_crop_to cx cy vmsk vg aslice d0 d1 ax ay]. rewrite !cut_len by assumption. repeat split; lia. }
  assert (CC : forall f i j, at_ (vmsk (cr f)) i j = at_ (vmsk f) (x0 + i) (y0 + j) /\ at_ (cx (cr f)) i j = at_ (cx f) (x0 + i) (y0 + j) /\ at_ (cy (cr f)) i j = at_ (cy f) (x0 + i) (y0 + j)).
  { intros f i j. cbn. auto. }
  assert (BX : length (ax g') = x1 + 1 - x0) by (unfold g', grid_crop_to, wd; cbn [ax]; now apply cut_len).
  assert (BY : length (ay g') = y1 + 1 - y0) by (unfold g', grid_crop_to, wd; cbn [ay]; now apply cut_len).
  assert (GX : increasing (ax g')) by (unfold g', grid_crop_to, wd; cbn [ax]; apply increasing_slice; apply GS).
  assert (GY : increasing (ay g')) by (unfold g', grid_crop_to, wd; cbn [ay]; apply increasing_slice; apply GS).
  clearbody cr. clearbody g'.
  set (mf' := mkmf (mf_kind mf) (cr (mf_mean mf)) (map cr (mf_modes mf)) (mf_nmb mf) (mf_evo mf) (mf_times mf) (mf_ut mf) g' (mf_uv mf)
           (mf_eigvals mf) (mf_eigvects mf) (mf_ritz mf) (mf_norms mf) (mf_growth mf) (mf_puls mf)).
  assert (E : mf_crop vf_mops mf ivx ivy None = Ok mf').
  { assert (mf_crop vf_mops mf ivx ivy None = mf_crop_space vf_mops mf ivx ivy) as -> by (unfold mf_crop; cbn [bind]; destruct ivx, ivy; try reflexivity; destruct NN; congruence).
    unfold mf_crop_space. rewrite EG. cbn [bind]. change (o_crop (m_ops vf_mops)) with vf_crop. rewrite (CR _ GM). cbn [bind].
    rewrite (mapM_pure _ cr) by (intros a Ha; apply CR, MO, Ha). reflexivity. }
  assert (BC' : base_core mf').
  { unfold base_core, mf'. cbn [mf_kind mf_modes mf_nmb mf_evo mf_times]. rewrite map_length. repeat split; auto; try apply PO; auto. destruct (mf_modes mf); [congruence|discriminate]. }
  assert (BO' : vf_base_ok mf').
  { unfold vf_base_ok, mf'. cbn [mf_g mf_mean mf_uv mf_modes mf_ut]. destruct (CW _ GM WM) as (A1 & A2 & A3). repeat split; try assumption; try (now rewrite A2); try apply A3.
    - rewrite BX. lia.
    - rewrite BY. lia.
    - apply in_map_iff in H. destruct H as (a & <- & Ha). destruct (MO a Ha). now apply CW.
    - apply in_map_iff in H. destruct H as (a & <- & Ha). destruct (MO a Ha). apply CW; auto.
    - apply in_map_iff in H. destruct H as (a & <- & Ha). destruct (MO a Ha). apply CW; auto.
    - apply in_map_iff in H. destruct H as (a & <- & Ha). destruct (MO a Ha). apply CW; auto.
    - apply in_map_iff in H. destruct H as (a & <- & Ha). destruct (MO a Ha). apply CW; auto.
    - apply in_map_iff in H. destruct H as (a & <- & Ha). destruct (MO a Ha). apply CW; auto.
    - apply in_map_iff in H. destruct H as (a & <- & Ha). destruct (MO a Ha). apply CW; auto. }
  exists mf'. split; [exact E|]. split; [exact BC'|]. split; [exact BO'|]. split; [reflexivity|]. split; [apply map_length|].
  intros w places ts SEL TI IT.
  destruct (vf_reconstruct_lemma asort mf w places ts AS BC BO SEL TI) as (m0 & t & fs & E0 & R & _ & _ & F & (_ & _ & _ & H)). destruct (H IT) as (H1 & H2).
  destruct (vf_reconstruct_lemma asort mf' w places ts AS BC' BO') as (m0' & t' & fs' & E0' & R' & _ & _ & F' & (_ & _ & _ & H')); [unfold mf'; cbn [mf_modes]; now rewrite map_length|exact TI|]. destruct (H' IT) as (H1' & H2').
  exists t, t'. repeat split; auto. rewrite H2, H2'.
  assert (m0' = cr m0) as ->. { unfold mf' in E0'. cbn [mf_modes] in E0'. rewrite nth_error_map, E0 in E0'. now injection E0' as <-. }
  assert (IM0 : In m0 (mf_modes mf)) by (eapply nth_error_In; exact E0).
  eapply forall2_join; [|exact F|exact F']. intros u f f' Hu P P'. exists (cr f). pose proof P as (Q1 & Q2 & Q3 & _). pose proof P' as (Q1' & Q2' & Q3' & _). split; [now apply CR|].
  assert (CE : forall i j, i < length (ax g') -> j < length (ay g') -> at_ (vmsk f') i j = at_ (vmsk f) (x0 + i) (y0 + j) /\ at_ (cx f') i j = oscale 1%num (at_ (cx f) (x0 + i) (y0 + j)) /\ at_ (cy f') i j = oscale 1%num (at_ (cy f) (x0 + i) (y0 + j))).
  { apply (vf_frame_rel g' (fun i => x0 + i) (fun j => y0 + j) 1%num u u mf mf' m0 (cr m0) places f f'); auto.
    - intros i j Hi Hj. lia.
    - intros i j Hi Hj. rewrite !oscale_one. split; apply CC.
    - apply forall2_map_r. intros a _ i j _ _. apply CC.
    - intros i j _ _. apply CC.
    - apply evo_rel_same. intros p Hp. destruct (PO p Hp) as (_ & ->). exact I. }
  destruct (CW f Q1 Q3) as (W1 & W2 & ((W3 & W4) & (W7 & W8) & (W5 & W6))). destruct Q3' as ((Z1 & Z2) & (Z5 & Z6) & (Z3 & Z4)). rewrite W1 in W3, W4, W5, W6, W7, W8. rewrite Q1' in Z1, Z2, Z3, Z4, Z5, Z6.
  change (mf_g mf') with g' in *.
  unfold vf_same. rewrite W1, Q1'. split; [reflexivity|]. split; [reflexivity|]. split; [reflexivity|]. split; [reflexivity|]. split; [rewrite W2, Q2, Q2'; reflexivity|].
  split; [split; [now rewrite W3, Z1|split; [now rewrite W4, Z2|]]|split; [split; [now rewrite W7, Z5|split; [now rewrite W8, Z6|]]|split; [now rewrite W5, Z3|split; [now rewrite W6, Z4|]]]].
  - intros i j Hi Hj. rewrite W3 in Hi. rewrite W4 in Hj. destruct (CE i j Hi Hj) as (_ & -> & _). rewrite oscale_one. apply CC.
  - intros i j Hi Hj. rewrite W7 in Hi. rewrite W8 in Hj. destruct (CE i j Hi Hj) as (_ & _ & ->). rewrite oscale_one. apply CC.
  - intros i j Hi Hj. rewrite W5 in Hi. rewrite W6 in Hj. destruct (CE i j Hi Hj) as (-> & _). apply CC.
Qed.
