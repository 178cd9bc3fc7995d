(** * PodProofs12: scaling a modal base *)
From Coq Require Import Sorted Permutation Lia.
From Verif Require Import Num Res ListLib SortLib Arr FieldModel ScalarFieldModel VectorFieldModel ProfileModel FieldSpec FieldProofs SeqSpec
  ProfileSpec ProfileProofs ProfileProofs2 PointsModel PointsSpec FieldProofs2 TemporalModel TemporalSpec TemporalProofs2 TemporalProofs4 GradModel
  PodModel PodSpec PodSpec2 PodProofs PodProofs2 PodProofs3 PodProofs10 PodProofs11.

Definition sunit (a : sarg) (u : unit_t) : unit_t := match a with SUnum _ w => unit_mul w u | _ => u end.
Lemma map_mul_increasing k l : (0 < k)%num -> increasing l -> increasing (map (fun a => a * k)%num l).
Proof.
  intros P I i j H1 H2. rewrite map_length in H2. rewrite !nths_map by lia. specialize (I i j H1 H2). qnra.
Qed.
Lemma map_mul_one (l : list num) : map (fun a => a * 1)%num l = l.
Proof. rewrite <- (map_id l) at 2. apply map_ext. intro. qring. Qed.
Lemma map_oscale_one l : map (oscale 1%num) l = l.
Proof. rewrite <- (map_id l) at 2. apply map_ext. apply oscale_one. Qed.
Lemma incr_nondecr l : increasing l -> nondecreasing l.
Proof. intros I i j H1 H2. destruct (Nat.eq_dec i j) as [->|]; [apply Qcle_refl|]. apply Qclt_le_weak. apply I; lia. Qed.
Lemma scale_evo p kt kv : prof_ok p -> increasing (px p) -> (0 < sfact kt)%num -> exists p', scale_in p kt kv = (p', None) /\ prof_ok p' /\
  px p' = map (fun a => a * sfact kt)%num (px p) /\ yv p' = map (oscale (sfact kv)) (yv p) /\ pux p' = sunit kt (pux p).
Proof.
  intros OK I P. pose proof OK as (K1 & K2 & K3 & K4). pose proof (ok_lengths p OK) as (L1 & L2 & S0). unfold scale_in. cbv zeta.
  set (p1 := match kt with SUnum _ u => mkprof (px p) (py p) (pm p) (unit_mul u (pux p)) (puy p) | _ => p end).
  set (p2 := match kv with SUnum _ u => mkprof (px p1) (py p1) (pm p1) (pux p1) (unit_mul u (puy p1)) | _ => p1 end).
  assert (P2 : px p2 = px p /\ py p2 = py p /\ pm p2 = pm p /\ pux p2 = sunit kt (pux p)) by (unfold p2, p1, sunit; destruct kt, kv; auto). destruct P2 as (P2x & P2y & P2m & P2u).
  assert (Y2 : yv p2 = yv p) by (unfold yv; now rewrite P2y, P2m).
  assert (O2 : prof_ok p2) by (unfold prof_ok; now rewrite Y2, P2x, P2y, P2m). clearbody p2. clear p1.
  assert (X : exists p3, (if qeqb (sfact kt) 1%num then (p2, None) else set_x p2 (map (fun a => a * sfact kt)%num (px p2))) = (p3, None) /\ prof_ok p3 /\
     px p3 = map (fun a => a * sfact kt)%num (px p) /\ yv p3 = yv p /\ pux p3 = pux p2).
  { destruct (qeqb_spec (sfact kt) 1%num) as [->|N].
    - exists p2. rewrite map_mul_one. auto.
    - destruct (set_x_spec p2 (map (fun a => a * sfact kt)%num (px p2))) as (p3 & E & O & _ & Q & U & _).
      { rewrite map_length, P2x, P2y. lia. } { rewrite P2m, P2y. lia. } { rewrite Y2, P2y. exact K4. }
      exists p3. split; [exact E|]. split; [exact O|].
      destruct (zip3_parts (map (fun a => a * sfact kt)%num (px p2)) (yv p2) (pm p2) p3) as (A & B & _); auto.
      { rewrite map_length, P2x, Y2. lia. } { rewrite map_length, P2x, P2m. lia. }
      { apply Q. apply incr_nondecr. apply map_mul_increasing; [exact P|]. now rewrite P2x. }
      rewrite A, B, P2x, Y2. auto. }
  destruct X as (p3 & E3 & O3 & X3 & Y3 & U3). rewrite E3. cbn [thenp].
  destruct (qeqb_spec (sfact kv) 1%num) as [->|N].
  - exists p3. rewrite map_oscale_one, U3. auto.
  - rewrite (aligned_ok p3 O3). destruct (set_y_spec p3 (map (oscale (sfact kv)) (yv p3))) as (p4 & E4 & X4 & Z4 & M4 & Y4 & U4 & _).
    exists p4. split; [exact E4|]. rewrite X4, Y4, U4, U3, X3, Y3. split; [|auto].
    pose proof (ok_lengths p3 O3) as (T1 & T2 & _). destruct O3 as (_ & _ & O33 & _). unfold prof_ok. rewrite Y4, Z4, X4, M4, !map_length. repeat split; auto; lia.
Qed.
Lemma evo_at_scaled p p' kt kv t c : (0 < kt)%num -> px p' = map (fun a => a * kt)%num (px p) -> yv p' = map (oscale kv) (yv p) -> evo_at p t c -> evo_at p' (t * kt)%num (oscale kv c).
Proof.
  intros P EX EY [(i & A & B)|(i & x0 & x1 & a & b & A & B & H & C & D & L)].
  - left. exists i. rewrite EX, EY, !nth_error_map, A, B. auto.
  - right. exists i, (x0 * kt)%num, (x1 * kt)%num, (oscale kv a), (oscale kv b). rewrite EX, EY, !nth_error_map, A, B, C, D. repeat split; try qnra.
    destruct a as [a|], b as [b|]; cbn [oscale option_map]; try (now rewrite L). destruct L as (r & -> & L). exists (r * kv)%num. split; [reflexivity|].
    unfold on_line in *. transitivity ((r * (x1 - x0)) * (kv * kt))%num; [qring|]. rewrite L. qring.
Qed.
Lemma scale_evos kt kv (l : list profile) : (0 < sfact kt)%num -> (forall p, In p l -> prof_ok p /\ increasing (px p)) ->
  exists l', mapM (fun p => out_res (scale_in p kt kv)) l = Ok l' /\ Forall2 (fun p p' => prof_ok p' /\ px p' = map (fun a => a * sfact kt)%num (px p) /\ yv p' = map (oscale (sfact kv)) (yv p) /\ pux p' = sunit kt (pux p)) l l'.
Proof.
  intro P. induction l as [|p l IH]; intro H; [exists []; split; [reflexivity|constructor]|].
  destruct (H p (or_introl eq_refl)) as (O & I). destruct (scale_evo p kt kv O I P) as (p' & E & A). destruct IH as (l' & E' & F); [intros; apply H; now right|].
  exists (p' :: l'). split; [|now constructor]. cbn [mapM]. rewrite E. cbn [out_res bind]. now rewrite E'.
Qed.
Lemma f2_in {A B} (R : A -> B -> Prop) l l' b : Forall2 R l l' -> In b l' -> exists a, In a l /\ R a b.
Proof. intro F. induction F; intro H0; [easy|]. destruct H0 as [<-|H0]; [exists x; split; [now left|assumption]|]. destruct (IHF H0) as (a & A1 & A2). exists a. split; [now right|assumption]. Qed.
Lemma f2_imp {A B} (R Q : A -> B -> Prop) l l' : (forall a b, R a b -> Q a b) -> Forall2 R l l' -> Forall2 Q l l'.
Proof. intros H F. induction F; constructor; auto. Qed.
Lemma last_map_mul k (l : list num) : l <> [] -> last (map (fun a => a * k)%num l) (qz 0) = (last l (qz 0) * k)%num.
Proof. induction l as [|a l IH]; [congruence|]. intros _. destruct l as [|b l]; [reflexivity|]. change (last (map (fun a => a * k)%num (b :: l)) (qz 0) = (last (b :: l) (qz 0) * k)%num). apply IH. discriminate. Qed.

(** what a positive scale does to a field *)
Section FieldScale.
  Context (kx ky kv : sarg) (PX : (0 < sfact kx)%num) (PY : (0 < sfact ky)%num).
  Definition gscale (g : grid) : grid := fst (fst (grid_scale g kx ky)).
  Lemma gscale_ok g : grid_scale g kx ky = (gscale g, false, false) /\ length (ax (gscale g)) = length (ax g) /\ length (ay (gscale g)) = length (ay g) /\
    (increasing (ax g) -> increasing (ax (gscale g))) /\ (increasing (ay g) -> increasing (ay (gscale g))).
  Proof.
    unfold gscale, grid_scale. rewrite !scale_axis_pos by (now apply Qclt_le_weak). cbn. rewrite !map_length. split; [reflexivity|]. split; [reflexivity|]. split; [reflexivity|]. split; apply map_mul_increasing; assumption.
  Qed.
  Lemma sf_scale_cells k f : let f' := sf_scale f kx ky k in sg f' = gscale (sg f) /\ (sf_wf f -> sf_wf f') /\
    (forall i j, at_ (values f') i j = oscale (sfact k) (at_ (values f) i j)) /\
    (forall i j, at_ (msk f') i j = match k with SNone => at_ (msk f) i j | _ => isnan (at_ (values f) i j) end).
  Proof.
    cbv zeta. destruct (gscale_ok (sg f)) as (E & LX & LY & _). unfold sf_scale. rewrite E. unfold sf_wf, has_shape. split; [destruct k; reflexivity|]. split.
    - intros ((A & B) & (C & D)). destruct k; cbn; rewrite LX, LY; auto.
    - split; intros i j; destruct k; cbn [sfact sg raw msk values at_ amap]; try reflexivity; try (now rewrite oscale_one); try (now rewrite oscale_nan).
      + destruct (at_ (msk f) i j); [reflexivity|]. destruct (at_ (raw f) i j); reflexivity.
      + destruct (at_ (msk f) i j); [reflexivity|]. destruct (at_ (raw f) i j); reflexivity.
  Qed.
  Lemma vf_scale_cells k f : let f' := vf_scale f kx ky k in vg f' = gscale (vg f) /\ (vf_wf f -> vf_wf f') /\
    (forall i j, at_ (cx f') i j = oscale (sfact k) (at_ (cx f) i j)) /\ (forall i j, at_ (cy f') i j = oscale (sfact k) (at_ (cy f) i j)) /\
    (forall i j, at_ (vmsk f') i j = at_ (vmsk f) i j).
  Proof.
    cbv zeta. destruct (gscale_ok (vg f)) as (E & LX & LY & _). unfold vf_scale. rewrite E. unfold vf_wf, has_shape. split; [destruct k; reflexivity|]. split.
    - intros ((A & B) & (C & D) & (G & H)). destruct k; cbn; rewrite LX, LY; repeat split; assumption.
    - repeat split; intros i j; destruct k; cbn [sfact vg cx cy vmsk at_ amap]; try reflexivity; now rewrite oscale_one.
  Qed.
End FieldScale.
Lemma sf_scale_unit kx ky k f : (0 < sfact kx)%num -> (0 < sfact ky)%num -> uv (sf_scale f kx ky k) = match k with SUnum _ w => unit_mul (uv f) w | _ => uv f end.
Proof. intros PX PY. destruct (gscale_ok kx ky PX PY (sg f)) as (E & _). unfold sf_scale. rewrite E. destruct k; reflexivity. Qed.
Lemma vf_scale_unit kx ky k f : (0 < sfact kx)%num -> (0 < sfact ky)%num -> vuv (vf_scale f kx ky k) = match k with SUnum _ w => unit_mul (vuv f) w | _ => vuv f end.
Proof. intros PX PY. destruct (gscale_ok kx ky PX PY (vg f)) as (E & _). unfold vf_scale. rewrite E. destruct k; reflexivity. Qed.

(** the scaled base *)
Lemma scale_core {F} (M : mops F) (mf : mfield F) kx ky kt kv : base_core mf -> (forall p, In p (mf_evo mf) -> pux p = mf_ut mf) ->
  (0 < sfact kt)%num -> good_unit (mf_ut mf) -> good_factor kt ->
  exists evo, mf_scale M mf kx ky kt kv = Ok (mkmf (mf_kind mf) (m_scale M (mf_mean mf) kx ky kv) (map (fun f => m_scale M f kx ky SNone) (mf_modes mf)) (mf_nmb mf) evo
      (map (fun a => a * sfact kt)%num (mf_times mf)) (sunit kt (mf_ut mf)) (o_grid (m_ops M) (m_scale M (mf_mean mf) kx ky kv)) (m_unit M (m_scale M (mf_mean mf) kx ky kv))
      (mf_eigvals mf) (mf_eigvects mf) (mf_ritz mf) (mf_norms mf) (mf_growth mf) (mf_puls mf)) /\
    length evo = length (mf_evo mf) /\ (forall p, In p evo -> prof_ok p /\ px p = map (fun a => a * sfact kt)%num (mf_times mf)) /\
    increasing (map (fun a => a * sfact kt)%num (mf_times mf)) /\ good_unit (sunit kt (mf_ut mf)) /\
    forall t, Forall2 (evo_rel (sfact kv) t (t * sfact kt)%num) (mf_evo mf) evo.
Proof.
  intros (K & NE & L1 & L2 & I & NT & PO) PU PT GU GF.
  destruct (scale_evos kt kv (mf_evo mf) PT) as (evo & E & F2). { intros p Hp. destruct (PO p Hp) as (A & ->). auto. }
  exists evo. pose proof (map_mul_increasing _ _ PT I) as IM.
  assert (LE : length evo = length (mf_evo mf)) by (symmetry; exact (Forall2_len _ _ _ F2)).
  assert (PE : forall p, In p evo -> prof_ok p /\ px p = map (fun a => a * sfact kt)%num (mf_times mf) /\ pux p = sunit kt (mf_ut mf)).
  { intros p Hp. destruct (f2_in _ _ _ _ F2 Hp) as (q & Hq & O & X & _ & U). destruct (PO q Hq) as (_ & Q). rewrite X, Q, U, (PU q Hq). auto. }
  split; [|split; [exact LE|]; split; [intros p Hp; destruct (PE p Hp) as (A & B & _); auto|]; split; [exact IM|]; split].
  - unfold mf_scale. rewrite E. cbn [bind]. destruct evo as [|p0 evo]; [destruct (mf_modes mf); [congruence|]; cbn in LE; rewrite L2 in LE; discriminate|].
    destruct (PE p0 (or_introl eq_refl)) as (_ & -> & ->). reflexivity.
  - unfold sunit, good_unit in *. destruct kt; cbn in *; auto. now apply qmul_pos.
  - intro t. clear - F2 PT IM PO. assert (H : forall p, In p (mf_evo mf) -> increasing (map (fun a => a * sfact kt)%num (px p))) by (intros p Hp; destruct (PO p Hp) as (_ & ->); exact IM). clear PO IM.
    induction F2 as [|p p' l l' (O & X & Y & _) F2 IH]; constructor; [|apply IH; intros; apply H; now right]. split; [rewrite X; apply H; now left|]. intros c. now apply evo_at_scaled.
Qed.
Lemma times_in_scaled {F} (mf mf' : mfield F) k ts : (0 < k)%num -> mf_times mf <> [] -> mf_times mf' = map (fun a => a * k)%num (mf_times mf) -> times_in mf ts -> times_in mf' (map (fun a => a * k)%num ts).
Proof.
  intros P NT E (NE & H). split; [destruct ts; [congruence|discriminate]|]. intros t Ht. apply in_map_iff in Ht. destruct Ht as (a & <- & Ha). destruct (H a Ha) as (A & B). rewrite E, last_map_mul by assumption.
  rewrite nths_map by (destruct (mf_times mf); [congruence|cbn; lia]). split; qnra.
Qed.

Lemma forall2_join_map {A B C} (g : A -> A) (P : A -> B -> Prop) (Q : A -> C -> Prop) (R : B -> C -> Prop) l a b : (forall t x y, In t l -> P t x -> Q (g t) y -> R x y) -> Forall2 P l a -> Forall2 Q (map g l) b -> Forall2 R a b.
Proof.
  intros H F. revert b. induction F as [|t x l a p F IH]; intros b G; inversion G; subst; constructor; [apply (H t); auto; now left|]. apply IH; [intros; apply (H t0); auto; now right|assumption].
Qed.
Lemma sf_scale_lemma_base asort (mf : mfield sfield) kx ky kt kv : is_argsort asort -> base_core mf -> sf_base_ok mf -> (forall p, In p (mf_evo mf) -> pux p = mf_ut mf) ->
  (0 < sfact kx)%num -> (0 < sfact ky)%num -> (0 < sfact kt)%num -> good_factor kt ->
  exists mf', mf_scale sf_mops mf kx ky kt kv = Ok mf' /\ base_core mf' /\ sf_base_ok mf' /\ mf_times mf' = map (fun a => a * sfact kt)%num (mf_times mf) /\
    length (mf_modes mf') = length (mf_modes mf) /\
    forall w places ts, selects (length (mf_modes mf)) w places -> times_in mf ts -> increasing ts ->
      exists t t', reconstruct sf_mops asort mf w (Some ts) = Ok t /\ reconstruct sf_mops asort mf' w (Some (map (fun a => a * sfact kt)%num ts)) = Ok t' /\
        tft t = ts /\ tft t' = map (fun a => a * sfact kt)%num ts /\
        Forall2 (fun f f' => sf_same (sf_scale f kx ky kv) f') (tff t) (tff t').
Proof.
  intros AS BC BO PU PX PY PT GF. pose proof BC as (K & NE & L1 & L2 & I & NT & PO). pose proof BO as ((GS & N1 & N2) & GM & UM & WM & MO & GU).
  destruct (scale_core sf_mops mf kx ky kt kv BC PU PT GU GF) as (evo & E & LE & PE & IM & GU' & RE).
  destruct (gscale_ok kx ky PX PY (mf_g mf)) as (_ & LX & LY & IX & IY).
  pose proof (fun k f => sf_scale_cells kx ky PX PY k f) as SC. cbv zeta in SC. pose proof (fun k f => sf_scale_unit kx ky k f PX PY) as SU.
  set (sc := fun f k => sf_scale f kx ky k) in *.
  assert (SC' : forall k f, sg (sc f k) = gscale kx ky (sg f) /\ (sf_wf f -> sf_wf (sc f k)) /\
    (forall i j, at_ (values (sc f k)) i j = oscale (sfact k) (at_ (values f) i j)) /\
    (forall i j, at_ (msk (sc f k)) i j = match k with SNone => at_ (msk f) i j | _ => isnan (at_ (values f) i j) end)) by (intros k f; apply SC).
  assert (SU' : forall k f, uv (sc f k) = match k with SUnum _ w => unit_mul (uv f) w | _ => uv f end) by (intros k f; apply SU). clear SC SU.
  change (m_scale sf_mops (mf_mean mf) kx ky kv) with (sc (mf_mean mf) kv) in E. change (fun f : sfield => m_scale sf_mops f kx ky SNone) with (fun f => sc f SNone) in E.
  change (o_grid (m_ops sf_mops) (sc (mf_mean mf) kv)) with (sg (sc (mf_mean mf) kv)) in E. change (m_unit sf_mops (sc (mf_mean mf) kv)) with (uv (sc (mf_mean mf) kv)) in E.
  change (fun f f' => sf_same (sf_scale f kx ky kv) f') with (fun f f' => sf_same (sc f kv) f'). clearbody sc.
  destruct (SC' kv (mf_mean mf)) as (GMk & WMk & VMk & _). rewrite GM in GMk. rewrite GMk in E. set (g' := gscale kx ky (mf_g mf)) in *. assert (EG : gscale kx ky (mf_g mf) = g') by reflexivity. clearbody g'.
  match type of E with _ = Ok ?x => set (mf' := x) in * end.
  assert (BC' : base_core mf').
  { unfold base_core, mf'. cbn [mf_kind mf_modes mf_nmb mf_evo mf_times]. rewrite map_length. split; [exact K|]. split; [destruct (mf_modes mf); [congruence|discriminate]|]. split; [exact L1|]. split; [now rewrite LE|]. split; [exact IM|]. split; [destruct (mf_times mf); [congruence|discriminate]|exact PE]. }
  assert (BO' : sf_base_ok mf').
  { unfold sf_base_ok, mf'. cbn [mf_g mf_mean mf_uv mf_modes mf_ut]. split; [split; [split; [apply IX|apply IY]; apply GS|rewrite LX, LY; auto]|]. split; [exact GMk|]. split; [reflexivity|]. split; [apply WMk, WM|]. split; [|exact GU'].
    intros f Hf. apply in_map_iff in Hf. destruct Hf as (a & <- & Ha). destruct (MO a Ha) as (M1 & M2). destruct (SC' SNone a) as (C1 & C2 & _). split; [now rewrite C1, M1, EG|now apply C2]. }
  exists mf'. split; [exact E|]. split; [exact BC'|]. split; [exact BO'|]. split; [reflexivity|]. split; [apply map_length|].
  intros w places ts SEL TI IT. pose proof (map_mul_increasing _ _ PT IT) as IT'.
  destruct (sf_reconstruct_lemma asort mf w places ts AS BC BO SEL TI) as (m0 & t & fs & E0 & R & _ & _ & F & (_ & _ & _ & H)). destruct (H IT) as (H1 & H2).
  destruct (sf_reconstruct_lemma asort mf' w places (map (fun a => a * sfact kt)%num ts) AS BC' BO') as (m0' & t' & fs' & E0' & R' & _ & _ & F' & (_ & _ & _ & H')); [unfold mf'; cbn [mf_modes]; now rewrite map_length|now apply (times_in_scaled mf)|]. destruct (H' IT') as (H1' & H2').
  exists t, t'. split; [exact R|]. split; [exact R'|]. split; [exact H1|]. split; [exact H1'|]. rewrite H2, H2'.
  assert (m0' = sc m0 SNone) as ->. { unfold mf' in E0'. cbn [mf_modes] in E0'. rewrite nth_error_map, E0 in E0'. now injection E0' as <-. }
  eapply forall2_join_map; [|exact F|exact F']. cbv beta. intros u f f' Hu P P'. pose proof P as (Q1 & Q2 & Q3 & ma & ea & ca & _ & _ & _ & Q4). pose proof P' as (Q1' & Q2' & Q3' & _).
  assert (CE : forall i j, i < length (ax g') -> j < length (ay g') -> at_ (msk f') i j = at_ (msk f) i j /\ at_ (values f') i j = oscale (sfact kv) (at_ (values f) i j)).
  { apply (sf_frame_rel g' (fun i => i) (fun j => j) (sfact kv) u (u * sfact kt)%num mf mf' m0 (sc m0 SNone) places f f'); auto.
    - intros i j Hi Hj. rewrite LX in Hi. rewrite LY in Hj. auto.
    - apply forall2_map_r. intros a _ i j _ _. destruct (SC' SNone a) as (_ & _ & C1 & C2). split; [apply C2|]. rewrite C1. apply oscale_one.
    - intros i j _ _. destruct (SC' SNone m0) as (_ & _ & C1 & C2). split; [apply C2|]. rewrite C1. apply oscale_one. }
  destruct (SC' kv f) as (W1 & W2 & W3 & W4). destruct (W2 Q3) as ((V1 & V2) & (V3 & V4)). destruct Q3' as ((Z1 & Z2) & (Z3 & Z4)).
  assert (W5 : sg (sc f kv) = g') by now rewrite W1, Q1.
  change (mf_g mf') with g' in *. rewrite Q1' in Z1, Z2, Z3, Z4. rewrite W5 in V1, V2, V3, V4.
  unfold sf_same. rewrite W5, Q1'. split; [reflexivity|]. split; [reflexivity|]. split; [reflexivity|]. split; [reflexivity|].
  split; [rewrite Q2', SU', Q2; unfold mf'; cbn [mf_uv]; rewrite SU', UM; reflexivity|].
  split; [split; [change (d0 (raw (sc f kv)) = d0 (raw f')); now rewrite V1, Z1|split; [change (d1 (raw (sc f kv)) = d1 (raw f')); now rewrite V2, Z2|]]|split; [now rewrite V3, Z3|split; [now rewrite V4, Z4|]]].
  - intros i j Hi Hj. change (i < d0 (raw (sc f kv))) in Hi. change (j < d1 (raw (sc f kv))) in Hj. rewrite V1 in Hi. rewrite V2 in Hj. destruct (CE i j Hi Hj) as (_ & ->). apply W3.
  - intros i j Hi Hj. rewrite V3 in Hi. rewrite V4 in Hj. destruct (CE i j Hi Hj) as (-> & _). rewrite W4. rewrite LX in Hi. rewrite LY in Hj. destruct (Q4 i j Hi Hj) as (-> & ->).
    destruct kv; [reflexivity|..]; destruct (at_ (msk m0) i j); reflexivity.
Qed.
Lemma vf_scale_lemma_base asort (mf : mfield vfield) kx ky kt kv : is_argsort asort -> base_core mf -> vf_base_ok mf -> (forall p, In p (mf_evo mf) -> pux p = mf_ut mf) ->
  (0 < sfact kx)%num -> (0 < sfact ky)%num -> (0 < sfact kt)%num -> good_factor kt ->
  exists mf', mf_scale vf_mops mf kx ky kt kv = Ok mf' /\ base_core mf' /\ vf_base_ok mf' /\ mf_times mf' = map (fun a => a * sfact kt)%num (mf_times mf) /\
    length (mf_modes mf') = length (mf_modes mf) /\
    forall w places ts, selects (length (mf_modes mf)) w places -> times_in mf ts -> increasing ts ->
      exists t t', reconstruct vf_mops asort mf w (Some ts) = Ok t /\ reconstruct vf_mops asort mf' w (Some (map (fun a => a * sfact kt)%num ts)) = Ok t' /\
        tft t = ts /\ tft t' = map (fun a => a * sfact kt)%num ts /\
        Forall2 (fun f f' => vf_same (vf_scale f kx ky kv) f') (tff t) (tff t').
Proof.
  intros AS BC BO PU PX PY PT GF. pose proof BC as (K & NE & L1 & L2 & I & NT & PO). pose proof BO as ((GS & N1 & N2) & GM & UM & WM & MO & GU).
  destruct (scale_core vf_mops mf kx ky kt kv BC PU PT GU GF) as (evo & E & LE & PE & IM & GU' & RE).
  destruct (gscale_ok kx ky PX PY (mf_g mf)) as (_ & LX & LY & IX & IY).
  pose proof (fun k f => vf_scale_cells kx ky PX PY k f) as SC. cbv zeta in SC. pose proof (fun k f => vf_scale_unit kx ky k f PX PY) as SU.
  set (sc := fun f k => vf_scale f kx ky k) in *.
  assert (SC' : forall k f, vg (sc f k) = gscale kx ky (vg f) /\ (vf_wf f -> vf_wf (sc f k)) /\
    (forall i j, at_ (cx (sc f k)) i j = oscale (sfact k) (at_ (cx f) i j)) /\ (forall i j, at_ (cy (sc f k)) i j = oscale (sfact k) (at_ (cy f) i j)) /\
    (forall i j, at_ (vmsk (sc f k)) i j = at_ (vmsk f) i j)) by (intros k f; apply SC).
  assert (SU' : forall k f, vuv (sc f k) = match k with SUnum _ w => unit_mul (vuv f) w | _ => vuv f end) by (intros k f; apply SU). clear SC SU.
  change (m_scale vf_mops (mf_mean mf) kx ky kv) with (sc (mf_mean mf) kv) in E. change (fun f : vfield => m_scale vf_mops f kx ky SNone) with (fun f => sc f SNone) in E.
  change (o_grid (m_ops vf_mops) (sc (mf_mean mf) kv)) with (vg (sc (mf_mean mf) kv)) in E. change (m_unit vf_mops (sc (mf_mean mf) kv)) with (vuv (sc (mf_mean mf) kv)) in E.
  change (fun f f' => vf_same (vf_scale f kx ky kv) f') with (fun f f' => vf_same (sc f kv) f'). clearbody sc.
  destruct (SC' kv (mf_mean mf)) as (GMk & WMk & VMx & VMy & _). rewrite GM in GMk. rewrite GMk in E. set (g' := gscale kx ky (mf_g mf)) in *. assert (EG : gscale kx ky (mf_g mf) = g') by reflexivity. clearbody g'.
  match type of E with _ = Ok ?x => set (mf' := x) in * end.
  assert (BC' : base_core mf').
  { unfold base_core, mf'. cbn [mf_kind mf_modes mf_nmb mf_evo mf_times]. rewrite map_length. split; [exact K|]. split; [destruct (mf_modes mf); [congruence|discriminate]|]. split; [exact L1|]. split; [now rewrite LE|]. split; [exact IM|]. split; [destruct (mf_times mf); [congruence|discriminate]|exact PE]. }
  assert (BO' : vf_base_ok mf').
  { unfold vf_base_ok, mf'. cbn [mf_g mf_mean mf_uv mf_modes mf_ut]. split; [split; [split; [apply IX|apply IY]; apply GS|rewrite LX, LY; auto]|]. split; [exact GMk|]. split; [reflexivity|]. split; [apply WMk, WM|]. split; [|exact GU'].
    intros f Hf. apply in_map_iff in Hf. destruct Hf as (a & <- & Ha). destruct (MO a Ha) as (M1 & M2). destruct (SC' SNone a) as (C1 & C2 & _). split; [now rewrite C1, M1, EG|now apply C2]. }
  exists mf'. split; [exact E|]. split; [exact BC'|]. split; [exact BO'|]. split; [reflexivity|]. split; [apply map_length|].
  intros w places ts SEL TI IT. pose proof (map_mul_increasing _ _ PT IT) as IT'.
  destruct (vf_reconstruct_lemma asort mf w places ts AS BC BO SEL TI) as (m0 & t & fs & E0 & R & _ & _ & F & (_ & _ & _ & H)). destruct (H IT) as (H1 & H2).
  destruct (vf_reconstruct_lemma asort mf' w places (map (fun a => a * sfact kt)%num ts) AS BC' BO') as (m0' & t' & fs' & E0' & R' & _ & _ & F' & (_ & _ & _ & H')); [unfold mf'; cbn [mf_modes]; now rewrite map_length|now apply (times_in_scaled mf)|]. destruct (H' IT') as (H1' & H2').
  exists t, t'. split; [exact R|]. split; [exact R'|]. split; [exact H1|]. split; [exact H1'|]. rewrite H2, H2'.
  assert (m0' = sc m0 SNone) as ->. { unfold mf' in E0'. cbn [mf_modes] in E0'. rewrite nth_error_map, E0 in E0'. now injection E0' as <-. }
  eapply forall2_join_map; [|exact F|exact F']. cbv beta. intros u f f' Hu P P'. pose proof P as (Q1 & Q2 & Q3 & ma & ea & ca & _ & _ & _ & Q4). pose proof P' as (Q1' & Q2' & Q3' & _).
  assert (CE : forall i j, i < length (ax g') -> j < length (ay g') -> at_ (vmsk f') i j = at_ (vmsk f) i j /\ at_ (cx f') i j = oscale (sfact kv) (at_ (cx f) i j) /\ at_ (cy f') i j = oscale (sfact kv) (at_ (cy f) i j)).
  { apply (vf_frame_rel g' (fun i => i) (fun j => j) (sfact kv) u (u * sfact kt)%num mf mf' m0 (sc m0 SNone) places f f'); auto.
    - intros i j Hi Hj. rewrite LX in Hi. rewrite LY in Hj. auto.
    - apply forall2_map_r. intros a _ i j _ _. destruct (SC' SNone a) as (_ & _ & C1 & C2 & C3). split; [apply C3|]. rewrite C1, C2. split; apply oscale_one.
    - intros i j _ _. destruct (SC' SNone m0) as (_ & _ & C1 & C2 & C3). split; [apply C3|]. rewrite C1, C2. split; apply oscale_one. }
  destruct (SC' kv f) as (W1 & W2 & W3 & W6 & W4). destruct (W2 Q3) as ((V1 & V2) & (V5 & V6) & (V3 & V4)). destruct Q3' as ((Z1 & Z2) & (Z5 & Z6) & (Z3 & Z4)).
  assert (W5 : vg (sc f kv) = g') by now rewrite W1, Q1.
  change (mf_g mf') with g' in *. rewrite Q1' in Z1, Z2, Z3, Z4, Z5, Z6. rewrite W5 in V1, V2, V3, V4, V5, V6.
  unfold vf_same. rewrite W5, Q1'. split; [reflexivity|]. split; [reflexivity|]. split; [reflexivity|]. split; [reflexivity|].
  split; [rewrite Q2', SU', Q2; unfold mf'; cbn [mf_uv]; rewrite SU', UM; reflexivity|].
  split; [split; [now rewrite V1, Z1|split; [now rewrite V2, Z2|]]|split; [split; [now rewrite V5, Z5|split; [now rewrite V6, Z6|]]|split; [now rewrite V3, Z3|split; [now rewrite V4, Z4|]]]].
  - intros i j Hi Hj. rewrite V1 in Hi. rewrite V2 in Hj. destruct (CE i j Hi Hj) as (_ & -> & _). apply W3.
  - intros i j Hi Hj. rewrite V5 in Hi. rewrite V6 in Hj. destruct (CE i j Hi Hj) as (_ & _ & ->). apply W6.
  - intros i j Hi Hj. rewrite V3 in Hi. rewrite V4 in Hj. destruct (CE i j Hi Hj) as (-> & _). apply W4.
Qed.
