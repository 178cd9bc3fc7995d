(** * SpatialProofs4: values on a grid, profiles, extents, opposite and multiple of a set (C157-C160). *)
From Coq Require Import Lia Permutation ZArith String.
From Verif Require Import Num Res ListLib Arr FieldModel ScalarFieldModel VectorFieldModel FieldSpec FieldProofs FieldProofs2 ScalarProofs ProfileModel
  TemporalModel TemporalProofs2 SpatialModel SpatialSpec SpatialProofs SpatialProofs3.

(** ** values on a grid *)
Lemma value_exists ci s x y : exists r, sp_value (vf_sops ci) s x y false = Ok r.
Proof.
  destruct (filter (sp_in (vf_sops ci) x y) (s_fields s)) as [|f l] eqn:E; [unfold sp_value; rewrite E; eauto|].
  destruct (vmean_facts ci) as (H1 & H2 & H3). destruct (value_raw (vf_sops ci) vmean (fun f a b => vf_value_total ci f a b) H1 H2 H3 _ _ _ _ _ E) as (vs & r & _ & _ & V). eauto.
Qed.
Lemma f2_nth {A B} (R : A -> B -> Prop) l l' : Forall2 R l l' -> forall i a, nth_error l i = Some a -> exists b, nth_error l' i = Some b /\ R a b.
Proof. induction 1 as [|a b l l' H _ IH]; intros [|i] c E; try discriminate; cbn in E; [injection E as <-; exists b; auto|now apply IH]. Qed.
Lemma samples_ok ci s X Y : exists rows, sp_samples (vf_sops ci) s X Y = Ok rows /\
  forall i j x y, nth_error X i = Some x -> nth_error Y j = Some y -> sp_value (vf_sops ci) s x y false = Ok (cell_at rows i j).
Proof.
  unfold sp_samples. destruct (mapM_total (fun x => mapM (fun y => sp_value (vf_sops ci) s x y false) Y) X) as (rows & E).
  { intros x _. apply mapM_total. intros y _. apply value_exists. }
  exists rows. split; [exact E|]. intros i j x y Ex Ey. apply mapM_forall2 in E.
  destruct (f2_nth _ _ _ E i x Ex) as (row & Er & Hr). apply mapM_forall2 in Hr.
  destruct (f2_nth _ _ _ Hr j y Ey) as (v & Ev & Hv). rewrite Hv. unfold cell_at.
  rewrite (nth_error_nth _ _ [] Er), (nth_error_nth _ _ None Ev). reflexivity.
Qed.
Lemma svf_grid_lemma ci s X Y a b c : increasing X -> increasing Y -> 2 <= List.length X -> 2 <= List.length Y -> s_fields s <> [] -> s_units s = Some (a, b, c) ->
  exists r, svf_on_grid ci s X Y = Ok r /\ vg r = mkgrid X Y a b /\ vuv r = c /\ vf_wf r /\
    forall x y, In x X -> In y Y ->
      exists o, sp_value (vf_sops ci) s x y false = Ok o /\
        match o with
        | Some (Some v, Some w) => vf_shows r x y (Some v) (Some w) false
        | _ => vf_shows r x y None None true
        end.
Proof.
  intros IX IY LX LY NE U. unfold svf_on_grid. destruct (s_fields s) as [|f l] eqn:EF; [congruence|]. cbn [guard].
  destruct (samples_ok ci s X Y) as (rows & ER & C). rewrite ER. cbn [bind]. rewrite U. unfold vf_import.
  replace (Nat.ltb (List.length Y) 2) with false by (symmetry; apply Nat.ltb_ge; lia). replace (Nat.ltb (List.length X) 2) with false by (symmetry; apply Nat.ltb_ge; lia).
  rewrite andb_false_r. cbn [guard d1 d0].
  assert (T : (Nat.eqb (List.length X) (List.length Y) && Nat.eqb (List.length Y) (List.length X) && negb (Nat.eqb (List.length X) (List.length Y)))%bool = false)
    by (destruct (Nat.eqb (List.length X) (List.length Y)); cbn; [apply andb_false_r|reflexivity]). rewrite T.
  assert (NX : X <> []) by (intros ->; cbn in LX; lia). assert (NY : Y <> []) by (intros ->; cbn in LY; lia).
  pose proof (first_le_last X IX NX) as FX. pose proof (first_le_last Y IY NY) as FY.
  destruct (qltb_spec (last X (qz 0)) (nths X 0)); [exfalso; qlra|]. destruct (qltb_spec (last Y (qz 0)) (nths Y 0)); [exfalso; qlra|].
  unfold shape_is. cbn [d0 d1 amap2 amap ax ay]. rewrite !Nat.eqb_refl. cbn [andb negb guard]. eexists. split; [reflexivity|].
  split; [reflexivity|]. split; [reflexivity|]. split; [repeat split; reflexivity|].
  intros x y Hx Hy. apply In_nth_error in Hx, Hy. destruct Hx as [i Ex], Hy as [j Ey]. exists (cell_at rows i j). split; [now apply C|].
  destruct (cell_at rows i j) as [[[v|] [w|]]|] eqn:E; exists i, j; cbn [vg ax ay cx cy vmsk nanify at_ amap2 amap]; rewrite E; cbn [fst snd isnan orb]; auto.
Qed.
Lemma ssf_grid_never ci s X Y : exists e, ssf_on_grid ci s X Y = Err e.
Proof.
  unfold ssf_on_grid. destruct (s_fields s) as [|f l]; cbn [guard]; [eauto|]. destruct (sp_samples (sf_sops ci) s X Y); cbn; eauto.
Qed.

(** ** profiles *)
Lemma profile_never {F V P} (o : spops F V) getp join s comp d pos (p : P) : sp_profile o getp join s comp d pos <> Ok (Some p).
Proof.
  unfold sp_profile. destruct (filter _ (seq 0 (List.length (s_fields s)))) as [|i l] eqn:E; [discriminate|]. destruct comp as [c|]; [|discriminate].
  assert (D : exists n, d = PNum n).
  { destruct d as [n|k]; [eauto|]. exfalso. assert (I : In i (i :: l)) by now left. rewrite <- E in I. apply filter_In in I. destruct I as [_ I].
    destruct (nth_error (s_fields s) i); discriminate. }
  destruct D as [n ->]. cbn [mapM sf_profile_of]. destruct (nth_error c i); discriminate.
Qed.

(** ** extents *)
Lemma fold_min_spec l a : (forall b, In b (a :: l) -> (fold_left qmin l a <= b)%num) /\ In (fold_left qmin l a) (a :: l).
Proof.
  revert a; induction l as [|c l IH]; intro a; cbn [fold_left].
  - split; [intros b [<- |[]]; apply qle_refl|now left].
  - destruct (IH (qmin a c)) as [H1 H2]. split.
    + intros b Hb. assert (Q : (qmin a c <= a)%num /\ (qmin a c <= c)%num) by (unfold qmin; destruct (qleb_spec a c); split; qlra).
      destruct Hb as [<- |[<- |Hb]]; [eapply qle_trans; [apply H1; now left|apply Q]|eapply qle_trans; [apply H1; now left|apply Q]|apply H1; now right].
    + destruct H2 as [H2|H2]; [|right; now right]. rewrite <- H2. unfold qmin. destruct (qleb a c); [now left|right; now left].
Qed.
Lemma fold_max_spec l a : (forall b, In b (a :: l) -> (b <= fold_left qmax l a)%num) /\ In (fold_left qmax l a) (a :: l).
Proof.
  revert a; induction l as [|c l IH]; intro a; cbn [fold_left].
  - split; [intros b [<- |[]]; apply qle_refl|now left].
  - destruct (IH (qmax a c)) as [H1 H2]. split.
    + intros b Hb. assert (Q : (a <= qmax a c)%num /\ (c <= qmax a c)%num) by (unfold qmax; destruct (qleb_spec a c); split; qlra).
      destruct Hb as [<- |[<- |Hb]]; [eapply qle_trans; [apply Q|apply H1; now left]|eapply qle_trans; [apply Q|apply H1; now left]|apply H1; now right].
    + destruct H2 as [H2|H2]; [|right; now right]. rewrite <- H2. unfold qmax. destruct (qleb a c); [right; now left|now left].
Qed.
Lemma min_of {F} (g : F -> list num) (l : list F) : l <> [] -> (forall f, In f l -> increasing (g f) /\ g f <> []) ->
  exists m, np_min (map (fun f => nths (g f) 0) l) = Ok m /\ (forall f x, In f l -> In x (g f) -> (m <= x)%num) /\ exists f, In f l /\ In m (g f).
Proof.
  intros NE G. destruct l as [|f0 l]; [congruence|]. cbn [map np_min]. destruct (fold_min_spec (map (fun f => nths (g f) 0) l) (nths (g f0) 0)) as [H1 H2].
  change (nths (g f0) 0 :: map (fun f => nths (g f) 0) l) with (map (fun f => nths (g f) 0) (f0 :: l)) in H1, H2.
  eexists. split; [reflexivity|]. split.
  - intros f x Hf Hx. destruct (G f Hf) as [I _]. eapply qle_trans; [apply H1; apply in_map; exact Hf|]. cbn beta.
    apply In_nth_error in Hx. destruct Hx as [i E]. pose proof (nth_error_Some_lt _ _ _ E). apply nth_error_nths in E. rewrite <- E. destruct i; [apply qle_refl|]. apply Qclt_le_weak, I; lia.
  - apply in_map_iff in H2. destruct H2 as (f & E & Hf). exists f. split; [exact Hf|]. rewrite <- E. destruct (G f Hf) as [_ N]. destruct (g f); [congruence|now left].
Qed.
Lemma max_of {F} (g : F -> list num) (l : list F) : l <> [] -> (forall f, In f l -> increasing (g f) /\ g f <> []) ->
  exists m, np_max (map (fun f => last (g f) (qz 0)) l) = Ok m /\ (forall f x, In f l -> In x (g f) -> (x <= m)%num) /\ exists f, In f l /\ In m (g f).
Proof.
  intros NE G. destruct l as [|f0 l]; [congruence|]. cbn [map np_max]. destruct (fold_max_spec (map (fun f => last (g f) (qz 0)) l) (last (g f0) (qz 0))) as [H1 H2].
  change (last (g f0) (qz 0) :: map (fun f => last (g f) (qz 0)) l) with (map (fun f => last (g f) (qz 0)) (f0 :: l)) in H1, H2.
  eexists. split; [reflexivity|]. split.
  - intros f x Hf Hx. destruct (G f Hf) as [I N]. eapply qle_trans; [|apply H1; apply in_map; exact Hf]. cbn beta. rewrite last_nths by exact N.
    apply In_nth_error in Hx. destruct Hx as [i E]. pose proof (nth_error_Some_lt _ _ _ E). apply nth_error_nths in E. rewrite <- E.
    destruct (Nat.eq_dec i (List.length (g f) - 1)) as [-> |D]; [apply qle_refl|]. apply Qclt_le_weak, I; lia.
  - apply in_map_iff in H2. destruct H2 as (f & E & Hf). exists f. split; [exact Hf|]. rewrite <- E. destruct (G f Hf) as [_ N].
    destruct (exists_last N) as (l' & b & ->). rewrite last_last. apply in_or_app. right. now left.
Qed.
Lemma extents_lemma {F V} (o : spops F V) s : s_fields s <> [] ->
  (forall f, In f (s_fields s) -> grid_sorted (p_grid o f) /\ ax (p_grid o f) <> [] /\ ay (p_grid o f) <> []) ->
  exists x0 x1 y0 y1, sp_xmin o s = Ok x0 /\ sp_xmax o s = Ok x1 /\ sp_ymin o s = Ok y0 /\ sp_ymax o s = Ok y1 /\
    (forall f x y, In f (s_fields s) -> In x (ax (p_grid o f)) -> In y (ay (p_grid o f)) -> (x0 <= x)%num /\ (x <= x1)%num /\ (y0 <= y)%num /\ (y <= y1)%num) /\
    (exists f, In f (s_fields s) /\ In x0 (ax (p_grid o f))) /\ (exists f, In f (s_fields s) /\ In x1 (ax (p_grid o f))) /\
    (exists f, In f (s_fields s) /\ In y0 (ay (p_grid o f))) /\ (exists f, In f (s_fields s) /\ In y1 (ay (p_grid o f))).
Proof.
  intros NE G. assert (GX : forall f, In f (s_fields s) -> increasing (ax (p_grid o f)) /\ ax (p_grid o f) <> []) by (intros f Hf; destruct (G f Hf) as ([A _] & B & _); auto).
  assert (GY : forall f, In f (s_fields s) -> increasing (ay (p_grid o f)) /\ ay (p_grid o f) <> []) by (intros f Hf; destruct (G f Hf) as ([_ A] & _ & B); auto).
  destruct (min_of (fun f => ax (p_grid o f)) _ NE GX) as (x0 & E1 & A1 & B1). destruct (max_of (fun f => ax (p_grid o f)) _ NE GX) as (x1 & E2 & A2 & B2).
  destruct (min_of (fun f => ay (p_grid o f)) _ NE GY) as (y0 & E3 & A3 & B3). destruct (max_of (fun f => ay (p_grid o f)) _ NE GY) as (y1 & E4 & A4 & B4).
  exists x0, x1, y0, y1. do 4 (split; [assumption|]). split; [|auto]. intros f x y Hf Hx Hy. eauto 8.
Qed.

(** ** opposite *)
Lemma neg_grid f : sg (sf_neg f) = sg f. Proof. reflexivity. Qed.
Lemma clean_mask f i j : sf_clean f -> i < List.length (ax (sg f)) -> j < List.length (ay (sg f)) -> isnan (at_ (values f) i j) = at_ (msk f) i j.
Proof.
  intros C Hi Hj. destruct (at_ (msk f) i j) eqn:M; cbn [values at_]; rewrite M; [reflexivity|]. pose proof (clean_at f i j C Hi Hj M). now destruct (at_ (raw f) i j).
Qed.
Lemma oneg_isnan v : isnan (oneg v) = isnan v. Proof. now destruct v. Qed.
Lemma neg_value ci f x y : (forall g i j a b, ci (sf_neg g) i j a b = oneg (ci g i j a b)) -> sf_clean f -> grid_sorted (sg f) ->
  strictly_inside (ax (sg f)) x = true -> strictly_inside (ay (sg f)) y = true ->
  get_value ci (sf_neg f) x y = (let* v := get_value ci f x y in Ok (oneg v)).
Proof.
  intros CI C [GX GY] IX IY. pose proof (inside_facts _ _ IX) as (X1 & X2 & X3). pose proof (inside_facts _ _ IY) as (Y1 & Y2 & Y3).
  assert (NX : ax (sg f) <> []) by (intro Q; rewrite Q in X3; cbn in X3; lia). assert (NY : ay (sg f) <> []) by (intro Q; rewrite Q in Y3; cbn in Y3; lia).
  unfold get_value. rewrite neg_grid. destruct (match ax (sg f) with [] => true | _ => false end || match ay (sg f) with [] => true | _ => false end)%bool; [reflexivity|]. cbn [guard].
  destruct (qltb (last (ax (sg f)) (qz 0)) x || qltb (last (ay (sg f)) (qz 0)) y || qltb x (nths (ax (sg f)) 0) || qltb y (nths (ay (sg f)) 0))%bool; [reflexivity|]. cbn [guard].
  pose proof (axis_bounds_spec _ x GX NX (Qclt_le_weak _ _ X1) (Qclt_le_weak _ _ X2)) as BX. pose proof (axis_bounds_spec _ y GY NY (Qclt_le_weak _ _ Y1) (Qclt_le_weak _ _ Y2)) as BY.
  destruct (axis_bounds (ax (sg f)) x) as [i0 i1], (axis_bounds (ay (sg f)) y) as [j0 j1]. destruct BX as (I0 & I1 & _), BY as (J0 & J1 & _).
  assert (M : forall i j, i < List.length (ax (sg f)) -> j < List.length (ay (sg f)) -> at_ (msk (sf_neg f)) i j = at_ (msk f) i j).
  { intros i j Hi Hj. rewrite <- (clean_mask f i j C Hi Hj). cbn [sf_neg msk amap at_]. apply oneg_isnan. }
  assert (W : forall i j, at_ (values (sf_neg f)) i j = oneg (at_ (values f) i j)).
  { intros i j. cbn [values sf_neg msk raw amap at_]. rewrite oneg_isnan. destruct (at_ (msk f) i j); cbn; [reflexivity|]. now destruct (at_ (raw f) i j). }
  rewrite !M, !W by assumption. destruct (at_ (msk f) i0 j0 || at_ (msk f) i1 j1)%bool; [reflexivity|].
  assert (O : forall p q r a b, ointerp1 p q r (oneg a) (oneg b) = oneg (ointerp1 p q r a b)).
  { intros p q r [a|] [b|]; cbn; try reflexivity. f_equal. unfold interp1, Qcdiv. qring. }
  destruct (Nat.eqb i0 i1 && Nat.eqb j0 j1)%bool; [reflexivity|]. destruct (Nat.eqb i0 i1); [cbn [bind]; now rewrite O|]. destruct (Nat.eqb j0 j1); [cbn [bind]; now rewrite O|].
  cbn [bind]. now rewrite CI.
Qed.
Lemma oneg_add a b : oneg (oadd a b) = oadd (oneg a) (oneg b).
Proof. destruct a, b; cbn; try reflexivity. f_equal. qring. Qed.
Lemma oneg_fold vs v : fold_left oadd (map oneg vs) (oneg v) = oneg (fold_left oadd vs v).
Proof. revert v; induction vs as [|a vs IH]; intro v; [reflexivity|]. cbn [map fold_left]. now rewrite <- oneg_add, IH. Qed.
Lemma ssf_neg_lemma ci s x y e : (forall g i j a b, ci (sf_neg g) i j a b = oneg (ci g i j a b)) ->
  (forall f, In f (s_fields s) -> sf_clean f /\ grid_sorted (sg f)) ->
  s_units (ssf_neg s) = s_units s /\
  sp_value (sf_sops ci) (ssf_neg s) x y e = (let* o := sp_value (sf_sops ci) s x y e in Ok (option_map oneg o)).
Proof.
  intros CI G. split; [reflexivity|]. unfold sp_value. cbn [ssf_neg s_fields].
  assert (E : filter (sp_in (sf_sops ci) x y) (map sf_neg (s_fields s)) = map sf_neg (filter (sp_in (sf_sops ci) x y) (s_fields s))).
  { clear G. induction (s_fields s) as [|f l IH]; [reflexivity|]. cbn [map filter]. replace (sp_in (sf_sops ci) x y (sf_neg f)) with (sp_in (sf_sops ci) x y f) by reflexivity.
    destruct (sp_in (sf_sops ci) x y f); cbn; now rewrite IH. }
  rewrite E. assert (H : forall f, In f (filter (sp_in (sf_sops ci) x y) (s_fields s)) -> exists v, get_value ci f x y = Ok v /\ get_value ci (sf_neg f) x y = Ok (oneg v)).
  { intros f Hf. apply filter_In in Hf. destruct Hf as [Hf I]. apply andb_true_iff in I. destruct I as [I1 I2]. destruct (G f Hf) as [C S].
    destruct (get_value_total ci f x y I1 I2) as [v Ev]. exists v. split; [exact Ev|]. rewrite neg_value by assumption. now rewrite Ev. }
  destruct (filter (sp_in (sf_sops ci) x y) (s_fields s)) as [|f l]; [now destruct e|]. cbn [map].
  destruct (H f (or_introl eq_refl)) as (v & E1 & E2). cbn [sf_sops p_value p_over p_plus]. destruct l as [|g l]; cbn [map]; [rewrite E1, E2; reflexivity|].
  rewrite E1, E2. cbn [bind]. change (sf_neg g :: map sf_neg l) with (map sf_neg (g :: l)).
  assert (K : exists vs, mapM (fun h => get_value ci h x y) (g :: l) = Ok vs /\ mapM (fun h => get_value ci h x y) (map sf_neg (g :: l)) = Ok (map oneg vs)).
  { assert (H' : forall h, In h (g :: l) -> exists w, get_value ci h x y = Ok w /\ get_value ci (sf_neg h) x y = Ok (oneg w)) by (intros h Hh; apply H; now right).
    clear - H'. induction (g :: l) as [|h k IH]; [exists []; split; reflexivity|]. destruct (H' h (or_introl eq_refl)) as (w & A & B).
    destruct IH as (vs & A' & B'); [intros; apply H'; now right|]. exists (w :: vs). cbn [mapM map]. rewrite A, B. cbn [bind]. rewrite A', B'. split; reflexivity. }
  destruct K as (vs & K1 & K2). rewrite K1, K2. cbn [bind option_map]. do 2 f_equal. cbn [List.length]. rewrite map_length, oneg_fold. unfold over.
  destruct (fold_left oadd vs v); cbn; [|reflexivity]. f_equal. unfold Qcdiv. qring.
Qed.

(** ** multiple *)
Lemma mul_content f k X Y V : sf_content (sf_mul_num f k) X Y V <-> exists V0, sf_content f X Y V0 /\ V = (V0 * k)%num.
Proof.
  assert (W : forall i j, at_ (values (sf_mul_num f k)) i j = oscale k (at_ (values f) i j)) by (intros i j; cbn [values sf_mul_num msk raw amap at_]; now destruct (at_ (msk f) i j)).
  unfold sf_content. split.
  - intros (x & y & v & (i & j & E1 & E2 & E3 & E4) & -> & -> & ->). rewrite W in E3. destruct (at_ (values f) i j) as [v0|] eqn:EV; [|discriminate]. cbn in E3. injection E3 as <-.
    exists (v0 * sc (uv f))%num. split; [|cbn [sf_mul_num uv]; qring]. exists x, y, v0. split; [exists i, j; auto|auto].
  - intros (V0 & (x & y & v & (i & j & E1 & E2 & E3 & E4) & -> & -> & ->) & ->). exists x, y, (v * k)%num. split; [|cbn [sf_mul_num uv sg]; repeat split; qring].
    exists i, j. rewrite W, E3. auto.
Qed.
Lemma mul_addable f k : sf_addable f -> sf_addable (sf_mul_num f k).
Proof.
  intros (W & C & S & G & E). split; [|split; [|split; [exact S|split; [exact G|exact E]]]].
  - destruct W as [[R0 R1] M]. split; [split; assumption|exact M].
  - intros x y v m (i & j & E1 & E2 & E3 & E4). assert (Q : at_ (values (sf_mul_num f k)) i j = oscale k (at_ (values f) i j)) by (cbn [values sf_mul_num msk raw amap at_]; now destruct (at_ (msk f) i j)).
    rewrite Q in E3. destruct (C x y (at_ (values f) i j) m) as [C1 C2]; [exists i, j; auto|]. subst v. destruct (at_ (values f) i j); cbn [oscale option_map]; split; intro H; try discriminate; auto.
    specialize (C2 H). discriminate.
Qed.
Definition multiple (u : unit_t * unit_t * unit_t) (k : num) (f f' : sfield) : Prop :=
  (ux (sg f'), uy (sg f'), uv f') = u /\ forall X Y V, sf_content f' X Y V <-> exists V0, sf_content f X Y V0 /\ V = (V0 * k)%num.
Lemma mul_loop ci k u : good_units u -> forall l s, s_fields s <> [] -> s_units s = Some u ->
  (forall f, In f l -> sf_addable f /\ (ux (sg f), uy (sg f), uv f) = u) ->
  exists r, sp_adds_all (sf_sops ci) s (map (fun f => sf_mul_num f k) l) = Ok (mkset (Some u) (s_fields s ++ r)) /\ Forall2 (multiple u k) l r.
Proof.
  destruct u as [[a b] c]. intro G. induction l as [|f l IH]; intros s NE U H; cbn [map sp_adds_all].
  - exists []. rewrite app_nil_r, <- U. destruct s. split; [reflexivity|constructor].
  - destruct (H f (or_introl eq_refl)) as [A E]. destruct (ssf_add ci s (sf_mul_num f k) a b c NE U G (mul_addable f k A)) as (f' & E1 & U1 & U2 & U3 & Cn & _).
    { cbn [sf_mul_num sg uv]. injection E as -> -> ->. cbn. auto. }
    rewrite E1. destruct (IH (mkset (s_units s) (s_fields s ++ [f']))) as (r & E2 & F2).
    + cbn. intro Q. apply app_eq_nil in Q. destruct Q; discriminate.
    + exact U.
    + intros g Hg. apply H. now right.
    + exists (f' :: r). rewrite E2. cbn [s_fields]. rewrite <- app_assoc. split; [reflexivity|]. constructor; [|exact F2].
      split; [now rewrite U1, U2, U3|]. intros X Y V. rewrite Cn. apply mul_content.
Qed.
Lemma ssf_mul_lemma ci s k u : good_units u -> s_fields s <> [] ->
  (forall f, In f (s_fields s) -> sf_addable f /\ (ux (sg f), uy (sg f), uv f) = u) ->
  exists s', ssf_mul ci s k = Ok s' /\ s_units s' = Some u /\
    Forall2 (fun f f' => (ux (sg f'), uy (sg f'), uv f') = u /\ forall X Y V, sf_content f' X Y V <-> exists V0, sf_content f X Y V0 /\ V = (V0 * k)%num) (s_fields s) (s_fields s').
Proof.
  intros G NE H. unfold ssf_mul. destruct (s_fields s) as [|f l]; [congruence|]. cbn [map sp_adds_all]. destruct (H f (or_introl eq_refl)) as [A E].
  destruct (ssf_first ci sp_new (sf_mul_num f k) eq_refl (mul_addable f k A)) as (f' & E1 & U1 & U2 & U3 & Cn & _). rewrite E1.
  destruct (mul_loop ci k u G l (mkset (Some u) [f'])) as (r & E2 & F2); [discriminate|reflexivity|intros g Hg; apply H; now right|].
  cbn [sf_mul_num sg uv] in *. rewrite E. rewrite E2. eexists. split; [reflexivity|]. split; [reflexivity|]. cbn [s_fields app]. constructor; [|exact F2].
  split; [now rewrite U1, U2, U3|]. intros X Y V. rewrite Cn. apply mul_content.
Qed.
(** the value of a vector field at a point is made of those of its two components *)
Lemma vf_value_parts ci f x y a b : vf_wf f -> vf_tidy f -> grid_sorted (vg f) -> (2 <= length (ax (vg f)))%nat -> (2 <= length (ay (vg f)))%nat -> vf_value ci f x y = Ok (a, b) ->
  exists sx sy, sg sx = vg f /\ sg sy = vg f /\ (forall p q v m, sf_shows sx p q v m <-> exists w, vf_shows f p q v w m) /\ (forall p q w m, sf_shows sy p q w m <-> exists v, vf_shows f p q v w m) /\
    get_value ci sx x y = Ok a /\ get_value ci sy x y = Ok b.
Proof.
  intros W T (IX & IY) LX LY E. unfold vf_value, comp_sf in E. destruct W as (S1 & S2 & S3).
  rewrite !sf_import_plain in E by first [assumption|apply S1|apply S2]. cbn [bind] in E.
  match type of E with context [get_value ci ?s x y] => set (sx := s) in E end.
  destruct (get_value ci sx x y) as [a'|] eqn:E1; [|discriminate E]. cbn [bind] in E.
  match type of E with context [get_value ci ?s x y] => set (sy := s) in E end.
  destruct (get_value ci sy x y) as [b'|] eqn:E2; [|discriminate E]. cbn [bind] in E. injection E as <- <-.
  exists sx, sy. split; [unfold sx; cbn [sg]; destruct (vg f); reflexivity|]. split; [unfold sy; cbn [sg]; destruct (vg f); reflexivity|].
  assert (TT : forall i j p q, nth_error (ax (vg f)) i = Some p -> nth_error (ay (vg f)) j = Some q -> (at_ (cx f) i j = None <-> at_ (vmsk f) i j = true) /\ (at_ (cy f) i j = None <-> at_ (vmsk f) i j = true)).
  { intros i j p q I J. apply (T p q). exists i, j. repeat split; assumption. }
  assert (M : forall (c : arr onum) i j p q, nth_error (ax (vg f)) i = Some p -> nth_error (ay (vg f)) j = Some q -> (at_ c i j = None <-> at_ (vmsk f) i j = true) ->
    (at_ (vmsk f) i j || isnan (at_ c i j))%bool = at_ (vmsk f) i j /\ (if (at_ (vmsk f) i j || isnan (at_ c i j))%bool then None else at_ c i j) = at_ c i j).
  { intros c i j p q _ _ [A B]. destruct (at_ (vmsk f) i j) eqn:M; cbn [orb]; [split; [reflexivity|symmetry; auto]|]. destruct (at_ c i j) eqn:C; [split; reflexivity|]. specialize (A eq_refl). discriminate A. }
  split; [|split; [|split; [exact E1|exact E2]]].
  - intros p q v m. split.
    + intros (i & j & I & J & V & K). cbn [sx sg ax ay] in I, J. destruct (TT i j p q I J) as [T1 _]. destruct (M (cx f) i j p q I J T1) as [M1 M2].
      exists (at_ (cy f) i j), i, j. cbn in V, K. rewrite ?M2, ?M1 in *. repeat split; assumption.
    + intros (w & i & j & I & J & V & _ & K). destruct (TT i j p q I J) as [T1 _]. destruct (M (cx f) i j p q I J T1) as [M1 M2].
      exists i, j. cbn. rewrite ?M2, ?M1. repeat split; assumption.
  - intros p q v m. split.
    + intros (i & j & I & J & V & K). cbn [sy sg ax ay] in I, J. destruct (TT i j p q I J) as [_ T1]. destruct (M (cy f) i j p q I J T1) as [M1 M2].
      exists (at_ (cx f) i j), i, j. cbn in V, K. rewrite ?M2, ?M1 in *. repeat split; assumption.
    + intros (w & i & j & I & J & _ & V & K). destruct (TT i j p q I J) as [_ T1]. destruct (M (cy f) i j p q I J T1) as [M1 M2].
      exists i, j. cbn. rewrite ?M2, ?M1. repeat split; assumption.
Qed.
