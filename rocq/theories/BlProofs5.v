(** * BlProofs5: thicknesses along a scalar field, failures *)
From Verif Require Import Num Res ListLib SortLib Arr FieldModel ScalarFieldModel FieldSpec PointsSpec FieldProofs ScalarProofs ProfileModel ProfileSpec ProfileProofs ProfileProofs2 ProfileProofs3 ProfileProofs4 TemporalProofs2 SeqSpec BlModel BlSpec BlProofs BlProofs2 BlProofs3.

Lemma sweep_raises ci thick f : (ax (sg f) <> [] -> sweep ci thick f D1 = Err TypeErr) /\ (ay (sg f) <> [] -> sweep ci thick f D2 = Err TypeErr).
Proof. split; intro N; unfold sweep; [destruct (ax (sg f))|destruct (ay (sg f))]; try congruence; reflexivity. Qed.

Lemma sweep_lines ci thick f p : field_ok f -> sweep ci thick f (DStr DY) = Ok p ->
  px p = ay (sg f) /\ pux p = ux (sg f) /\ puy p = uy (sg f) /\
  forall k, k < length (ay (sg f)) -> exists q v, is_line f DY k q /\ thick q = Ok v /\ nth k (yv p) None = v.
Proof.
  intros FO E. pose proof FO as (W & G & _ & _). unfold sweep in E. apply bind_ok in E. destruct E as (qs & E1 & E). apply bind_ok in E. destruct E as (vs & E2 & E).
  apply mapM_forall2 in E1. apply mapM_forall2 in E2. pose proof (Forall2_len _ _ _ E1) as L1. pose proof (Forall2_len _ _ _ E2) as L2.
  destruct (new_nth (ay (sg f)) vs None (ux (sg f)) (uy (sg f))) as (p' & E' & OK & U & V & X & N); [congruence|exact I|apply increasing_nondecreasing, G|].
  assert (p' = p) by congruence. subst p'. repeat (split; [assumption|]). intros k Hk. destruct (N k Hk) as [N1 _]. cbv zeta in N1.
  assert (F : forall {A B} (R : A -> B -> Prop) l r, Forall2 R l r -> forall i x, nth_error l i = Some x -> exists y, nth_error r i = Some y /\ R x y).
  { clear. intros A B R l r H. induction H as [|a b l r H0 H1 IH]; intros [|i] x Hx; try discriminate; [injection Hx as <-; exists b; now split|]. exact (IH i x Hx). }
  destruct (F _ _ _ _ _ E1 k (nths (ay (sg f)) k) (nths_nth_error _ k Hk)) as (q & Q1 & Q2). destruct (F _ _ _ _ _ E2 k q Q1) as (v & V1 & V2).
  exists q, v. destruct (linear_node ci f DY k FO Hk) as [(q' & Q3 & Q4) _]. cbn [pos_axis] in Q3. assert (q' = q) by congruence. subst q'.
  split; [exact Q4|]. split; [exact V2|]. rewrite N1. now apply nth_error_nth.
Qed.
Lemma interval_index_fails f d i j : (- Z.of_nat (length (pos_axis f d)) < Z.min i j)%Z -> (Z.max i j < Z.of_nat (length (pos_axis f d)))%Z -> profile_interval_ind f d i j = Err TypeErr.
Proof.
  intros H1 H2. unfold profile_interval_ind. 
  assert ((Z.min i j <? - Z.of_nat (length (pos_axis f d)) + 1) || (Z.of_nat (length (pos_axis f d)) - 1 <? Z.max i j) = false)%Z%bool as ->; [|reflexivity].
  apply orb_false_iff. split; apply Z.ltb_ge; lia.
Qed.
(** a uniform profile reaches no fraction of its maximum *)
Lemma uniform_fails p l m perc : curve p l -> l <> [] -> (forall x u, In (x, u) l -> u = m) -> (m * perc)%num <> m -> bl_thickness p perc = Err IndexErr.
Proof.
  intros C N U P. assert (G : greatest l m).
  { destruct l as [|[x u] l]; [congruence|]. split; [exists x; rewrite <- (U x u) by (now left); now left|]. intros y w H. rewrite (U y w H). apply qle_refl. }
  unfold bl_thickness. rewrite (curve_max p l m C G). unfold interp_y, interp_list. destruct (curve_parts p l C) as (X & Y & _).
  assert (existsb (fun a => oeqv a (m * perc)%num) (yv p) = false) as ->.
  { apply not_true_iff_false. rewrite existsb_exists. intros (o & Ho & E). rewrite Y in Ho. apply in_map_iff in Ho. destruct Ho as ([x u] & <- & Ht). cbn [oeqv snd] in E. apply qeqb_eq in E. rewrite (U x u Ht) in E. congruence. }
  destruct (curve_lengths p l C) as [_ LY]. rewrite LY.
  assert (F : filter (cross (yv p) (m * perc)%num) (seq 0 (length l - 1)) = []).
  { destruct (filter (cross (yv p) (m * perc)%num) (seq 0 (length l - 1))) as [|k r] eqn:F; [reflexivity|exfalso]. destruct (head_filter _ _ _ _ F) as (K & CK & _).
    unfold cross in CK. destruct (curve_nth p l k C ltac:(lia)) as [A _]. destruct (curve_nth p l (S k) C ltac:(lia)) as [B _]. rewrite A, B in CK.
    assert (V : forall i, i < length l -> snd (nth i l (0, 0)%num) = m) by (intros i Hi; assert (In (nth i l (0, 0)%num) l) as Q by (now apply nth_In); destruct (nth i l (0, 0)%num) as [x u]; eauto).
    rewrite (V k), (V (S k)) in CK by lia. cbn [oge ogt ole olt] in CK. apply orb_true_iff in CK. destruct CK as [CK|CK]; apply andb_true_iff in CK; destruct CK as [C1 C2]; apply qleb_le in C1; apply qltb_lt in C2; qlra. }
  rewrite F. reflexivity.
Qed.
Lemma all_masked_zero p perc : (forall b, In b (pm p) -> b = true) -> bl_thickness p perc = Ok (Some 0%num) /\ displ_thickness p = Ok (Some 0%num) /\ momentum_thickness p = Ok (Some 0%num).
Proof.
  intro H. assert (E : forall perc, bl_thickness p perc = Ok (Some 0%num)).
  { intro q. unfold bl_thickness, prof_max. assert (forallb (fun b => b) (pm p) = true) as -> by (apply forallb_forall; exact H). reflexivity. }
  split; [apply E|]. unfold displ_thickness, momentum_thickness, integral_thickness. rewrite E. cbn [bind]. rewrite qeqb_refl. now split.
Qed.
