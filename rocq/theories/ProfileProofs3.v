From Verif Require Import Num Res ListLib SortLib Arr FieldModel ScalarFieldModel FieldSpec FieldProofs2 ScalarProofs ProfileModel ProfileSpec ProfileProofs ProfileProofs2.

Lemma zip3_fst x y m : length x = length y -> length m = length y -> map sx (zip3 x y m) = x /\ map sy (zip3 x y m) = y /\ map smask (zip3 x y m) = m.
Proof.
  revert y m; induction x as [|a x IH]; intros [|b y] [|c m] E1 E2; try discriminate; [auto|]. simpl in *. destruct (IH y m) as (H1 & H2 & H3); try lia.
  unfold zip3 in *. rewrite H1, H2, H3. auto.
Qed.
Lemma samples_fst p : prof_ok p -> map sx (samples p) = px p /\ map sy (samples p) = yv p /\ map smask (samples p) = pm p.
Proof. intro OK. pose proof (ok_lengths p OK) as (L1 & L2 & _). apply zip3_fst; lia. Qed.
Lemma nth_map' {A B} (f : A -> B) l i d d' : i < length l -> nth i (map f l) d = f (nth i l d').
Proof. intro H. rewrite (nth_indep _ d (f d')) by (now rewrite map_length). apply map_nth. Qed.
Lemma samples_masked p t : In t (samples p) -> smask t = true -> sy t = None.
Proof.
  unfold samples, zip3, yv. generalize (px p) as x. generalize (py p) as y. generalize (pm p) as m. induction m as [|c m IH]; intros y x H M.
  - rewrite combine_nil in H. contradiction.
  - destruct y as [|b y]; [destruct x; simpl in H; contradiction|]. destruct x as [|a x]; [contradiction|]. unfold nan_at in *. simpl in H. destruct H as [<-|H]; [|eapply IH; eauto].
    unfold sy, smask in *. simpl in *. now rewrite M.
Qed.
Lemma shown_clean p t : prof_clean p -> In t (samples p) -> shown t = t.
Proof.
  intros C H. specialize (C t H). destruct t as [[x y] m]. unfold shown, sx, sy, smask in *. simpl in *. subst m. destruct y; reflexivity.
Qed.

(** ** C25 *)
Lemma add_lemma p q : prof_ok p -> prof_ok q -> px p = px q -> dim (pux p) = dim (pux q) -> dim (puy p) = dim (puy q) ->
  sc (puy p) = sc (puy q) -> good_unit (puy p) ->
  exists r, prof_add p q = Ok r /\ prof_ok r /\ px r = px p /\ pux r = pux p /\ puy r = puy p /\
    samples r = map (fun st => (sx (fst st), oadd (sy (fst st)) (sy (snd st)), isnan (oadd (sy (fst st)) (sy (snd st))) || smask (fst st) || smask (snd st))%bool) (combine (samples p) (samples q)) /\
    forall i, i < length (px p) -> osum_phys (nth i (yv r) None) (puy r) (nth i (yv p) None) (puy p) (nth i (yv q) None) (puy q).
Proof.
  intros OP OQ EX D1 D2 S G. pose proof (ok_lengths p OP) as (P1 & P2 & P3). pose proof (ok_lengths q OQ) as (Q1 & Q2 & Q3).
  assert (EL : length (px p) = length (px q)) by (now rewrite EX). unfold prof_add. rewrite (aligned_ok p OP), (aligned_ok q OQ). rewrite (proj2 (dim_eqb_eq _ _) D1), (proj2 (dim_eqb_eq _ _) D2). cbn [andb negb guard].
  assert (Nat.eqb (length (px p)) (length (px q)) = true) as -> by (rewrite EX; apply Nat.eqb_refl). cbn [negb guard]. rewrite (proj2 (list_eqb_eq _ _) EX). cbn [negb guard].
  assert (F : (sc (puy p) / sc (puy q))%num = 1%num).
  { rewrite <- S. unfold good_unit in G. apply qgt_neq in G. qfield; exact G. }
  rewrite F.
  match goal with |- context [prof_new ?x ?y (Some ?m) ?u ?w] => destruct (new_lemma x y (Some m) u w) as (r & N1 & N2 & N3 & N4 & _ & N5) end.
  { rewrite map_length, combine_length. lia. } { rewrite map_length, combine_length. lia. }
  exists r. destruct (N5 P3) as [N6 N7].
  assert (Z : samples r = map (fun st => (sx (fst st), oadd (sy (fst st)) (sy (snd st)), isnan (oadd (sy (fst st)) (sy (snd st))) || smask (fst st) || smask (snd st))%bool) (combine (samples p) (samples q))).
  { rewrite N7. unfold samples. rewrite <- EX in *. 
    pose proof (yv_nan p) as YP. pose proof (yv_nan q) as YQ. revert YP YQ P1 P2 Q1 Q2. generalize (yv p) as y. generalize (yv q) as y'. generalize (pm p) as m. generalize (pm q) as m'. generalize (px p) as x. clear.
    induction x as [|a x IH]; intros [|c' m'] [|c m] [|b' y'] [|b y] YP YQ P1 P2 Q1 Q2; try discriminate; [reflexivity|].
    unfold zip3 in *. simpl in *. rewrite IH by (try lia; intros i Hi; first [now apply (YP (S i))|now apply (YQ (S i))]).
    f_equal. unfold shown, sx, sy, smask. simpl. rewrite oscale_1. specialize (YP 0). specialize (YQ 0). simpl in *.
    destruct c; [rewrite YP by reflexivity; simpl; now rewrite ?orb_true_r|]. destruct c'; [rewrite YQ by reflexivity; simpl; destruct b; reflexivity|]. simpl. destruct b, b'; reflexivity. }
  split; [exact N1|]. split; [exact N2|]. split; [exact N6|]. split; [exact N3|]. split; [exact N4|]. split; [exact Z|]. intros i Hi.
  destruct (samples_fst r N2) as (_ & Yr & _). rewrite <- Yr, Z, map_map.
  rewrite (nth_map' _ _ _ _ ((qz 0, None, false), (qz 0, None, false))) by (rewrite combine_length, !samples_length by assumption; rewrite <- EX; lia).
  rewrite combine_nth by (rewrite !samples_length by assumption; now rewrite EX). rewrite !samples_nth by assumption. unfold sy. cbn [fst snd].
  rewrite N4. unfold osum_phys. destruct (nth i (yv p) None) as [a|]; [|reflexivity]. destruct (nth i (yv q) None) as [b|]; [|reflexivity].
  simpl. eexists. split; [reflexivity|]. rewrite <- S. qring.
Qed.
Lemma add_errors p q : dim (pux p) <> dim (pux q) \/ dim (puy p) <> dim (puy q) \/ px p <> px q -> prof_add p q = Err ValueErr.
Proof.
  intro H. unfold prof_add. destruct (dim_eqb (dim (pux p)) (dim (pux q))) eqn:E1; [|reflexivity]. destruct (dim_eqb (dim (puy p)) (dim (puy q))) eqn:E2; [|reflexivity].
  apply dim_eqb_eq in E1. apply dim_eqb_eq in E2. cbn [andb negb guard]. destruct (Nat.eqb_spec (length (px p)) (length (px q))); [|reflexivity]. cbn [negb guard].
  destruct (list_eqb (px p) (px q)) eqn:E3; [|reflexivity]. apply list_eqb_eq in E3. tauto.
Qed.

(** ** C26 *)
Lemma div_keeps p q r q' : prof_ok q -> prof_div p q = Ok (r, q') -> (forall t, In t (samples q) -> sy t <> Some 0%num) -> q' = q.
Proof.
  intros OQ H Z. unfold prof_div in H. apply guard_ok in H. destruct H as [_ H]. apply guard_ok in H. destruct H as [_ H].
  match type of H with bind ?e _ = _ => destruct e as [r0|e0] eqn:E; cbn [bind] in H; [|discriminate] end.
  injection H as _ <-. pose proof OQ as (Q1 & Q2 & Q3 & Q4). destruct q as [x y m u w]. cbn [px py pm pux puy] in *. f_equal. rewrite Q4.
  rewrite <- (map_id y) at 2. apply map_ext_in. intros a Ha. destruct a as [v|]; [|reflexivity]. destruct (qeqb_spec v 0%num) as [->|N]; [|reflexivity].
  exfalso. rewrite <- Q4 in Ha. destruct (samples_fst (mkprof x y m u w) OQ) as (_ & S & _). rewrite <- S in Ha. apply in_map_iff in Ha. destruct Ha as (t & Et & Ht). exact (Z t Ht Et).
Qed.

(** ** C27 *)
(** ** C27 *)
Definition nanfree (l : list sample) := existsb (fun t => (isnan (sy t) && negb (smask t))%bool) l = false.
Lemma integral_unfold p : prof_ok p -> get_integral p =
  if existsb (fun t => (isnan (sy t) && negb (smask t))%bool) (samples p) then None
  else Some (trapz (flat_map (fun t => match t with (x, Some y, false) => [(x, y)] | _ => [] end) (samples p))).
Proof.
  intro OK. unfold get_integral. pose proof (ok_lengths p OK) as (L1 & L2 & _).
  replace (existsb (fun t => (isnan (fst t) && negb (snd t))%bool) (combine (yv p) (pm p))) with (existsb (fun t => (isnan (sy t) && negb (smask t))%bool) (samples p)); [reflexivity|].
  unfold samples. revert L1 L2. generalize (px p) as x. generalize (yv p) as y. generalize (pm p) as m. clear.
  intros m y x. revert y m. induction x as [|a x IH]; intros [|b y] [|c m] L1 L2; try discriminate; [reflexivity|]. simpl in *. f_equal. apply IH; lia.
Qed.
Lemma trapz_area l : existsb (fun t => (isnan (sy t) && negb (smask t))%bool) l = false ->
  area (unmasked l) = Some (trapz (flat_map (fun t => match t with (x, Some y, false) => [(x, y)] | _ => [] end) l)) /\
  (forall x y r, unmasked l = (x, y) :: r -> exists y0 r0, y = Some y0 /\ flat_map (fun t => match t with (x, Some y, false) => [(x, y)] | _ => [] end) l = (x, y0) :: r0).
Proof.
  induction l as [|[[x y] m] l IH]; intro H; [split; [reflexivity|discriminate]|]. cbn [existsb] in H. apply orb_false_iff in H. destruct H as [H1 H2]. destruct (IH H2) as [I1 I2].
  unfold sy, smask in H1. cbn [fst snd] in H1. destruct m.
  - cbn [unmasked flat_map]. unfold smask. cbn [snd]. assert (E : forall (y : onum), (match y with Some _ => [] | None => [] end : list (num * num)) = []) by (intros [?|]; reflexivity).
    destruct y; cbn [app]; auto.
  - destruct y as [y|]; [|discriminate]. cbn [unmasked flat_map]. unfold smask, sx, sy. cbn [snd fst app]. split.
    + destruct (unmasked l) as [|[x1 y1] r] eqn:U.
      * cbn [area]. cbn [area] in I1. f_equal. injection I1 as I1. destruct (flat_map _ l) as [|[x1 y1] r] eqn:F; [reflexivity|]. exfalso.
        assert (In (x1, y1) (flat_map (fun t : sample => match t with (x, Some y, false) => [(x, y)] | _ => [] end) l)) by (rewrite F; now left).
        apply in_flat_map in H. destruct H as ([[a b] c] & T1 & T2). destruct b as [b|]; [|contradiction]. destruct c; [contradiction|].
        clear - U T1. induction l as [|s l IH]; [contradiction|]. cbn [unmasked] in U. destruct (smask s) eqn:M; [|discriminate]. destruct T1 as [->|T1]; [discriminate|auto].
      * destruct (I2 x1 y1 r eq_refl) as (y0 & r0 & -> & F). rewrite F. rewrite F in I1. change (area ((x, Some y) :: (x1, Some y0) :: r)) with
          (match area ((x1, Some y0) :: r) with Some s => Some ((x1 - x) * (y + y0) / 2 + s)%num | _ => None end). rewrite I1. reflexivity.
    + intros x1 y1 r E. injection E as <- <- <-. eauto.
Qed.
Lemma area_nan l : (exists x, In (x, None) l) -> area l = None.
Proof.
  induction l as [|[x y] l IH]; intros (z & H); [contradiction|]. destruct l as [|[x1 y1] l].
  - destruct H as [H|[]]. injection H as -> ->. reflexivity.
  - change (area ((x, y) :: (x1, y1) :: l)) with (match y, y1, area ((x1, y1) :: l) with Some a, Some b, Some s => Some ((x1 - x) * (a + b) / 2 + s)%num | _, _, _ => None end).
    destruct H as [H|H]; [injection H as -> ->; reflexivity|]. rewrite IH by eauto. destruct y, y1; reflexivity.
Qed.
Lemma integral_area p : prof_ok p -> get_integral p = area (unmasked (samples p)).
Proof.
  intro OK. rewrite integral_unfold by exact OK. destruct (existsb _ (samples p)) eqn:E.
  - symmetry. apply area_nan. apply existsb_exists in E. destruct E as ([[x y] m] & H & C). unfold sy, smask in C. cbn [fst snd] in C. apply andb_true_iff in C. destruct C as [C1 C2].
    destruct y; [discriminate|]. destruct m; [discriminate|]. exists x. clear - H. induction (samples p) as [|s l IH]; [contradiction|]. cbn [unmasked].
    destruct H as [->|H]; [now left|]. destruct (smask s); [auto|]. right. auto.
  - symmetry. now apply trapz_area.
Qed.
Lemma area_split l t r : area (l ++ t :: r) = oadd (area (l ++ [t])) (area (t :: r)).
Proof.
  induction l as [|[x y] l IH].
  - cbn [app]. destruct t as [x [y|]].
    + change (area [(x, Some y)]) with (Some 0%num). destruct (area ((x, Some y) :: r)); [|reflexivity]. simpl. f_equal. qring.
    + rewrite !area_nan; [reflexivity|exists x; now left ..].
  - destruct l as [|[x1 y1] l].
    + cbn [app]. destruct t as [x1 y1]. change (area ((x, y) :: (x1, y1) :: r)) with (match y, y1, area ((x1, y1) :: r) with Some a, Some b, Some s => Some ((x1 - x) * (a + b) / 2 + s)%num | _, _, _ => None end).
      change (area [(x, y); (x1, y1)]) with (match y, y1, option_map (fun _ => 0%num) y1 with Some a, Some b, Some s => Some ((x1 - x) * (a + b) / 2 + s)%num | _, _, _ => None end).
      destruct y as [y|]; [|reflexivity]. destruct y1 as [y1|]; [|reflexivity]. destruct (area ((x1, Some y1) :: r)) as [s|]; [|reflexivity]. cbn [option_map]. simpl. f_equal. qring.
    + change (((x, y) :: (x1, y1) :: l) ++ t :: r) with ((x, y) :: (x1, y1) :: (l ++ t :: r)). change (((x, y) :: (x1, y1) :: l) ++ [t]) with ((x, y) :: (x1, y1) :: (l ++ [t])).
      change (((x1, y1) :: l) ++ t :: r) with ((x1, y1) :: (l ++ t :: r)) in IH. change (((x1, y1) :: l) ++ [t]) with ((x1, y1) :: (l ++ [t])) in IH.
      change (area ((x, y) :: (x1, y1) :: (l ++ t :: r))) with (match y, y1, area ((x1, y1) :: (l ++ t :: r)) with Some a, Some b, Some s => Some ((x1 - x) * (a + b) / 2 + s)%num | _, _, _ => None end).
      change (area ((x, y) :: (x1, y1) :: (l ++ [t]))) with (match y, y1, area ((x1, y1) :: (l ++ [t])) with Some a, Some b, Some s => Some ((x1 - x) * (a + b) / 2 + s)%num | _, _, _ => None end).
      rewrite IH. destruct y as [y|]; [|reflexivity]. destruct y1 as [y1|]; [|reflexivity]. destruct (area ((x1, Some y1) :: l ++ [t])); [|reflexivity].
      destruct (area (t :: r)); [|reflexivity]. cbn [oadd lift2]. f_equal. qring.
Qed.
Lemma unmasked_app a b : unmasked (a ++ b) = unmasked a ++ unmasked b.
Proof. induction a as [|t a IH]; [reflexivity|]. simpl. destruct (smask t); [exact IH|]. simpl. now rewrite IH. Qed.
Lemma map_shown p l : prof_clean p -> (forall t, In t l -> In t (samples p)) -> map shown l = l.
Proof. intros C H. rewrite <- (map_id l) at 2. apply map_ext_in. intros t Ht. eapply shown_clean; eauto. Qed.
Lemma slice_in {A} i j (l : list A) t : In t (slice i j l) -> In t l.
Proof.
  unfold slice. intro H. assert (F : forall n (k : list A), In t (firstn n k) -> In t k).
  { induction n as [|n IH]; intros [|u k] Q; try contradiction. destruct Q as [->|Q]; [now left|right; now apply IH]. }
  apply F in H. assert (G : forall n (k : list A), In t (skipn n k) -> In t k).
  { induction n as [|n IH]; intros k Q; [exact Q|]. destruct k; [contradiction|]. right. now apply IH. }
  now apply G in H.
Qed.
Lemma integral_split p k : prof_ok p -> prof_clean p -> k < length (px p) -> nth k (pm p) true = false ->
  exists p1 p2, prof_crop_ind p 0 (Z.of_nat (k + 1)) = Ok p1 /\ prof_crop_ind p (Z.of_nat k) (Z.of_nat (length (px p))) = Ok p2 /\
    get_integral p = oadd (get_integral p1) (get_integral p2).
Proof.
  intros OK C Hk M. pose proof (ok_lengths p OK) as (L1 & L2 & S).
  destruct (crop_index p 0 (Z.of_nat (k + 1)) OK) as [(p1 & E1 & S1 & _) _]; try lia.
  destruct (crop_index p (Z.of_nat k) (Z.of_nat (length (px p))) OK) as [(p2 & E2 & S2 & _) _]; try lia.
  exists p1, p2. split; [exact E1|]. split; [exact E2|].
  assert (O : forall a b q, prof_crop_ind p a b = Ok q -> prof_ok q).
  { intros a b q E. unfold prof_crop_ind, prof_crop_with in E. destruct (crop_data_ind p a b) as [[[x y] m]|e] eqn:F; [|discriminate]. cbn [bind] in E.
    unfold crop_data_ind in F. apply guard_ok in F. destruct F as [_ F]. apply guard_ok in F. destruct F as [_ F]. apply guard_ok in F. destruct F as [_ F]. injection F as <- <- <-.
    match type of E with prof_new ?x ?y (Some ?m) ?u ?w = _ => destruct (new_lemma x y (Some m) u w) as (r & N1 & N2 & _) end.
    { rewrite !slice_length, L1. reflexivity. } { rewrite !slice_length, L2. reflexivity. } rewrite E in N1. injection N1 as <-. exact N2. }
  rewrite !integral_area by eauto. rewrite S1, S2, !(map_shown p) by (auto; intros t; apply slice_in).
  rewrite !Nat2Z.id. change (Z.to_nat 0) with 0. unfold slice. rewrite Nat.sub_0_r. change (skipn 0 (samples p)) with (samples p).
  rewrite (firstn_all2 (n := length (px p) - k)) by (rewrite skipn_length, samples_length by exact OK; lia).
  destruct (nth_split (samples p) (qz 0, None, true) (n := k)) as (a & b & E & La); [rewrite samples_length; assumption|].
  assert (T : smask (nth k (samples p) (qz 0, None, true)) = false).
  { rewrite (nth_indep _ _ (qz 0, None, false)) by (rewrite samples_length; assumption). rewrite samples_nth by exact OK. unfold smask. cbn [snd]. rewrite (nth_indep _ _ true) by lia. exact M. }
  set (t := nth k (samples p) (qz 0, None, true)) in *. rewrite E. replace (k + 1) with (length (a ++ [t])) by (rewrite app_length; simpl; lia).
  replace (a ++ t :: b) with ((a ++ [t]) ++ b) at 2 by (now rewrite <- app_assoc). rewrite firstn_app, Nat.sub_diag, firstn_O, app_nil_r, firstn_all.
  rewrite <- La, skipn_app, Nat.sub_diag, skipn_O, skipn_all. simpl app. rewrite !unmasked_app. simpl. rewrite T. apply area_split.
Qed.
Lemma area_scale c l : area (map (fun t => (fst t, oscale c (snd t))) l) = oscale c (area l).
Proof.
  induction l as [|[x y] l IH]; [simpl; f_equal; qring|]. destruct l as [|[x1 y1] l].
  - destruct y; [simpl; f_equal; qring|reflexivity].
  - change (area ((x, y) :: (x1, y1) :: l)) with (match y, y1, area ((x1, y1) :: l) with Some a, Some b, Some s => Some ((x1 - x) * (a + b) / 2 + s)%num | _, _, _ => None end).
    cbn [map fst snd] in *. change (area ((x, oscale c y) :: (x1, oscale c y1) :: map (fun t => (fst t, oscale c (snd t))) l)) with
     (match oscale c y, oscale c y1, area ((x1, oscale c y1) :: map (fun t => (fst t, oscale c (snd t))) l) with Some a, Some b, Some s => Some ((x1 - x) * (a + b) / 2 + s)%num | _, _, _ => None end).
    rewrite IH. destruct y as [y|]; [|reflexivity]. destruct y1 as [y1|]; [|reflexivity]. cbn [oscale option_map]. destruct (area ((x1, Some y1) :: l)); [|reflexivity]. simpl. f_equal. qfield; discriminate.
Qed.
