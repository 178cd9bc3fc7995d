(** * BlProofs3: displacement and momentum thicknesses *)
From Verif Require Import Num Res ListLib SortLib Arr FieldModel ScalarFieldModel FieldSpec PointsSpec FieldProofs ScalarProofs ProfileModel ProfileSpec ProfileProofs ProfileProofs2 ProfileProofs3 ProfileProofs4 BlModel BlSpec BlProofs BlProofs2.

Lemma trapz_step x0 y0 x1 y1 r : trapz ((x0, y0) :: (x1, y1) :: r) = ((x1 - x0) * (y0 + y1) / 2 + trapz ((x1, y1) :: r))%num.
Proof. reflexivity. Qed.
Lemma trapz_some (g : num * num -> num) l : area (map (fun t => (fst t, Some (g t))) l) = Some (trapz (map (fun t => (fst t, g t)) l)).
Proof.
  induction l as [|t [|s l] IH]; [reflexivity|reflexivity|]. cbn [map area trapz] in *. destruct t as [x u], s as [x' u']. cbn [fst snd] in *. rewrite IH. reflexivity.
Qed.
Lemma trapz_le (g h : num * num -> num) l : nondecreasing (map fst l) -> (forall t, In t l -> (g t <= h t)%num) ->
  (trapz (map (fun t => (fst t, g t)) l) <= trapz (map (fun t => (fst t, h t)) l))%num.
Proof.
  induction l as [|t [|s l] IH]; intros N H; [apply qle_refl|apply qle_refl|]. cbn [map] in *. rewrite !trapz_step.
  pose proof (N 0 1 ltac:(lia) ltac:(cbn; lia)) as D. cbn [nth] in D.
  assert (IH' : (trapz (map (fun t => (fst t, g t)) (s :: l)) <= trapz (map (fun t => (fst t, h t)) (s :: l)))%num).
  { apply IH; [|intros q Hq; apply H; now right]. intros i j Hij Hj. apply (N (S i) (S j)); [lia|]. cbn in *. lia. }
  cbn [map] in IH'. pose proof (H t (or_introl eq_refl)). pose proof (H s (or_intror (or_introl eq_refl))).
  assert (Q : (0 <= (fst s - fst t) * ((h t + h s) - (g t + g s)))%num) by (apply qmul_nonneg; qlra).
  match goal with |- (?a + ?b <= ?c + ?e)%num => enough (a <= c)%num by qlra end.
  assert (H2 : forall z : num, (z / 2 * 2 = z)%num) by (intro; apply qdiv_mul; discriminate).
  pose proof (H2 ((fst s - fst t) * (g t + g s))%num). pose proof (H2 ((fst s - fst t) * (h t + h s))%num). qlra.
Qed.
Lemma trapz_const c l x0 u0 r : l = (x0, u0) :: r -> trapz (map (fun t : num * num => (fst t, c)) l) = (c * (fst (last l (0, 0)%num) - x0))%num.
Proof.
  revert x0 u0 r. induction l as [|t [|s l] IH]; intros x0 u0 r E; [discriminate|injection E as -> <-; cbn [map trapz last fst]; qring|]. injection E as -> E.
  destruct s as [x1 u1]. change (map (fun t : num * num => (fst t, c)) ((x0, u0) :: (x1, u1) :: l)) with ((x0, c) :: map (fun t : num * num => (fst t, c)) ((x1, u1) :: l)).
  specialize (IH x1 u1 l eq_refl). cbn [map fst] in *. rewrite trapz_step, IH. change (last ((x0, u0) :: (x1, u1) :: l) (0, 0)%num) with (last ((x1, u1) :: l) (0, 0)%num). qfield. discriminate.
Qed.

Lemma walled_facts k : increasing (map fst k) -> (forall x u, In (x, u) k -> (0 <= x)%num) -> k <> [] ->
  exists u r, walled k = (0%num, u) :: r /\ increasing (map fst (walled k)) /\ (forall t, In t k -> In t (walled k)) /\
    (forall t, In t (walled k) -> In t k \/ t = (0, 0)%num) /\ last (walled k) (0, 0)%num = last k (0, 0)%num.
Proof.
  intros I W N. destruct k as [|[x u] k]; [congruence|]. cbn [walled]. destruct (qeqb_spec x 0%num) as [->|NE].
  - exists u, k. repeat split; auto.
  - exists 0%num, ((x, u) :: k). split; [reflexivity|]. split; [|split; [intros t Ht; now right|split; [intros t [<-|Ht]; auto|reflexivity]]].
    pose proof (W x u (or_introl eq_refl)) as P. assert (P' : (0 < x)%num) by (apply qle_lt_or_eq in P; destruct P as [P|P]; [exact P|congruence]).
    intros i j Hij Hj. change (map fst ((0%num, 0%num) :: (x, u) :: k)) with (0%num :: map fst ((x, u) :: k)) in *.
    destruct j as [|j]; [lia|]. destruct i as [|i]; cbn [nth].
    + destruct j as [|j]; [exact P'|]. pose proof (I 0 (S j) ltac:(lia) ltac:(cbn in *; lia)) as Q. cbn [nth map fst] in Q. cbn [nth map fst]. qlra.
    + apply I; [lia|]. cbn in *. lia.
Qed.

Lemma upto_filter l d : (forall x u, In (x, u) l -> (0 <= x)%num) ->
  map shown (filter (x_in 0%num d) (map (fun t => (fst t, Some (snd t), false)) l)) = map (fun t => (fst t, Some (snd t), false)) (upto l d).
Proof.
  induction l as [|[x u] l IH]; intro H; [reflexivity|]. cbn [map filter upto]. unfold x_in at 1. unfold sx. cbn [fst snd].
  assert (qleb 0%num x = true) as -> by (apply qleb_le; apply (H x u); now left). cbn [andb].
  specialize (IH (fun x u Q => H x u (or_intror Q))). destruct (qleb x d); cbn [map fst snd]; rewrite IH; reflexivity.
Qed.
Lemma increasing_filter_pairs (f : num * num -> bool) l : increasing (map fst l) -> increasing (map fst (filter f l)).
Proof.
  induction l as [|t l IH]; intro I; [exact I|]. cbn [map filter] in *.
  assert (I' : increasing (map fst l)) by (intros i j Hij Hj; apply (I (S i) (S j)); [lia|cbn; lia]).
  specialize (IH I'). destruct (f t); [|exact IH]. cbn [map].
  assert (B : forall s, In s l -> (fst t < fst s)%num).
  { intros s Hs. apply In_nth with (d := (0, 0)%num) in Hs. destruct Hs as (k & Hk & <-). pose proof (I 0 (S k) ltac:(lia) ltac:(cbn; rewrite map_length; lia)) as Q. cbn [nth] in Q.
    now rewrite (nth_map' fst l k (qz 0) (0, 0)%num) in Q by exact Hk. }
  intros i j Hij Hj. destruct j as [|j]; [lia|]. destruct i as [|i]; cbn [nth].
  - cbn [length] in Hj. rewrite map_length in Hj. rewrite (nth_map' fst _ j (qz 0) (0, 0)%num) by lia. apply B. assert (In (nth j (filter f l) (0, 0)%num) (filter f l)) as Q by (apply nth_In; lia). apply filter_In in Q. tauto.
  - apply IH; [lia|]. cbn in Hj. lia.
Qed.
Lemma greatest_exists (l : list (num * num)) : l <> [] -> greatest l (lmax (map snd l)).
Proof.
  intro N. assert (Q : exists m, greatest l m).
  { induction l as [|[x u] [|s l] IH]; [congruence| |].
    - exists u. split; [exists x; now left|]. intros x' u' [E|[]]. injection E as _ ->. apply qle_refl.
    - destruct (IH ltac:(discriminate)) as (m & (xm & Hm) & G). destruct (qleb_spec u m) as [C|C].
      + exists m. split; [exists xm; now right|]. intros x' u' [E|H]; [injection E as _ <-; exact C|eauto].
      + exists u. split; [exists x; now left|]. intros x' u' [E|H]; [injection E as _ <-; apply qle_refl|]. specialize (G x' u' H). qlra. }
  destruct Q as (m & (x & Hx) & G). assert (lmax (map snd l) = m) as ->; [|split; [now exists x|exact G]].
  apply lmax_greatest; [apply in_map_iff; exists (x, m); now split|]. intros u Hu. apply in_map_iff in Hu. destruct Hu as ([x' u'] & <- & H). eauto.
Qed.
Lemma all_known_some (l : list (num * num)) : all_known (map (fun t => (fst t, Some (snd t))) l) = Some l.
Proof.
  unfold all_known. assert (existsb (fun t : num * onum => isnan (snd t)) (map (fun t : num * num => (fst t, Some (snd t))) l) = false) as ->.
  { apply not_true_iff_false. rewrite existsb_exists. intros (o & Ho & E). apply in_map_iff in Ho. destruct Ho as (t & <- & _). discriminate. }
  f_equal. rewrite map_map. cbn [fst snd]. rewrite <- (map_id l) at 2. apply map_ext. now intros [? ?].
Qed.
Lemma wall_points_curve q k : px q = map fst k -> yv q = map (fun t => Some (snd t)) k -> wall_points q = map (fun t => (fst t, Some (snd t))) (walled k).
Proof.
  intros X Y. unfold wall_points. rewrite X, Y. destruct k as [|[x u] k]; [reflexivity|]. cbn [map fst snd walled].
  assert (CB : forall l : list (num * num), combine (map fst l) (map (fun t => Some (snd t)) l) = map (fun t => (fst t, Some (snd t))) l).
  { induction l as [|t l IH]; [reflexivity|]. cbn [map combine]. now rewrite IH. }
  cbn [combine]. rewrite CB. destruct (qeqb x 0%num); reflexivity.
Qed.

(** what the integral thicknesses compute: the samples up to the thickness, scaled by the largest of them *)
Lemma integral_lemma p l m x0 u0 r : curve p l -> from_wall l -> greatest l m -> l = (x0, u0) :: r -> (u0 < m * qq 19 20 <= m)%num ->
  exists d mk, bl_thickness p (qq 19 20) = Ok (Some d) /\ (0 < d)%num /\ (x0 < d)%num /\ walled (upto l d) <> [] /\ greatest (walled (upto l d)) mk /\
    (forall g, mk = 0%num -> integral_thickness g p = Ok None) /\
    (forall g, mk <> 0%num -> integral_thickness g p = Ok (area_of g mk (walled (upto l d)))).
Proof.
  intros C [I W] G EL V. destruct (thickness_lemma p l m (qq 19 20) x0 u0 r C I G EL V) as (d & E & D1 & (xh & uh & Hh & Dh) & _).
  pose proof (W x0 u0 ltac:(rewrite EL; now left)) as X0. assert (D0 : (0 < d)%num) by qlra.
  pose proof C as [OK ES]. destruct (curve_parts p l C) as (X & Y & M). destruct (curve_lengths p l C) as [LX LY].
  assert (NEp : px p <> []) by (rewrite X, EL; discriminate). assert (IP : increasing (px p)) by (now rewrite X).
  assert (XF : nths (px p) 0 = x0) by (rewrite X, EL; reflexivity).
  assert (DL : (d <= nths (px p) (length (px p) - 1))%num).
  { assert (In xh (px p)) as Q by (rewrite X; apply in_map_iff; exists (xh, uh); now split). apply In_nth with (d := qz 0) in Q. destruct Q as (i & Hi & Ei).
    pose proof (increasing_nondecreasing _ IP i (length (px p) - 1) ltac:(lia) ltac:(lia)) as Q. rewrite Ei in Q. qlra. }
  destruct (proj1 (crop_exact p 0%num d OK IP NEp D0 ltac:(left; rewrite XF; exact X0) ltac:(rewrite XF; exact D1) DL)) as (q & EQ & SQ & _ & _).
  rewrite ES, (upto_filter l d W) in SQ.
  assert (QP : px q = map fst (upto l d) /\ yv q = map (fun t => Some (snd t)) (upto l d)).
  { assert (OKq : prof_ok q).
    { unfold prof_crop, prof_crop_with in EQ. destruct (crop_data p (Some (0%num, d)) None) as [[[a b] c]|] eqn:CD; [|discriminate]. cbn [bind] in EQ.
      destruct (crop_data_shape p _ _ a b c OK CD) as (La & Lb & _). destruct (new_lemma a b (Some c) (pux p) (puy p) (eq_sym La) Lb) as (q' & E' & OK' & _). congruence. }
    destruct (curve_parts q (upto l d) (conj OKq SQ)) as (Q1 & Q2 & _). now split. }
  destruct QP as [QX QY]. pose proof (wall_points_curve q (upto l d) QX QY) as WP.
  assert (NU : upto l d <> []). { rewrite EL. cbn [upto filter fst]. assert (qleb x0 d = true) as -> by (apply qleb_le; qlra). discriminate. }
  destruct (walled_facts (upto l d)) as (uw & rw & EW & _); [now apply increasing_filter_pairs|intros x u H; apply filter_In in H; destruct H as [H _]; eauto|exact NU|].
  assert (NW : walled (upto l d) <> []) by (rewrite EW; discriminate).
  exists d, (lmax (map snd (walled (upto l d)))). split; [exact E|]. split; [exact D0|]. split; [exact D1|]. split; [exact NW|]. split; [now apply greatest_exists|].
  assert (EI : forall g, integral_thickness g p = match all_known (wall_points q) with
             | None => Ok None
             | Some pts => let m := lmax (map snd pts) in if qeqb m 0%num then Ok None else Ok (Some (trapz (map (fun t => (fst t, g (snd t / m)%num)) pts)))
             end).
  { intro g. unfold integral_thickness. rewrite E. cbn [bind]. assert (qeqb d 0%num = false) as -> by (apply qeqb_neq, qgt_neq; exact D0). rewrite EQ. cbn [bind].
    destruct (wall_points q) eqn:WQ; [|reflexivity]. exfalso. rewrite EW in WP. discriminate WP. }
  rewrite WP, all_known_some in EI. cbv zeta in EI. split; intros g Z; rewrite EI.
  - rewrite Z, qeqb_refl. reflexivity.
  - assert (qeqb (lmax (map snd (walled (upto l d)))) 0%num = false) as -> by (now apply qeqb_neq). f_equal. unfold area_of. rewrite (trapz_some (fun t => g (snd t / lmax (map snd (walled (upto l d))))%num)). reflexivity.
Qed.

Lemma last_in {A} (l : list A) d : l <> [] -> In (last l d) l.
Proof. induction l as [|a [|b l] IH]; intro N; [congruence|now left|]. right. apply IH. discriminate. Qed.

(** ** 0 <= momentum <= displacement <= thickness *)
Lemma thicknesses_ordered p l m x0 u0 r : curve p l -> from_wall l -> greatest l m -> l = (x0, u0) :: r -> (u0 < m * qq 19 20 <= m)%num ->
  (forall x u, In (x, u) l -> (0 <= u)%num) ->
  exists d, bl_thickness p (qq 19 20) = Ok (Some d) /\
    ((forall x u, In (x, u) l -> (x <= d)%num -> u = 0%num) -> displ_thickness p = Ok None /\ momentum_thickness p = Ok None /\ shape_factor p = Ok None) /\
    ((exists x u, In (x, u) l /\ (x <= d)%num /\ u <> 0%num) ->
       exists a b, displ_thickness p = Ok (Some a) /\ momentum_thickness p = Ok (Some b) /\ (0 <= b)%num /\ (b <= a)%num /\ (a <= d)%num /\
         (b <> 0%num -> exists h, shape_factor p = Ok (Some h) /\ (1 <= h)%num)).
Proof.
  intros C W G EL V P. destruct (integral_lemma p l m x0 u0 r C W G EL V) as (d & mk & E & D0 & D1 & NW & [(xm & GM) GK] & H0 & H1).
  destruct W as [I W]. exists d. split; [exact E|].
  assert (IU : increasing (map fst (upto l d))) by (now apply increasing_filter_pairs).
  assert (WU : forall x u, In (x, u) (upto l d) -> (0 <= x)%num /\ (0 <= u)%num /\ (x <= d)%num).
  { intros x u H. apply filter_In in H. destruct H as [H Q]. apply qleb_le in Q. cbn [fst] in Q. repeat split; eauto. }
  assert (NU : upto l d <> []) by (intro Q; rewrite Q in NW; now apply NW).
  destruct (walled_facts (upto l d) IU (fun x u H => proj1 (WU x u H)) NU) as (uw & rw & EW & IW & SUB & SUP & LW).
  set (K := walled (upto l d)) in *. clearbody K.
  assert (PK : forall x u, In (x, u) K -> (0 <= x)%num /\ (0 <= u)%num /\ (x <= d)%num).
  { intros x u H. destruct (SUP (x, u) H) as [Q|Q]; [now apply WU|]. injection Q as -> ->. repeat split; try apply qle_refl. now apply Qclt_le_weak. }
  split.
  - intros Z. assert (MZ : mk = 0%num).
    { destruct (SUP (xm, mk) GM) as [Q|Q]; [|now injection Q]. apply filter_In in Q. destruct Q as [Q1 Q2]. apply qleb_le in Q2. exact (Z xm mk Q1 Q2). }
    assert (Q1 : displ_thickness p = Ok None) by (apply H0, MZ). assert (Q2 : momentum_thickness p = Ok None) by (apply H0, MZ).
    split; [exact Q1|]. split; [exact Q2|]. unfold shape_factor. rewrite Q1, Q2. reflexivity.
  - intros (x & u & Hx & Lx & Nu).
    assert (HU : In (x, u) K) by (apply SUB, filter_In; split; [exact Hx|now apply qleb_le]).
    assert (MP : (0 < mk)%num). { pose proof (GK x u HU). pose proof (PK x u HU) as (_ & Q & _). apply qle_lt_or_eq in Q. destruct Q as [Q|Q]; [qlra|congruence]. }
    assert (NM : mk <> 0%num) by (now apply qgt_neq).
    assert (RAT : forall t, In t K -> (0 <= snd t / mk <= 1)%num).
    { intros [y w] Ht. cbn [snd]. destruct (PK y w Ht) as (_ & Q & _). pose proof (GK y w Ht).
      assert (E1 : ((w / mk) * mk = w)%num) by (now apply qdiv_mul). set (z := (w / mk)%num) in *. clearbody z. split; [destruct (qleb_spec 0%num z) as [|CC]; [assumption|exfalso]|destruct (qleb_spec z 1%num) as [|CC]; [assumption|exfalso]].
      - assert (0 < (0 - z) * mk)%num by (apply qmul_pos; qlra). qlra.
      - assert (0 < (z - 1) * mk)%num by (apply qmul_pos; qlra). qlra. }
    set (gd := fun t : num * num => defect (snd t / mk)%num). set (gm := fun t : num * num => momentum (snd t / mk)%num).
    exists (trapz (map (fun t => (fst t, gd t)) K)), (trapz (map (fun t => (fst t, gm t)) K)).
    assert (Q1 : displ_thickness p = Ok (Some (trapz (map (fun t => (fst t, gd t)) K)))) by (unfold displ_thickness; rewrite (H1 _ NM); unfold area_of; now rewrite (trapz_some gd)).
    assert (Q2 : momentum_thickness p = Ok (Some (trapz (map (fun t => (fst t, gm t)) K)))) by (unfold momentum_thickness; rewrite (H1 _ NM); unfold area_of; now rewrite (trapz_some gm)).
    split; [exact Q1|]. split; [exact Q2|]. pose proof (increasing_nondecreasing _ IW) as NDW.
    assert (B0 : (0 <= trapz (map (fun t => (fst t, gm t)) K))%num).
    { pose proof (trapz_le (fun _ => 0%num) gm K NDW) as Q. cbv beta in Q. rewrite (trapz_const 0%num K _ _ _ EW) in Q.
      assert ((0 * (fst (last K (0, 0)) - 0))%num = 0%num) as R by qring. rewrite R in Q. apply Q. intros t Ht. destruct (RAT t Ht). unfold gm, momentum. apply qmul_nonneg; qlra. }
    assert (B1 : (trapz (map (fun t => (fst t, gm t)) K) <= trapz (map (fun t => (fst t, gd t)) K))%num).
    { apply trapz_le; [exact NDW|]. intros t Ht. destruct (RAT t Ht) as [R0 R1]. unfold gm, gd, momentum, defect. set (z := (snd t / mk)%num) in *. clearbody z. assert (0 <= (1 - z) * (1 - z))%num by (apply qmul_nonneg; qlra). qlra. }
    assert (B2 : (trapz (map (fun t => (fst t, gd t)) K) <= d)%num).
    { pose proof (trapz_le gd (fun _ => 1%num) K NDW) as Q. cbv beta in Q. rewrite (trapz_const 1%num K _ _ _ EW) in Q.
      assert (HL : In (last K (0, 0)%num) K) by (now apply last_in). destruct (last K (0, 0)%num) as [xl ul]. destruct (PK xl ul HL) as (_ & _ & R). cbn [fst] in Q.
      assert (QQ : (trapz (map (fun t => (fst t, gd t)) K) <= 1 * (xl - 0))%num); [|qlra]. apply Q. intros t Ht. destruct (RAT t Ht). unfold gd, defect. qlra. }
    split; [exact B0|]. split; [exact B1|]. split; [exact B2|]. intro NB.
    set (a := trapz (map (fun t => (fst t, gd t)) K)) in *. set (b := trapz (map (fun t => (fst t, gm t)) K)) in *.
    exists (a / b)%num. unfold shape_factor. rewrite Q1, Q2. cbn [bind odiv]. clearbody a b.
    assert (PB : (0 < b)%num) by (apply qle_lt_or_eq in B0; destruct B0; [assumption|congruence]).
    split; [|].
    + assert (qeqb b 0%num = false) as -> by (now apply qeqb_neq). reflexivity.
    + assert (ER : ((a / b) * b = a)%num) by (now apply qdiv_mul). set (z := (a / b)%num) in *. clearbody z. destruct (qleb_spec 1%num z) as [|CC]; [assumption|exfalso]. assert (0 < (1 - z) * b)%num by (apply qmul_pos; qlra). qlra.
Qed.
