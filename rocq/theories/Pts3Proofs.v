(** * Pts3Proofs: proofs for Pts3Model. *)
From Coq Require Import Relations.
From Verif Require Import Num Res ListLib SortLib Arr FieldModel ScalarFieldModel FieldSpec FieldProofs ProfileModel ProfileSpec ProfileProofs PointsModel PointsSpec PointsProofs TemporalModel Pts3Model Pts3Spec.

Lemma along_gather p q : gather (qz 0, qz 0) q (xy p) = along p q.
Proof. reflexivity. Qed.
Lemma cost_eq l : qsum (steps sqd l) = line_cost l.
Proof.
  unfold steps. destruct l as [|a l]; [reflexivity|]. revert a. induction l as [|b l IH]; intros a; [reflexivity|].
  cbn [tl combine map fst snd qsum fold_right line_cost] in *. unfold qsum in IH. rewrite <- (IH b). reflexivity.
Qed.
Lemma path_cost_eq p q : path_cost (xy p) q = line_cost (along p q).
Proof. unfold path_cost. rewrite along_gather. apply cost_eq. Qed.

(** the loop keeps the best cost *)
Lemma shortest_from_spec l paths : forall best i m0 c0, best = Some (m0, c0) ->
  exists m c, shortest_from l best i paths = Some (m, c) /\ (c <= c0)%num /\ Forall (fun q => c <= path_cost l q)%num paths /\
    ((m = m0 /\ c = c0) \/ exists q, i <= m /\ nth_error paths (m - i) = Some q /\ c = path_cost l q).
Proof.
  induction paths as [|q r IH]; intros best i m0 c0 ->.
  - cbn. exists m0, c0. split; [reflexivity|]. split; [apply Qcle_refl|]. split; [constructor|]. left. split; reflexivity.
  - cbn [shortest_from]. cbv zeta. destruct (qltb (path_cost l q) c0) eqn:E.
    + apply qltb_lt in E. destruct (IH _ (S i) i (path_cost l q) eq_refl) as [m [c [H1 [H2 [H3 H4]]]]].
      exists m, c. split; [exact H1|]. split; [qlra|]. split; [constructor; [exact H2|exact H3]|]. right.
      destruct H4 as [[-> ->]|[q' [Hi [Hn ->]]]].
      * exists q. split; [lia|]. rewrite Nat.sub_diag. split; reflexivity.
      * exists q'. split; [lia|]. replace (m - i) with (S (m - S i)) by lia. split; [exact Hn|reflexivity].
    + apply qltb_ge in E. destruct (IH _ (S i) m0 c0 eq_refl) as [m [c [H1 [H2 [H3 H4]]]]].
      exists m, c. split; [exact H1|]. split; [exact H2|]. split; [constructor; [qlra|exact H3]|].
      destruct H4 as [H4|[q' [Hi [Hn ->]]]]; [left; exact H4|right]. exists q'. split; [lia|].
      replace (m - i) with (S (m - S i)) by lia. split; [exact Hn|reflexivity].
Qed.
Lemma shortest_spec l paths : paths <> [] ->
  exists q, nth_error paths (shortest l paths) = Some q /\ Forall (fun q' => path_cost l q <= path_cost l q')%num paths.
Proof.
  intros H. destruct paths as [|q r]; [congruence|]. unfold shortest. cbn [shortest_from]. cbv zeta.
  destruct (shortest_from_spec l r _ 1 0 (path_cost l q) eq_refl) as [m [c [-> [H2 [H3 H4]]]]].
  destruct H4 as [[-> ->]|[q' [Hi [Hn ->]]]].
  - exists q. split; [reflexivity|]. constructor; [apply Qcle_refl|exact H3].
  - exists q'. replace m with (S (m - 1)) by lia. split; [exact Hn|]. constructor; assumption.
Qed.

Lemma joined_lt n nb i j : lt i n -> joined n nb i j -> lt j n.
Proof. intros Hi H. induction H as [a b [_ [Hb _]]|a|a b c _ IH1 _ IH2]; [exact Hb|exact Hi|apply IH2, IH1, Hi]. Qed.
Lemma path_perm p nb paths q : traversals p nb paths -> connected p nb -> In q paths ->
  Permutation q (seq 0 (length (xy p))).
Proof.
  intros [L T] C Hq. apply In_nth_error in Hq. destruct Hq as [i Hi].
  assert (Li : lt i (length (xy p))) by (rewrite <- L; apply nth_error_Some; congruence).
  destruct (T i Li) as [q' [E [_ [N J]]]]. assert (q' = q) as -> by congruence.
  apply NoDup_Permutation; [exact N|apply seq_NoDup|]. intros j. rewrite J, in_seq. split.
  - intros H. apply (joined_lt _ _ _ _ Li) in H. lia.
  - intros H. apply C; [exact Li|lia].
Qed.

Lemma order_ok p nb paths inplace : 3 <= length (xy p) -> traversals p nb paths ->
  exists q, In q paths /\ (forall q', In q' paths -> line_cost (along p q) <= line_cost (along p q'))%num /\
    order_on_line paths p inplace = Ok (if inplace then set_xy p (along p q) else p, set_xy p (along p q)).
Proof.
  intros L [Lp T]. assert (P0 : paths <> []) by (destruct paths; [cbn in Lp; lia|congruence]).
  destruct (shortest_spec (xy p) paths P0) as [q [E F]]. exists q. split; [eapply nth_error_In; eassumption|]. split.
  - intros q' Hq'. rewrite Forall_forall in F. specialize (F q' Hq'). rewrite !path_cost_eq in F. exact F.
  - unfold order_on_line. replace (Nat.ltb (length (xy p)) 3) with false by (symmetry; apply Nat.ltb_ge; exact L). cbn [guard].
    rewrite (nth_error_nth _ _ [] E). rewrite along_gather. reflexivity.
Qed.
Lemma order_connected p nb paths inplace : 3 <= length (xy p) -> traversals p nb paths -> connected p nb ->
  exists q r, order_on_line paths p inplace = Ok (if inplace then r else p, r) /\
    In q paths /\ (forall q', In q' paths -> line_cost (xy r) <= line_cost (along p q'))%num /\
    Permutation q (seq 0 (length (xy p))) /\ xy r = along p q /\ Permutation (xy r) (xy p) /\
    (pts_ok p -> pv r = pv p) /\
    ptx r = ptx p /\ pty r = pty p /\ ptv r = ptv p.
Proof.
  intros L T C. destruct (order_ok p nb paths inplace L T) as [q [I [M E]]]. exists q, (set_xy p (along p q)).
  pose proof (path_perm p nb paths q T C I) as P.
  assert (P2 : Permutation (along p q) (xy p)) by (apply (gather_perm (qz 0, qz 0)), P).
  repeat (split; [first [exact E|exact I|exact M|exact P|reflexivity|exact P2|idtac]|]).
  - intros O. cbn [set_xy pv]. rewrite (Permutation_length P2). destruct O as [O|O]; [rewrite O; destruct (Nat.eqb _ _); reflexivity|].
    rewrite O, Nat.eqb_refl. reflexivity.
  - repeat split.
Qed.
Lemma order_few paths p inplace : lt (length (xy p)) 3 -> order_on_line paths p inplace = Err ValueErr.
Proof. intros H. unfold order_on_line. rewrite (proj2 (Nat.ltb_lt _ _) H). reflexivity. Qed.

(** ** evolution *)
Lemma filter_first {A} (f : A -> bool) l z r : filter f l = z :: r ->
  exists k, nth_error l k = Some z /\ f z = true /\ forall j y, lt j k -> nth_error l j = Some y -> f y = false.
Proof.
  revert z r. induction l as [|a l IH]; intros z r H; [discriminate H|]. cbn in H. destruct (f a) eqn:E.
  - injection H as -> _. exists 0. split; [reflexivity|]. split; [exact E|]. intros j y Hj. lia.
  - destruct (IH _ _ H) as [k [H1 [H2 H3]]]. exists (S k). split; [exact H1|]. split; [exact H2|].
    intros [|j] y Hj Hy; [cbn in Hy; congruence|]. apply (H3 j y); [lia|exact Hy].
Qed.
Lemma nth_error_combine {A B} (l : list A) (m : list B) k x y :
  nth_error (combine l m) k = Some (x, y) <-> nth_error l k = Some x /\ nth_error m k = Some y.
Proof.
  revert m k. induction l as [|a l IH]; intros [|b m] [|k]; cbn; try (split; [discriminate|intros [? ?]; discriminate]).
  - split; [intros H; injection H as -> ->; split; reflexivity|intros [H1 H2]; congruence].
  - apply IH.
Qed.
Lemma field_at_iff t time f : times_ok t -> (field_at t time = Ok f <-> is_field_at t time f).
Proof.
  intros L. unfold field_at, is_field_at.
  assert (G : forall j z, nth_error (tft t) j = Some z -> exists g, nth_error (tff t) j = Some g).
  { intros j z Hz. destruct (nth_error (tff t) j) eqn:G; [eexists; reflexivity|]. exfalso. apply nth_error_None in G.
    assert (lt j (length (tft t))) by (apply nth_error_Some; congruence). unfold times_ok in L. lia. }
  split.
  - destruct (filter _ _) as [|[a b] r] eqn:E; [discriminate|]. intros H. cbn [snd] in H. injection H as ->.
    apply filter_first in E. destruct E as [k [H1 [H2 H3]]]. apply nth_error_combine in H1. destruct H1 as [H1 H1'].
    exists k. cbn [fst] in H2. apply qeqb_eq in H2. subst a. split; [exact H1|]. split; [exact H1'|].
    intros j Hj Hn. destruct (G j _ Hn) as [g Hg].
    specialize (H3 j (time, g) Hj (proj2 (nth_error_combine _ _ _ _ _) (conj Hn Hg))). cbn [fst] in H3.
    rewrite qeqb_refl in H3. discriminate H3.
  - intros [k [H1 [H2 H3]]]. destruct (filter _ _) as [|[a b] r] eqn:E.
    + exfalso. assert (In (time, f) (filter (fun z => qeqb (fst z) time) (combine (tft t) (tff t)))) as I.
      { apply filter_In. split; [eapply nth_error_In, nth_error_combine; split; eassumption|]. apply qeqb_refl. }
      rewrite E in I. exact I.
    + cbn [snd]. apply filter_first in E. destruct E as [m [E1 [E2 E3]]]. apply nth_error_combine in E1. destruct E1 as [E1 E1'].
      cbn [fst] in E2. apply qeqb_eq in E2. subst a. destruct (lt_eq_lt_dec m k) as [[Hm| ->]|Hm]; [exfalso; exact (H3 m Hm E1)|congruence|].
      specialize (E3 k (time, f) Hm (proj2 (nth_error_combine _ _ _ _ _) (conj H1 H2))). cbn [fst] in E3. rewrite qeqb_refl in E3. discriminate E3.
Qed.
Lemma field_at_none t time : times_ok t -> ~ In time (tft t) -> field_at t time = Err IndexErr.
Proof.
  intros L N. unfold field_at. destruct (filter _ _) as [|[a b] r] eqn:E; [reflexivity|]. exfalso. apply N.
  assert (I : In (a, b) (filter (fun z => qeqb (fst z) time) (combine (tft t) (tff t)))) by (rewrite E; left; reflexivity).
  apply filter_In in I. destruct I as [I1 I2]. cbn [fst] in I2. apply qeqb_eq in I2. subst a. exact (in_combine_l _ _ _ _ I1).
Qed.

Lemma mapM_Forall2 {A B} (f : A -> res B) l ys : Forall2 (fun a y => f a = Ok y) l ys -> mapM f l = Ok ys.
Proof. induction 1 as [|a y l ys H _ IH]; [reflexivity|]. cbn. rewrite H. cbn. rewrite IH. reflexivity. Qed.
Lemma evol_values ci t q v ys : times_ok t ->
  Forall2 (value_on_path ci t) (combine q v) ys -> length v = length q ->
  forall p k, (forall i, nth_error v i = nth_error (pv p) (k + i)) ->
  mapM (fun z => evol_value ci p t (fst z) (snd z)) (combine (seq k (length q)) q) = Ok ys.
Proof.
  intros T. revert v ys. induction q as [|a q IH]; intros [|b v] ys F Lv p k H; cbn in F, Lv; try discriminate Lv.
  - inversion F. reflexivity.
  - inversion F as [|z y l ys' Hy F']. subst. cbn [length seq combine mapM fst snd].
    assert (evol_value ci p t k a = Ok y) as ->.
    { unfold evol_value. specialize (H 0). rewrite Nat.add_0_r in H. cbn in H. rewrite <- H.
      destruct Hy as [f [Hf Hg]]. cbn [fst snd] in Hf, Hg. rewrite (proj2 (field_at_iff t b f T) Hf). cbn [bind]. exact Hg. }
    cbn [bind]. rewrite (IH v ys' F' ltac:(lia) p (S k)); [reflexivity|]. intros i. specialize (H (S i)). cbn in H. rewrite H. f_equal. lia.
Qed.
Lemma map_abs {A} (f : (num * num) * num -> A) (g : num * num -> A) (q : list (num * num)) (v : list num) :
  length v = length q -> (forall a b, f (a, b) = g a) -> map f (combine q v) = map g q.
Proof. revert v. induction q as [|a q IH]; intros [|b v] L E; cbn in *; try discriminate L; [reflexivity|]. rewrite E, (IH v); [reflexivity|lia|exact E]. Qed.
Lemma map_snd_combine {A B} (q : list A) (v : list B) : length v = length q -> map snd (combine q v) = v.
Proof. revert v. induction q as [|a q IH]; intros [|b v] L; cbn in *; try discriminate L; [reflexivity|]. rewrite IH; [reflexivity|lia]. Qed.
Lemma zip3_combine x y : zip3 x y (map isnan y) = map (fun z => (fst z, snd z, isnan (snd z))) (combine x y).
Proof. unfold zip3. revert y. induction x as [|a x IH]; intros [|b y]; cbn; [reflexivity..|]. rewrite IH. reflexivity. Qed.

Lemma F2_length {A B} (R : A -> B -> Prop) l m : Forall2 R l m -> length l = length m.
Proof. induction 1; [reflexivity|cbn; congruence]. Qed.
Lemma evolution_ok ci p t a ys f0 : times_ok t -> xy p <> [] -> length (pv p) = length (xy p) -> a <> Some PtOther ->
  nth_error (tff t) 0 = Some f0 -> Forall2 (value_on_path ci t) (with_values p) ys ->
  exists r, evolution_on_tsf ci p t a = Ok r /\ prof_ok r /\
    Permutation (samples r) (map (fun z => (abscissa a (fst z), snd z, isnan (snd z))) (combine (with_values p) ys)) /\
    pux r = abscissa_unit a p /\ puy r = uv f0.
Proof.
  intros T N L A F0 V. unfold evolution_on_tsf. destruct (xy p) as [|q0 qs] eqn:Q; [congruence|]. rewrite <- Q in *.
  assert (X : evol_axis p a = Ok (map (abscissa a) (with_values p), abscissa_unit a p)).
  { assert (Z : Nat.eqb (length (pv p)) 0 = false) by (apply Nat.eqb_neq; rewrite L, Q; cbn; lia).
    unfold evol_axis, with_values. destruct a as [[]|]; try rewrite Z; cbn [guard abscissa abscissa_unit]; try (exfalso; apply A; reflexivity).
    - rewrite (map_abs _ fst) by (auto). reflexivity.
    - rewrite (map_abs _ snd) by (auto). reflexivity.
    - change (map (abscissa (Some PtV)) (combine (xy p) (pv p))) with (map snd (combine (xy p) (pv p))). rewrite map_snd_combine by exact L. reflexivity.
    - change (map (abscissa None) (combine (xy p) (pv p))) with (map snd (combine (xy p) (pv p))). rewrite map_snd_combine by exact L. reflexivity. }
  rewrite X. cbn [bind]. rewrite (evol_values ci t (xy p) (pv p) ys T V L p 0 (fun i => eq_refl)). cbn [bind].
  destruct (tff t) as [|f fs] eqn:E; [discriminate F0|]. cbn in F0. injection F0 as ->. cbn [bind].
  assert (Ly : length (map (abscissa a) (with_values p)) = length ys) by (rewrite map_length; apply (F2_length _ _ _ V)).
  destruct (new_lemma (map (abscissa a) (with_values p)) ys (Some (map isnan ys)) (abscissa_unit a p) (uv f0) Ly) as [r [R1 [R2 [R3 [R4 [R5 _]]]]]].
  { rewrite map_length. symmetry. exact Ly. }
  exists r. split; [exact R1|]. split; [exact R2|]. split; [|split; assumption].
  eapply Permutation_trans; [exact R5|]. rewrite zip3_combine, map_map. clear -V.
  apply Permutation_refl'. revert ys V. induction (with_values p) as [|z l IH]; intros [|y ys] V; inversion V; subst; [reflexivity|].
  cbn [map combine]. f_equal; [destruct y; reflexivity|apply IH; assumption].
Qed.
Lemma mapM_err_at {A B} (f : A -> res B) l k a e : nth_error l k = Some a -> f a = Err e ->
  (forall j b, lt j k -> nth_error l j = Some b -> exists y, f b = Ok y) -> mapM f l = Err e.
Proof.
  revert k. induction l as [|b l IH]; intros [|k] Hk Hf H; cbn in Hk; try discriminate Hk.
  - injection Hk as ->. cbn. rewrite Hf. reflexivity.
  - destruct (H 0 b ltac:(lia) eq_refl) as [y Hy]. cbn. rewrite Hy. cbn. rewrite (IH k Hk Hf); [reflexivity|].
    intros j c Hj Hc. apply (H (S j) c); [lia|exact Hc].
Qed.
Lemma nth_error_seq0 n i : lt i n -> nth_error (seq 0 n) i = Some i.
Proof. intros H. rewrite (nth_error_nth' _ 0) by (rewrite seq_length; exact H). rewrite seq_nth by exact H. reflexivity. Qed.
(** the first point whose time has no field raises *)
Lemma evolution_missing ci p t a k q time : times_ok t -> length (pv p) = length (xy p) -> a <> Some PtOther ->
  nth_error (with_values p) k = Some (q, time) -> ~ In time (tft t) ->
  (forall j z, lt j k -> nth_error (with_values p) j = Some z -> exists y, value_on_path ci t z y) ->
  evolution_on_tsf ci p t a = Err IndexErr.
Proof.
  intros T L A K N B. unfold with_values in *. apply nth_error_combine in K. destruct K as [K1 K2].
  unfold evolution_on_tsf. destruct (xy p) as [|q0 qs] eqn:Q; [destruct k; discriminate K1|]. rewrite <- Q in *.
  assert (X : exists z, evol_axis p a = Ok z).
  { assert (Z : Nat.eqb (length (pv p)) 0 = false) by (apply Nat.eqb_neq; rewrite L, Q; cbn; lia).
    unfold evol_axis. destruct a as [[]|]; try rewrite Z; cbn [guard]; try (eexists; reflexivity). exfalso; apply A; reflexivity. }
  destruct X as [[x u] ->]. cbn [bind].
  assert (Lk : lt k (length (xy p))) by (apply nth_error_Some; congruence).
  rewrite (mapM_err_at _ _ k (k, q) IndexErr).
  - reflexivity.
  - apply nth_error_combine. split; [apply nth_error_seq0, Lk|exact K1].
  - unfold evol_value. cbn [fst snd]. rewrite K2, (field_at_none t time T N). reflexivity.
  - intros j [i c] Hj Hc. apply nth_error_combine in Hc. destruct Hc as [Hc1 Hc2]. rewrite nth_error_seq0 in Hc1 by lia. injection Hc1 as <-.
    assert (exists v, nth_error (pv p) j = Some v) as [v Hv].
    { destruct (nth_error (pv p) j) eqn:E; [eexists; reflexivity|]. apply nth_error_None in E. lia. }
    destruct (B j (c, v) Hj (proj2 (nth_error_combine _ _ _ _ _) (conj Hc2 Hv))) as [y [f [Hf Hg]]].
    exists y. unfold evol_value. cbn [fst snd] in *. rewrite Hv, (proj2 (field_at_iff t v f T) Hf). exact Hg.
Qed.
Lemma evolution_no_values ci p t a : xy p <> [] -> pv p = [] -> 
  evolution_on_tsf ci p t a = Err (match a with Some PtX | Some PtY => IndexErr | _ => ValueErr end).
Proof.
  intros N V. unfold evolution_on_tsf. destruct (xy p) as [|q0 qs] eqn:Q; [congruence|]. unfold evol_axis. rewrite V.
  destruct a as [[]|]; cbn; unfold evol_value; rewrite ?V; reflexivity.
Qed.

(** ** stream lines *)
Lemma points_eq a b : xy a = xy b -> pv a = pv b -> ptx a = ptx b -> pty a = pty b -> ptv a = ptv b -> a = b.
Proof. destruct a, b. cbn. intros -> -> -> -> ->. reflexivity. Qed.
Lemma quarter_minus c p d : (fst p - fst d * (c * (1 / qz 4)), snd p - snd d * (c * (1 / qz 4)))%num = quarter c c (qz (-1)) p d.
Proof. unfold quarter, Qcdiv. f_equal; change (qz (-1)) with (- (1))%num; ring. Qed.
Lemma quarter_plus c p d : (fst p + fst d * (c * (1 / qz 4)), snd p + snd d * (c * (1 / qz 4)))%num = quarter c c (qz 1) p d.
Proof. unfold quarter, Qcdiv. f_equal; change (qz 1) with 1%num; ring. Qed.
Lemma cell_x ax ay sx sy : cell_sizes ax ay sx sy -> 2 <= length ax /\ (nths ax 1 - nths ax 0)%num = sx.
Proof.
  intros [x0 [x1 [y0 [y1 [H1 [H2 [_ [_ [-> _]]]]]]]]]. destruct ax as [|a [|b ax]]; cbn in H1, H2; try discriminate.
  injection H1 as ->. injection H2 as ->. split; [cbn; lia|reflexivity].
Qed.
Lemma from_spec lines ax ay c o r n : cell_sizes ax ay c c -> rect_ori o n -> xy (opt o) <> [] ->
  match r with RBool _ => True | RTuple l => length l = n end ->
  (forall p q b s, In s (lines_of (lines p q b)) -> length (pv s) = length (xy s)) ->
  exists ls, from_orientations lines ax ay o r = Ok ls /\ forall L, In L ls <-> issued lines c c o r L.
Proof.
  intros CS [LO RO] NE LR AL. destruct (cell_x _ _ _ _ CS) as [LA Ec]. unfold from_orientations.
  assert (exists d0 ds, ori o = d0 :: ds) as [d0 [ds Eo]].
  { destruct (ori o); [|eexists _, _; reflexivity]. destruct (xy (opt o)); [congruence|cbn in LO; discriminate LO]. }
  assert (Ln : length d0 = n) by (rewrite Eo in RO; inversion RO; assumption).
  rewrite Eo. cbn [bind]. rewrite <- Eo. rewrite Ln.
  set (flags := match r with RBool b => repeat b n | RTuple l => l end).
  assert (LF : length flags = n) by (unfold flags; destruct r; [apply repeat_length|exact LR]).
  rewrite LF, Nat.eqb_refl. cbn [negb guard]. replace (Nat.ltb (length ax) 2) with false by (symmetry; apply Nat.ltb_ge; exact LA). cbn [guard].
  eexists. split; [reflexivity|]. intros L. rewrite Ec.
  assert (FL : forall k b, lt k n -> (nth_error flags k = Some b <-> flag_of r k = Some b)).
  { intros k b Hk. unfold flags, flag_of. destruct r; [|reflexivity]. rewrite nth_error_repeat by exact Hk. reflexivity. }
  assert (SX : forall p q b s, In s (lines_of (lines p q b)) -> forall z, pv (set_xy s (z :: xy s)) = []).
  { intros p q b s Hs z. apply AL in Hs. cbn [set_xy pv]. rewrite Hs. cbn [length].
    replace (Nat.eqb (S (length (xy s))) (length (xy s))) with false; [reflexivity|]. symmetry. apply Nat.eqb_neq. lia. }
  rewrite in_flat_map. split.
  - intros [[p dl] [H1 H2]]. apply in_flat_map in H2. destruct H2 as [[d b] [H2 H3]]. cbn [fst snd] in H2, H3.
    apply In_nth_error in H1. destruct H1 as [i H1]. apply nth_error_combine in H1. destruct H1 as [H1 H1'].
    apply In_nth_error in H2. destruct H2 as [k H2]. apply nth_error_combine in H2. destruct H2 as [H2 H2'].
    unfold from_direction in H3. destruct (qeqb (fst d) (qz 0) && qeqb (snd d) (qz 0))%bool eqn:Z; [contradiction|].
    rewrite quarter_minus, quarter_plus in H3.
    apply in_map_iff in H3. destruct H3 as [s [H3 H4]].
    exists i, k, p, d, b, s. split; [split; [exact H1|exists dl; split; assumption]|].
    split; [intros ->; cbn [fst snd] in Z; rewrite !qeqb_refl in Z; discriminate Z|]. 
    split; [apply FL; [rewrite <- LF; apply nth_error_Some; congruence|exact H2']|].
    change (In s (lines_of (lines (quarter c c (qz (-1)) p d) (quarter c c (qz 1) p d) b))) in H4. split; [exact H4|].
    subst L. split; [reflexivity|]. split; [exact (SX _ _ _ _ H4 p)|]. repeat split.
  - intros [i [k [p [d [b [s [[H1 [dl [H2 H3]]] [H5 [H4 [H6 [H7 [H8 [H9 [H10 H11]]]]]]]]]]]]]].
    assert (Hk : lt k n).
    { rewrite Forall_forall in RO. rewrite <- (RO dl) by (eapply nth_error_In; eassumption). apply nth_error_Some; congruence. }
    exists (p, dl). split; [eapply nth_error_In, nth_error_combine; split; eassumption|]. cbn [fst snd].
    apply in_flat_map. exists (d, b). split; [eapply nth_error_In, nth_error_combine; split; [exact H3|apply FL; [exact Hk|exact H4]]|].
    cbn [fst snd]. unfold from_direction. destruct (qeqb (fst d) (qz 0) && qeqb (snd d) (qz 0))%bool eqn:Z.
    + exfalso. apply H5. apply andb_true_iff in Z. destruct Z as [Z1 Z2]. apply qeqb_eq in Z1, Z2. destruct d. cbn in *. congruence.
    + rewrite quarter_minus, quarter_plus. apply in_map_iff. exists s. split; [|exact H6].
      apply points_eq; [symmetry; exact H7|rewrite (SX _ _ _ _ H6 p); symmetry; exact H8|symmetry; assumption..].
Qed.
Lemma from_refuses lines ax ay o r n : rect_ori o n -> (ori o = [] -> from_orientations lines ax ay o r = Err IndexErr) /\
  (forall l, ori o <> [] -> r = RTuple l -> length l <> n -> from_orientations lines ax ay o r = Err ValueErr).
Proof.
  intros [LO RO]. split.
  - intros E. unfold from_orientations. rewrite E. reflexivity.
  - intros l E -> N. unfold from_orientations. destruct (ori o) as [|d ds]; [congruence|]. inversion RO. cbn [bind].
    replace (Nat.eqb (length l) (length d)) with false; [reflexivity|]. symmetry. apply Nat.eqb_neq. congruence.
Qed.
