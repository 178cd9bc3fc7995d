(** * VortexProofs3: superposition, motion and the counter-examples. *)
From Coq Require Import Reals Lra List ZArith Lia Permutation.
From Verif Require Import Res VortexModel VortexSpec VortexProofs VortexProofs2.
Import ListNotations.
#[local] Open Scope R_scope.

(** ** superposition *)
Lemma vsum_zero : forall l, Forall (fun p => p = (0, 0)) l -> vsum l = (0, 0).
Proof. intros l F. induction F as [|p l -> F IH]; cbn; [reflexivity|]. rewrite IH. apply vplus_0_l. Qed.
Lemma vsum_map_plus : forall (A : Type) (f g : A -> R * R) l, vsum (map (fun a => vplus (f a) (g a)) l) = vplus (vsum (map f l)) (vsum (map g l)).
Proof.
  intros A f g l. induction l as [|a l IH]; cbn; [rewrite vplus_0_l; reflexivity|]. rewrite IH.
  rewrite <- !vplus_assoc. f_equal. rewrite !vplus_assoc. f_equal. apply vplus_comm.
Qed.
Lemma vsum_const0 : forall (A : Type) (l : list A), vsum (map (fun _ => (0, 0)) l) = (0, 0).
Proof. intros A l. apply vsum_zero. rewrite Forall_map. apply Forall_forall. reflexivity. Qed.

(** picking by single ids, one after the other, picks each element once *)
Lemma pick_one_by_one : forall (A : Type) (f : A -> R * R) (key : A -> Z) ids l, NoDup ids ->
  vsum (map (fun i => vsum (map f (filter (fun a => mem (key a) [i]) l))) ids) = vsum (map f (filter (fun a => mem (key a) ids) l)).
Proof.
  intros A f key ids l N. induction l as [|a l IH].
  - cbn. apply vsum_const0.
  - assert (E : forall i, vsum (map f (filter (fun a => mem (key a) [i]) (a :: l))) =
                vplus (if Z.eqb (key a) i then f a else (0, 0)) (vsum (map f (filter (fun a => mem (key a) [i]) l)))).
    { intros i. cbn [filter]. replace (mem (key a) [i]) with (Z.eqb (key a) i) by (unfold mem; cbn; rewrite Bool.orb_false_r; reflexivity).
      destruct (Z.eqb (key a) i); cbn [map vsum]; [reflexivity|]. rewrite vplus_0_l. reflexivity. }
    rewrite (map_ext _ _ E), vsum_map_plus, IH. cbn [filter].
    assert (S : vsum (map (fun i => if Z.eqb (key a) i then f a else (0, 0)) ids) = if mem (key a) ids then f a else (0, 0)).
    { clear - N. induction N as [|i ids NI N IH]; cbn [map vsum]; [reflexivity|]. rewrite IH.
      unfold mem. cbn [existsb]. fold (mem (key a) ids). destruct (Z.eqb_spec (key a) i) as [<-|E].
      - cbn. destruct (mem (key a) ids) eqn:M; [apply mem_spec in M; contradiction|apply vplus_0_r].
      - cbn. apply vplus_0_l. }
    rewrite S. destruct (mem (key a) ids); cbn [map vsum]; [reflexivity|apply vplus_0_l].
Qed.
Lemma zseq_nodup : forall n, NoDup (zseq n).
Proof. intros n. unfold zseq. apply FinFun.Injective_map_NoDup; [intros a b; lia|apply seq_NoDup]. Qed.
Lemma sel_all_nodup : forall n, NoDup (sel_ids IAll n).
Proof. intros n. apply (zseq_nodup (Z.to_nat n)). Qed.
Lemma mem_nil_filter : forall (A : Type) (key : A -> Z) l, filter (fun a => mem (key a) []) l = [].
Proof. intros A key l. induction l; [reflexivity|assumption]. Qed.

Lemma superposition : forall h x y,
  let s := reached h in
  let '(vects, ids, cvects, cids) := s_compound s x y in
  ids = map Z.of_nat (seq 0 (length (vorts s))) /\ cids = map Z.of_nat (seq 0 (length (cfields s))) /\
  length vects = length (vorts s) /\ length cvects = length (cfields s) /\
  vplus (vsum vects) (vsum cvects) = fst (s_vector s x y IAll IAll).
Proof.
  intros h x y s. pose proof (reached_good h) as G. fold s in G. pose proof G as (A & B & C & D & F).
  unfold s_compound. cbv zeta.
  assert (I1 : sel_ids IAll (curr_id s) = zseq (length (vorts s))) by (cbn; rewrite B, Nat2Z.id; reflexivity).
  assert (I2 : sel_ids IAll (curr_cf s) = zseq (length (cfields s))) by (cbn; rewrite D, Nat2Z.id; reflexivity).
  split; [exact I1|]. split; [exact I2|].
  split; [rewrite map_length, I1; unfold zseq; rewrite map_length, seq_length; reflexivity|].
  split; [rewrite map_length, I2; unfold zseq; rewrite map_length, seq_length; reflexivity|].
  rewrite (good_vector_sel s x y IAll IAll G). unfold pickv.
  rewrite <- (pick_one_by_one _ (fun v => induced (walls s) v x y) vid _ (vorts s) (sel_all_nodup (curr_id s))).
  rewrite <- (pick_one_by_one _ (fun c : (R -> R -> R * R) * Z => fst c x y) snd _ (cfields s) (sel_all_nodup (curr_cf s))).
  f_equal; f_equal; apply map_ext; intros i; rewrite (good_vector_sel s x y _ _ G).
  - cbn [sel_ids]. rewrite mem_nil_filter. cbn [map vsum]. rewrite vplus_0_r. reflexivity.
  - cbn [sel_ids]. unfold pickv. rewrite mem_nil_filter. cbn [map vsum]. rewrite vplus_0_l. reflexivity.
Qed.

Lemma selection : forall h x y ids cids,
  let s := reached h in
  fst (s_vector s x y (IList ids) (IList cids)) =
  vplus (vsum (map (fun v => induced (walls s) v x y) (filter (fun v => if in_dec Z.eq_dec (vid v) ids then true else false) (vorts s))))
        (vsum (map (fun c => fst c x y) (filter (fun c => if in_dec Z.eq_dec (snd c) cids then true else false) (cfields s)))).
Proof.
  intros h x y ids cids s. rewrite (good_vector_sel s x y _ _ (reached_good h)). cbn [sel_ids]. unfold pickv.
  assert (M : forall l i, mem i l = if in_dec Z.eq_dec i l then true else false).
  { intros l i. destruct (in_dec Z.eq_dec i l) as [H|H].
    - apply mem_spec, H.
    - destruct (mem i l) eqn:E; [apply mem_spec in E; contradiction|reflexivity]. }
  rewrite (filter_ext (fun v => mem (vid v) ids) _ (fun v => M ids (vid v))).
  rewrite (filter_ext (fun c => mem (snd c) cids) _ (fun c => M cids (snd c))). reflexivity.
Qed.
Lemma vector_all : forall h x y, let s := reached h in
  fst (s_vector s x y IAll IAll) = vplus (vsum (map (fun v => induced (walls s) v x y) (vorts s))) (vsum (map (fun c => fst c x y) (cfields s))).
Proof. intros h x y s. apply (good_vector_all s x y (reached_good h)). Qed.
Lemma vector_none : forall h x y, fst (s_vector (reached h) x y INone INone) = (0, 0).
Proof.
  intros h x y. rewrite (good_vector_sel _ x y _ _ (reached_good h)). cbn [sel_ids]. unfold pickv.
  rewrite !mem_nil_filter. apply vplus_0_l.
Qed.
(** asking for a velocity changes no later answer *)
Lemma vector_pure : forall h x y a b x' y' a' b',
  fst (s_vector (snd (s_vector (reached h) x y a b)) x' y' a' b') = fst (s_vector (reached h) x' y' a' b').
Proof.
  intros h x y a b x' y' a' b'. pose proof (reached_good h) as G.
  rewrite (good_vector_sel _ x' y' a' b' (good_vector _ x y a b G)), (good_vector_sel _ x' y' a' b' G).
  rewrite s_vector_form. cbn [snd]. rewrite (good_fresh _ G). reflexivity.
Qed.
Lemma fold_all : forall (A : Type) (f : A -> R * R) l acc, fold_left (fun acc v => vadd acc (f v)) l acc = vplus acc (vsum (map f l)).
Proof.
  intros A f l. induction l as [|v l IH]; intros acc; cbn; [rewrite vplus_0_r; reflexivity|].
  rewrite IH. change (vadd acc (f v)) with (vplus acc (f v)). rewrite <- vplus_assoc. reflexivity.
Qed.
Lemma field_pointwise : forall h x y, s_field_at (reached h) x y = fst (s_vector (reached h) x y IAll IAll).
Proof.
  intros h x y. pose proof (reached_good h) as G. unfold s_field_at. cbv zeta. rewrite (good_fresh _ G). cbn [vorts images cfields].
  rewrite (fold_all _ (fun c : (R -> R -> R * R) * Z => fst c x y)), !(fold_all _ (fun v => v_vector v x y)), vplus_0_l.
  rewrite (good_vector_all _ x y G). f_equal. rewrite <- vsum_app, <- map_app.
  pose proof (fresh_sum (sel_ids IAll (curr_id (reached h))) (walls (reached h)) (vorts (reached h)) x y) as E.
  rewrite (pick_all _ G) in E. rewrite <- E. f_equal. f_equal. symmetry. unfold pickv. apply filter_id.
  intros v Hv. apply in_app_or in Hv. apply mem_spec.
  assert (I0 : forall u, In u (vorts (reached h)) -> In (vid u) (sel_ids IAll (curr_id (reached h)))).
  { intros u Hu. rewrite <- (pick_all _ G) in Hu. unfold pickv in Hu. apply filter_In in Hu. apply mem_spec, Hu. }
  destruct Hv as [Hv|Hv]; [apply I0, Hv|].
  destruct (images_reflections (walls (reached h)) (vorts (reached h))) as (l' & l & P' & F & P).
  assert (H1 : In v l') by (apply (Permutation_in _ P'), in_or_app; right; exact Hv).
  assert (H2 : exists u, In u l /\ vid v = vid u).
  { clear - F H1. induction F as [|a b l' l S F IH]; [contradiction|]. destruct H1 as [->|H1].
    - exists b. split; [left; reflexivity|apply S].
    - destruct (IH H1) as (u & U & E). exists u. split; [right; exact U|exact E]. }
  destruct H2 as (u & U & ->). apply (Permutation_in _ P) in U.
  assert (H3 : exists z, In z (vorts (reached h)) /\ In u (reflections (walls (reached h)) z)).
  { clear - U. induction (vorts (reached h)) as [|z vs IH]; cbn in U; [contradiction|]. apply in_app_or in U. destruct U as [U|U].
    - exists z. split; [left; reflexivity|exact U].
    - destruct (IH U) as (t & T & Q). exists t. split; [right; exact T|exact Q]. }
  destruct H3 as (z & Hz & Q). pose proof (reflections_id (walls (reached h)) z) as R0. rewrite Forall_forall in R0. rewrite (R0 u Q).
  apply I0, Hz.
Qed.

(** detailed mode *)
Lemma detailed_fresh : forall h x y,
  let s := reached h in
  to_refresh s = false ->
  let '(vects, _, cvects, _) := s_compound_detailed s x y in
  vplus (vsum vects) (vsum cvects) = fst (s_vector s x y IAll IAll).
Proof.
  intros h x y s T. unfold s_compound_detailed.
  rewrite <- (field_pointwise h x y : _ = fst (s_vector s x y IAll IAll)). fold s. unfold s_field_at, s_fresh. rewrite T. cbv zeta.
  rewrite (fold_all _ (fun c : (R -> R -> R * R) * Z => fst c x y)), !(fold_all _ (fun v => v_vector v x y)), vplus_0_l.
  rewrite map_app, vsum_app. reflexivity.
Qed.
Lemma detailed_after_vector : forall h x0 y0 a b x y,
  let s := snd (s_vector (reached h) x0 y0 a b) in
  let '(vects, _, cvects, _) := s_compound_detailed s x y in
  vplus (vsum vects) (vsum cvects) = fst (s_vector s x y IAll IAll).
Proof.
  intros h x0 y0 a b x y s.
  assert (E : s = reached (h ++ [VVector x0 y0 a b])) by (unfold reached; rewrite fold_left_app; reflexivity).
  rewrite E. apply detailed_fresh. rewrite <- E. unfold s. rewrite s_vector_form. cbn [snd]. rewrite (good_fresh _ (reached_good h)). reflexivity.
Qed.
Lemma solid_form : forall v om x y, kind v = Solid om -> v_vector v x y = (- (om * IZR (rot v)) * (y - vy0 v), om * IZR (rot v) * (x - vx0 v)).
Proof. intros v om x y K. rewrite v_vector_form by (rewrite K; exact I). cbv zeta. rewrite K. cbn [hfun gfun]. f_equal; ring. Qed.
Lemma detailed_refuted : exists h x y,
  let s := reached h in
  let '(vects, _, cvects, _) := s_compound_detailed s x y in
  vplus (vsum vects) (vsum cvects) <> fst (s_vector s x y IAll IAll).
Proof.
  exists [VAdd (mkv 1 0 true 1 0 (Solid 1)); VWall (WallX 0)], 0, 0.
  cbv beta iota zeta delta [s_compound_detailed]. rewrite vector_all.
  cbn -[v_vector]. unfold induced, reflections. cbn -[v_vector].
  intros E. apply (f_equal snd) in E. revert E.
  rewrite !(solid_form _ 1) by reflexivity. cbn. lra.
Qed.

(** ** walls: the counter-examples *)
Lemma parallel_refuted : exists h w1 w2 y,
  let s := reached h in
  walls s = [w1; w2] /\ Forall (fun v => axisymmetric (kind v)) (vorts s) /\ cfields s = [] /\
  on_wall w1 (0, y) /\ normal w1 (fst (s_vector s 0 y IAll IAll)) <> 0.
Proof.
  exists [VAdd (mkv (1 / 2) 0 true 1 0 (Free (2 * PI))); VWall (WallX 0); VWall (WallX 1)], (WallX 0), (WallX 1), 1.
  cbv zeta. split; [reflexivity|]. split; [repeat constructor|]. split; [reflexivity|]. split; [reflexivity|].
  rewrite vector_all. cbn -[v_vector]. unfold induced, reflections. cbn -[v_vector]. pose proof PI_RGT_0 as P.
  rewrite !(free_form _ (2 * PI)) by (try reflexivity; cbn; right; lra). cbn.
  match goal with |- ?a <> 0 => replace a with (64 / 377) end; [lra|]. field. lra.
Qed.
Lemma hill_wall_refuted : exists h w x y,
  let s := reached h in
  walls s = [w] /\ cfields s = [] /\ on_wall w (x, y) /\ normal w (fst (s_vector s x y IAll IAll)) <> 0.
Proof.
  exists [VAdd (new_hill 0 (- 1) 1 1 1 true); VWall (WallY 0)], (WallY 0), 1, 0.
  cbv zeta. split; [reflexivity|]. split; [reflexivity|]. split; [reflexivity|].
  rewrite vector_all. cbn -[v_vector]. unfold induced, reflections. cbn -[v_vector].
  unfold v_vector, cyl_to_cart, cyl. cbn -[cos sin get_theta get_r].
  destruct (polar 0 1 (-1) 0) as [A B]. destruct (polar 0 1 (2 * 0 - -1) 0) as [C D].
  pose proof (get_r_sq 0 1 (-1) 0) as E. pose proof (get_r_sq 0 1 (2 * 0 - -1) 0) as F.
  assert (R0 : get_r 0 1 (2 * 0 - -1) 0 = get_r 0 1 (-1) 0) by (unfold get_r; f_equal; ring).
  rewrite R0 in *. clear F R0. set (r := get_r 0 1 (-1) 0) in *. set (t := get_theta 0 1 (-1) 0) in *. set (t' := get_theta 0 1 (2 * 0 - -1) 0) in *.
  assert (E2 : r * r = 2) by (rewrite E; ring). clear E.
  assert (N : r <> 0) by (intros Z0; rewrite Z0 in E2; lra).
  assert (c : cos t = 1 / r) by (apply (Rmult_eq_reg_l r); [rewrite A; field; exact N|exact N]).
  assert (s : sin t = 1 / r) by (apply (Rmult_eq_reg_l r); [rewrite B; field; exact N|exact N]).
  assert (c' : cos t' = 1 / r) by (apply (Rmult_eq_reg_l r); [rewrite C; field; exact N|exact N]).
  assert (s' : sin t' = - 1 / r) by (apply (Rmult_eq_reg_l r); [rewrite D; field; exact N|exact N]).
  rewrite c, s, c', s'.
  assert (V : 1 / r = r / 2) by (apply (Rmult_eq_reg_l r); [replace (r * (1 / r)) with 1 by (field; exact N); nra|exact N]).
  replace (- 1 / r) with (- (1 / r)) by (field; exact N). rewrite V. rewrite E2. 
  match goal with |- ?a <> 0 => assert (a = 3 / 2) as ->; [|lra] end.
  clear - E2. field_simplify. replace (r ^ 4) with ((r * r) * (r * r)) by ring. rewrite ?E2. nra.
Qed.

(** ** the motion *)
Lemma rsum_app : forall a b, rsum (a ++ b) = rsum a + rsum b.
Proof. induction a as [|p a IH]; intros b; cbn; [ring|]. rewrite IH. ring. Qed.
Lemma rsum_plus : forall (A : Type) (f g : A -> R) l, rsum (map (fun a => f a + g a) l) = rsum (map f l) + rsum (map g l).
Proof. intros A f g l. induction l as [|a l IH]; cbn; [ring|]. rewrite IH. ring. Qed.
Lemma rsum_scal : forall (A : Type) (f : A -> R) c l, rsum (map (fun a => c * f a) l) = c * rsum (map f l).
Proof. intros A f c l. induction l as [|a l IH]; cbn; [ring|]. rewrite IH. ring. Qed.
Lemma rsum_ext : forall (A : Type) (f g : A -> R) l, (forall a, In a l -> f a = g a) -> rsum (map f l) = rsum (map g l).
Proof. intros A f g l H. rewrite (map_ext_in f g l H). reflexivity. Qed.
Lemma antisym_sum : forall (A : Type) (f : A -> A -> R) l, (forall a b, In a l -> In b l -> f a b = - f b a) ->
  rsum (map (fun a => rsum (map (f a) l)) l) = 0.
Proof.
  intros A f l. induction l as [|a l IH]; intros H; [reflexivity|].
  cbn. rewrite (rsum_plus _ (fun x => f x a) (fun x => rsum (map (f x) l))).
  rewrite IH by (intros; apply H; right; assumption).
  assert (E : rsum (map (fun x => f x a) l) = - rsum (map (f a) l)).
  { replace (- rsum (map (f a) l)) with (-1 * rsum (map (f a) l)) by ring. rewrite <- rsum_scal. apply rsum_ext.
    intros b Hb. rewrite (H b a); [ring|right; exact Hb|left; reflexivity]. }
  assert (S : f a a = 0) by (pose proof (H a a (or_introl eq_refl) (or_introl eq_refl)); lra).
  rewrite E, S. ring.
Qed.
Lemma vsum_fst : forall l, fst (vsum l) = rsum (map fst l).
Proof. induction l as [|p l IH]; cbn; [reflexivity|]. rewrite IH. reflexivity. Qed.
Lemma vsum_snd : forall l, snd (vsum l) = rsum (map snd l).
Proof. induction l as [|p l IH]; cbn; [reflexivity|]. rewrite IH. reflexivity. Qed.
Lemma free_kernel : forall u v, is_free u -> is_free v ->
  circulation u * fst (v_vector v (vx0 u) (vy0 u)) = - (circulation v * fst (v_vector u (vx0 v) (vy0 v))) /\
  circulation u * snd (v_vector v (vx0 u) (vy0 u)) = - (circulation v * snd (v_vector u (vx0 v) (vy0 v))).
Proof.
  intros u v U V. unfold is_free, circulation in *.
  destruct (kind u) as [|g| | | | | |] eqn:Ku; try contradiction. destruct (kind v) as [|k| | | | | |] eqn:Kv; try contradiction.
  destruct (Req_EM_T (vx0 u) (vx0 v)) as [Ex|Ex]; [destruct (Req_EM_T (vy0 u) (vy0 v)) as [Ey|Ey]|].
  - rewrite Ex, Ey at 1 2. rewrite <- Ex, <- Ey. rewrite (free_centre u g Ku). rewrite Ex, Ey, (free_centre v k Kv). cbn. split; ring.
  - rewrite (free_form v k), (free_form u g) by (try assumption; tauto || (right; intros E; apply Ey; congruence)).
    cbn [fst snd]. rewrite Ex. replace ((vy0 v - vy0 u) * (vy0 v - vy0 u)) with ((vy0 u - vy0 v) * (vy0 u - vy0 v)) by ring.
    replace (vx0 v - vx0 v) with 0 by ring. unfold Rdiv. split; ring.
  - rewrite (free_form v k), (free_form u g) by (try assumption; tauto || (left; intros E; apply Ex; congruence)).
    cbn [fst snd]. replace ((vx0 v - vx0 u) * (vx0 v - vx0 u) + (vy0 v - vy0 u) * (vy0 v - vy0 u)) with ((vx0 u - vx0 v) * (vx0 u - vx0 v) + (vy0 u - vy0 v) * (vy0 u - vy0 v)) by ring.
    unfold Rdiv. split; ring.
Qed.

Definition impulse_x (s : vsys) : R := rsum (map (fun v => circulation v * vx0 v) (vorts s)).
Definition impulse_y (s : vsys) : R := rsum (map (fun v => circulation v * vy0 v) (vorts s)).

Lemma v_move_form : forall s dt v, movable v = true ->
  v_move s dt v = let V := fst (s_vector s (vx0 v) (vy0 v) IAll IAll) in
                  mkv (vx0 v + dt * fst V) (vy0 v + dt * snd V) (movable v) (rot v) (vid v) (kind v).
Proof. intros s dt v M. unfold v_move. rewrite M. destruct (fst (s_vector _ _ _ _ _)); reflexivity. Qed.
Lemma evolve_conserves : forall s dt s', good s -> free_system s -> s_evolve s dt = Ok s' ->
  impulse_x s' = impulse_x s /\ impulse_y s' = impulse_y s /\ map circulation (vorts s') = map circulation (vorts s) /\ free_system s'.
Proof.
  intros s dt s' G (W & C & F) E. unfold s_evolve in E. destruct (Rle_dec dt 0); [discriminate|]. injection E as <-.
  rewrite Forall_forall in F. unfold impulse_x, impulse_y, free_system. cbn [vorts walls cfields s_refresh]. rewrite !map_map.
  assert (VV : forall x y, fst (s_vector s x y IAll IAll) = vsum (map (fun v => v_vector v x y) (vorts s))).
  { intros x y. rewrite (good_vector_all s x y G), C, W. cbn [map vsum]. rewrite vplus_0_r. f_equal. apply map_ext.
    intros v. unfold induced, reflections. cbn. apply vplus_0_r. }
  assert (K : forall v, In v (vorts s) -> circulation (v_move s dt v) = circulation v).
  { intros v Hv. rewrite v_move_form by (apply F, Hv). reflexivity. }
  split; [|split; [|split]].
  - rewrite (rsum_ext _ _ (fun v => circulation v * vx0 v + dt * (rsum (map (fun u => circulation v * fst (v_vector u (vx0 v) (vy0 v))) (vorts s))))).
    + rewrite (rsum_plus _ (fun v => circulation v * vx0 v)), (rsum_scal _ (fun v => rsum (map (fun u => circulation v * fst (v_vector u (vx0 v) (vy0 v))) (vorts s)))).
      rewrite antisym_sum; [ring|]. intros a b Ha Hb. apply free_kernel; apply F; assumption.
    + intros v Hv. rewrite (K v Hv), v_move_form by (apply F, Hv). cbn [vx0]. rewrite VV, vsum_fst, map_map, rsum_scal. ring.
  - rewrite (rsum_ext _ _ (fun v => circulation v * vy0 v + dt * (rsum (map (fun u => circulation v * snd (v_vector u (vx0 v) (vy0 v))) (vorts s))))).
    + rewrite (rsum_plus _ (fun v => circulation v * vy0 v)), (rsum_scal _ (fun v => rsum (map (fun u => circulation v * snd (v_vector u (vx0 v) (vy0 v))) (vorts s)))).
      rewrite antisym_sum; [ring|]. intros a b Ha Hb. apply free_kernel; apply F; assumption.
    + intros v Hv. rewrite (K v Hv), v_move_form by (apply F, Hv). cbn [vy0]. rewrite VV, vsum_snd, map_map, rsum_scal. ring.
  - apply map_ext_in, K.
  - split; [exact W|]. split; [exact C|]. rewrite Forall_map, Forall_forall. intros v Hv. rewrite v_move_form by (apply F, Hv). exact (F v Hv).
Qed.

Lemma weighted_impulse : forall s, weighted (map circulation (vorts s)) (map (fun v => (vx0 v, vy0 v)) (vorts s)) = (impulse_x s, impulse_y s).
Proof.
  intros s. unfold weighted, impulse_x, impulse_y. induction (vorts s) as [|v l IH]; cbn; [reflexivity|]. rewrite IH. reflexivity.
Qed.
Lemma times_conserve : forall n s dt time l, good s -> free_system s -> s_times s dt time n = Ok l ->
  length l = n /\
  forall k t ps, nth_error l k = Some (t, ps) ->
    t = time + INR (S k) * dt /\ length ps = length (vorts s) /\ weighted (map circulation (vorts s)) ps = (impulse_x s, impulse_y s).
Proof.
  induction n as [|n IH]; intros s dt time l G F E; cbn [s_times] in E.
  - injection E as <-. split; [reflexivity|]. intros [|k] t ps H; discriminate.
  - destruct (s_evolve s dt) as [s'|] eqn:E1; [|discriminate]. cbn [bind] in E.
    destruct (s_times s' dt (time + dt) n) as [l'|] eqn:E2; [|discriminate]. cbn [bind] in E. injection E as <-.
    destruct (evolve_conserves s dt s' G F E1) as (X & Y & K & F').
    destruct (IH s' dt (time + dt) l' (good_evolve _ _ _ G E1) F' E2) as [L H].
    assert (LL : length (vorts s') = length (vorts s)) by (rewrite <- (map_length circulation (vorts s')), K, map_length; reflexivity).
    split; [cbn; rewrite L; reflexivity|]. intros [|k] t ps N.
    + cbn in N. injection N as <- <-. split; [cbn; ring|]. split; [rewrite map_length; exact LL|].
      rewrite <- K, weighted_impulse, X, Y. reflexivity.
    + cbn [nth_error] in N. destruct (H k t ps N) as (A & B & C). split; [rewrite A, (S_INR (S k)); ring|].
      split; [congruence|]. rewrite <- K, C, X, Y. reflexivity.
Qed.
Lemma trajectories_conserve : forall h dt n l,
  let s := reached h in
  free_system s -> s_trajectories s dt n = Ok l ->
  length l = S n /\
  forall k t ps, nth_error l k = Some (t, ps) ->
    t = INR k * dt /\ length ps = length (vorts s) /\
    weighted (map circulation (vorts s)) ps = weighted (map circulation (vorts s)) (map (fun v => (vx0 v, vy0 v)) (vorts s)).
Proof.
  intros h dt n l s F E. unfold s_trajectories in E. destruct (s_times s dt 0 n) as [l'|] eqn:E1; [|discriminate].
  cbn [bind] in E. injection E as <-. destruct (times_conserve n s dt 0 l' (reached_good h) F E1) as [L H].
  split; [cbn; rewrite L; reflexivity|]. intros [|k] t ps N.
  - cbn in N. injection N as <- <-. rewrite map_length. split; [cbn; ring|]. split; reflexivity.
  - cbn [nth_error] in N. destruct (H k t ps N) as (A & B & C). rewrite weighted_impulse. split; [rewrite A; ring|]. split; assumption.
Qed.

(** a step moves each movable vortex by its velocity and nothing else *)
Lemma evolve_step : forall h dt, let s := reached h in
  (dt <= 0 -> s_evolve s dt = Err ValueErr) /\
  (0 < dt -> exists s', s_evolve s dt = Ok s' /\ walls s' = walls s /\ cfields s' = cfields s /\
     Forall2 (fun v v' => movable v' = movable v /\ rot v' = rot v /\ vid v' = vid v /\ kind v' = kind v /\
                (movable v = false -> vx0 v' = vx0 v /\ vy0 v' = vy0 v) /\
                (movable v = true -> (vx0 v', vy0 v') = vplus (vx0 v, vy0 v) (let V := fst (s_vector s (vx0 v) (vy0 v) IAll IAll) in (dt * fst V, dt * snd V))))
       (vorts s) (vorts s')).
Proof.
  intros h dt s. unfold s_evolve. destruct (Rle_dec dt 0) as [H|H]; (split; [intros K|intros K]); try lra; [reflexivity|].
  eexists. split; [reflexivity|]. split; [reflexivity|]. split; [reflexivity|]. cbn [vorts s_refresh].
  induction (vorts s) as [|v l IH]; cbn [map]; constructor; [|exact IH].
  destruct (movable v) eqn:M.
  - rewrite v_move_form by exact M. cbn. rewrite M. repeat split; congruence.
  - unfold v_move. rewrite M. repeat split; congruence.
Qed.

(** with a wall: a vortex whose centre is on the wall stays on it *)
Lemma stays_on_wall : forall h dt s' ws1 w ws2 k v v',
  let s := reached h in
  walls s = ws1 ++ w :: ws2 -> Forall (perpendicular w) ws2 ->
  Forall (fun v => axisymmetric (kind v)) (vorts s) -> cfields s = [] ->
  s_evolve s dt = Ok s' -> nth_error (vorts s) k = Some v -> nth_error (vorts s') k = Some v' ->
  on_wall w (vx0 v, vy0 v) -> on_wall w (vx0 v', vy0 v').
Proof.
  intros h dt s' ws1 w ws2 k v v' s W P A C E N N' O.
  unfold s_evolve in E. destruct (Rle_dec dt 0); [discriminate|]. injection E as <-. cbn [vorts s_refresh] in N'.
  rewrite nth_error_map, N in N'. cbn in N'. injection N' as <-.
  destruct (movable v) eqn:M; [|unfold v_move; rewrite M; exact O].
  rewrite v_move_form by exact M. cbv zeta.
  assert (Z0 : normal w (fst (s_vector s (vx0 v) (vy0 v) IAll IAll)) = 0).
  { apply (no_penetration h ws1 w ws2); try assumption. fold s. rewrite C. constructor. }
  destruct w; cbn [on_wall normal vx0 vy0 fst snd] in *; rewrite Z0; rewrite O; ring.
Qed.

(** ** the velocity map *)
Lemma drop_last : forall n l v, map vid l = zseq n -> drop_id (Z.of_nat n) (l ++ [set_vid v (Z.of_nat n)]) = l.
Proof.
  intros n l v E. unfold drop_id. rewrite flat_map_app. cbn [flat_map]. rewrite set_vid_v, Z.eqb_refl, app_nil_r.
  assert (H : forall u, In u l -> (vid u < Z.of_nat n)%Z).
  { intros u Hu. apply (in_map vid) in Hu. rewrite E in Hu. apply zseq_in in Hu. lia. }
  clear E. induction l as [|u l IH]; [reflexivity|]. cbn [flat_map]. pose proof (H u (or_introl eq_refl)) as B.
  destruct (Z.eqb_spec (vid u) (Z.of_nat n)); [lia|]. destruct (Z.ltb_spec (Z.of_nat n) (vid u)); [lia|].
  cbn [app]. f_equal. apply IH. intros z Hz. apply H. right. exact Hz.
Qed.
Lemma induced_vid : forall ws v i x y, induced ws (set_vid v i) x y = induced ws v x y.
Proof.
  intros ws v i x y. unfold induced.
  assert (E : reflections ws (set_vid v i) = map (fun u => set_vid u i) (reflections ws v)).
  { induction ws as [|w ws IH] using rev_ind; [reflexivity|]. rewrite !reflections_snoc, IH, map_app, !map_map. reflexivity. }
  rewrite E, map_map. f_equal.
Qed.
Lemma s_map_form : forall v ps s, good s ->
  fst (s_map s v ps) =
  map (fun p => vplus (fst (s_vector s (fst p) (snd p) IAll IAll)) (induced (walls s) (moved_to v (fst p) (snd p)) (fst p) (snd p))) ps.
Proof.
  intros v ps. induction ps as [|[x y] ps IH]; intros s G; [reflexivity|].
  cbn [s_map map fst snd].
  set (s1 := s_add s (mkv x y (movable v) (rot v) (vid v) (kind v))).
  pose proof (good_add s (mkv x y (movable v) (rot v) (vid v) (kind v)) G) as G1. fold s1 in G1.
  rewrite (surjective_pairing (s_vector s1 x y IAll IAll)).
  set (s2 := snd (s_vector s1 x y IAll IAll)).
  pose proof (good_vector s1 x y IAll IAll G1) as G2. fold s2 in G2.
  rewrite (surjective_pairing (s_map (fst (s_remove s2 (-1))) v ps)). cbn [fst].
  rewrite (IH _ (good_remove s2 (-1) G2)).
  assert (V2 : vorts s2 = vorts s ++ [set_vid (mkv x y (movable v) (rot v) (vid v) (kind v)) (curr_id s)] /\ walls s2 = walls s /\ cfields s2 = cfields s).
  { unfold s2. rewrite s_vector_form. cbn [snd]. rewrite (good_fresh _ G1). repeat split. }
  destruct V2 as (V2 & W2 & C2).
  assert (R3 : vorts (fst (s_remove s2 (-1))) = vorts s /\ walls (fst (s_remove s2 (-1))) = walls s /\ cfields (fst (s_remove s2 (-1))) = cfields s).
  { pose proof G as (A & B & _). unfold s_remove. cbv zeta.
    change (-1 <? 0)%Z with true. cbv iota.
    assert (L2 : length (vorts s2) = S (length (vorts s))) by (rewrite V2, app_length; cbn; lia).
    assert (N : PointsModel.norm_ind (length (vorts s2)) (Z.of_nat (length (vorts s2)) + -1) = Some (length (vorts s))).
    { apply PointsProofs2.norm_ind_spec. unfold PointsSpec.designates. lia. }
    assert (NE : nth_error (vorts s2) (length (vorts s)) = Some (set_vid (mkv x y (movable v) (rot v) (vid v) (kind v)) (curr_id s))).
    { rewrite V2, nth_error_app2, Nat.sub_diag by lia. reflexivity. }
    rewrite N, NE. cbn [fst vorts walls cfields].
    split; [|split; assumption]. rewrite set_vid_v, V2, B. apply drop_last, A. }
  destruct R3 as (V3 & W3 & C3).
  f_equal.
  - rewrite (good_vector_all s1 x y G1), (good_vector_all s x y G). unfold s1; cbn [vorts walls cfields s_add].
    rewrite map_app, vsum_app. cbn [map vsum]. rewrite vplus_0_r, induced_vid. fold (moved_to v x y).
    rewrite <- !vplus_assoc. f_equal. apply vplus_comm.
  - apply map_ext. intros p.
    rewrite (good_vector_all _ _ _ (good_remove s2 (-1) G2)), (good_vector_all s _ _ G), V3, W3, C3. reflexivity.
Qed.
Lemma velocity_map : forall h v ps, let s := reached h in movable v = true ->
  s_velocity_map s v ps =
  Ok (map (fun p => vplus (fst (s_vector s (fst p) (snd p) IAll IAll)) (induced (walls s) (moved_to v (fst p) (snd p)) (fst p) (snd p))) ps).
Proof.
  intros h v ps s M. unfold s_velocity_map, guard. rewrite M. cbn [negb andb]. f_equal. apply s_map_form, reached_good.
Qed.

(** ** the trajectories follow the time steps *)
Lemma times_follow : forall n s dt time, 0 < dt -> exists l, s_times s dt time n = Ok l /\ length l = n /\
  forall k, (k < n)%nat -> nth_error l k = Some (time + INR (S k) * dt,
    map (fun v => (vx0 v, vy0 v)) (vorts (fold_left vstep (repeat (VEvolve dt) (S k)) s))).
Proof.
  induction n as [|n IH]; intros s dt time H; cbn [s_times].
  - exists []. split; [reflexivity|]. split; [reflexivity|]. intros k K. lia.
  - assert (exists s', s_evolve s dt = Ok s') as [s' E] by (unfold s_evolve; destruct (Rle_dec dt 0); [lra|eauto]).
    rewrite E. cbn [bind]. destruct (IH s' dt (time + dt) H) as (l & -> & L & P). cbn [bind]. eexists. split; [reflexivity|].
    split; [cbn; now rewrite L|]. intros [|k] K.
    + cbn [nth_error repeat fold_left vstep INR]. rewrite E. f_equal. f_equal. ring.
    + cbn [nth_error]. rewrite (P k ltac:(lia)). change (repeat (VEvolve dt) (S (S k))) with (VEvolve dt :: repeat (VEvolve dt) (S k)).
      cbn [fold_left vstep]. rewrite E. f_equal. f_equal. rewrite (S_INR (S k)). ring.
Qed.
Lemma trajectories_follow : forall h dt n, let s := reached h in
  (0 < dt -> exists l, s_trajectories s dt n = Ok l /\ length l = S n /\
     forall k, (k <= n)%nat -> nth_error l k = Some (INR k * dt, map (fun v => (vx0 v, vy0 v)) (vorts (reached (h ++ repeat (VEvolve dt) k))))) /\
  (dt <= 0 -> (0 < n)%nat -> s_trajectories s dt n = Err ValueErr).
Proof.
  intros h dt n s. split.
  - intro H. destruct (times_follow n s dt 0 H) as (l & E & L & P). unfold s_trajectories. rewrite E. cbn [bind]. eexists. split; [reflexivity|].
    split; [cbn; now rewrite L|]. intros k K. unfold reached. rewrite fold_left_app. fold (reached h). fold s. destruct k as [|k].
    + cbn. f_equal. f_equal. ring.
    + cbn [nth_error]. rewrite (P k ltac:(lia)). f_equal. f_equal. ring.
  - intros H K. unfold s_trajectories. destruct n as [|n]; [lia|]. cbn [s_times]. unfold s_evolve. destruct (Rle_dec dt 0); [reflexivity|lra].
Qed.
