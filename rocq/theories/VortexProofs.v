(** * VortexProofs: the velocities of the vortices and the reflections in the walls. *)
From Coq Require Import Reals Lra List ZArith Lia Permutation.
From Verif Require Import Res VortexModel VortexSpec.
Import ListNotations.
#[local] Open Scope R_scope.

(** ** polar coordinates *)
Lemma sqr_sum0 : forall a b, a * a + b * b = 0 -> a = 0 /\ b = 0.
Proof.
  intros a b H. pose proof (Rle_0_sqr a) as Ha. pose proof (Rle_0_sqr b) as Hb. unfold Rsqr in *.
  split; apply Rsqr_0_uniq; unfold Rsqr; lra.
Qed.
Lemma sqr_sum_ge : forall a b, 0 <= a * a + b * b.
Proof. intros a b. pose proof (Rle_0_sqr a) as Ha. pose proof (Rle_0_sqr b) as Hb. unfold Rsqr in *. lra. Qed.
Lemma get_r_sq : forall x0 x y0 y, get_r x0 x y0 y * get_r x0 x y0 y = (x - x0) * (x - x0) + (y - y0) * (y - y0).
Proof. intros. unfold get_r. apply sqrt_sqrt, sqr_sum_ge. Qed.
Lemma get_r_ge : forall x0 x y0 y, 0 <= get_r x0 x y0 y.
Proof. intros. unfold get_r. apply sqrt_pos. Qed.

Lemma polar_pos : forall dx dy, 0 < dx ->
  sqrt (dx * dx + dy * dy) * cos (atan (dy / dx)) = dx /\ sqrt (dx * dx + dy * dy) * sin (atan (dy / dx)) = dy.
Proof.
  intros dx dy H.
  assert (E : sqrt (dx * dx + dy * dy) = dx * sqrt (1 + (dy / dx)²)).
  { rewrite <- (sqrt_square dx) at 3 by lra. rewrite <- sqrt_mult.
    - f_equal. unfold Rsqr. field. lra.
    - nra.
    - pose proof (Rle_0_sqr (dy / dx)). lra. }
  assert (P : 0 < sqrt (1 + (dy / dx)²)) by (apply sqrt_lt_R0; pose proof (Rle_0_sqr (dy / dx)); lra).
  rewrite cos_atan, sin_atan, E. split; field; lra.
Qed.

Lemma polar : forall x0 x y0 y,
  get_r x0 x y0 y * cos (get_theta x0 x y0 y) = x - x0 /\ get_r x0 x y0 y * sin (get_theta x0 x y0 y) = y - y0.
Proof.
  intros x0 x y0 y. unfold get_r, get_theta. cbv zeta. set (dx := x - x0). set (dy := y - y0).
  destruct (Req_EM_T dx 0) as [Hx|Hx].
  - rewrite Hx. replace (0 * 0 + dy * dy) with (dy * dy) by ring.
    destruct (Req_EM_T dy 0) as [Hy|Hy].
    + rewrite Hy, cos_0, sin_0. replace (0 * 0) with 0 by ring. rewrite sqrt_0. lra.
    + destruct (Rlt_dec 0 dy) as [Hp|Hp].
      * rewrite sqrt_square, cos_PI2, sin_PI2 by lra. lra.
      * replace (dy * dy) with (- dy * - dy) by ring.
        rewrite sqrt_square, cos_neg, sin_neg, cos_PI2, sin_PI2 by lra. lra.
  - destruct (Rlt_dec 0 dx) as [Hp|Hp].
    + apply polar_pos; assumption.
    + destruct (polar_pos (- dx) (- dy)) as [A B]; [lra|].
      replace (- dx * - dx + - dy * - dy) with (dx * dx + dy * dy) in A, B by ring.
      replace (- dy / - dx) with (dy / dx) in A, B by (field; assumption).
      assert (C : cos (atan (dy / dx) - PI) = - cos (atan (dy / dx))).
      { rewrite cos_minus, cos_PI, sin_PI. ring. }
      assert (D : sin (atan (dy / dx) - PI) = - sin (atan (dy / dx))).
      { rewrite sin_minus, cos_PI, sin_PI. ring. }
      rewrite C, D. split; lra.
Qed.

(** ** the closed form of the axisymmetric velocities *)
Definition gfun (k : vkind) (r : R) : R :=
  match k with
  | Solid omega => omega
  | Free gamma => if Req_EM_T r 0 then 0 else gamma / (2 * PI * r) / r
  | Burger alpha ksi nu => if Req_EM_T r 0 then 0 else ksi / (2 * PI) / r * (1 - exp (- alpha / (4 * nu) * (r * r))) / r
  | LambOseen ksi t nu => if Req_EM_T r 0 then 0 else ksi / (2 * PI * r) * (1 - exp (- (r * r) / (4 * nu * t))) / r
  | Rankine circ rv => if Rle_dec r rv then circ / (2 * PI * (rv * rv)) else circ / (2 * PI * r) / r
  | Perso circ nu alpha ratio => if Req_EM_T r 0 then 0 else circ / (2 * PI) / r * (1 - exp (- alpha / (4 * nu) * (r * r))) / r
  | _ => 0
  end.
Definition hfun (k : vkind) (d r : R) : R :=
  match k with
  | Burger alpha ksi nu => - 1 / 2 * alpha
  | Perso circ nu alpha ratio => - Rabs (gfun k r * d) * ratio
  | _ => 0
  end.

Lemma cyl_form : forall k d r th, axisymmetric k -> 0 <= r ->
  cyl k d r th = (hfun k d r * r, gfun k r * d * r).
Proof.
  intros k d r th A P. assert (PP : PI <> 0) by (pose proof PI_RGT_0; lra).
  destruct k; cbn [cyl hfun gfun] in *; try contradiction.
  - f_equal; ring.
  - f_equal; [ring|]. destruct (Req_EM_T r 0) as [E|E]; [rewrite E; ring|]. field. split; assumption.
  - f_equal. destruct (Req_EM_T r 0) as [E|E]; [rewrite E; ring|].
    set (e := 1 - exp _). clearbody e. field. split; assumption.
  - f_equal; [ring|]. destruct (Req_EM_T r 0) as [E|E]; [rewrite E; ring|].
    set (e := 1 - exp _). clearbody e. field. split; assumption.
  - f_equal; [ring|]. cbn in A. destruct (Rle_dec r rv) as [E|E].
    + unfold Rdiv. ring.
    + field. split; [lra|assumption].
  - assert (E0 : (if Req_EM_T r 0 then 0 else circ / (2 * PI) / r * (1 - exp (- alpha / (4 * nu) * (r * r))) * d) =
              (if Req_EM_T r 0 then 0 else circ / (2 * PI) / r * (1 - exp (- alpha / (4 * nu) * (r * r))) / r) * d * r).
    { destruct (Req_EM_T r 0) as [E|E]; [rewrite E; ring|]. set (e := 1 - exp _). clearbody e. field. split; assumption. }
    rewrite E0. f_equal. rewrite (Rabs_mult _ r), (Rabs_pos_eq r P). ring.
Qed.

Lemma v_vector_form : forall v x y, axisymmetric (kind v) ->
  let r := get_r (vx0 v) x (vy0 v) y in
  let h := hfun (kind v) (IZR (rot v)) r in
  let g := gfun (kind v) r * IZR (rot v) in
  v_vector v x y = (h * (x - vx0 v) - g * (y - vy0 v), h * (y - vy0 v) + g * (x - vx0 v)).
Proof.
  intros v x y A r h g. unfold v_vector.
  rewrite (cyl_form (kind v) _ _ _ A (get_r_ge _ _ _ _)).
  destruct (polar (vx0 v) x (vy0 v) y) as [C S]. fold r in C, S |- *. unfold cyl_to_cart.
  rewrite <- C, <- S. subst h g. f_equal; ring.
Qed.

Lemma hfun_opp : forall k d r, hfun k (- d) r = hfun k d r.
Proof.
  intros k d r. destruct k; try reflexivity. unfold hfun.
  replace (gfun (Perso circ nu alpha ratio) r * - d) with (- (gfun (Perso circ nu alpha ratio) r * d)) by ring.
  rewrite Rabs_Ropp. reflexivity.
Qed.

(** ** reflections *)
Lemma vadd_plus : forall p q, vadd p q = vplus p q.
Proof. reflexivity. Qed.
Lemma vplus_0_l : forall p, vplus (0, 0) p = p.
Proof. intros [a b]. unfold vplus; cbn. f_equal; ring. Qed.
Lemma vplus_0_r : forall p, vplus p (0, 0) = p.
Proof. intros [a b]. unfold vplus; cbn. f_equal; ring. Qed.
Lemma vplus_assoc : forall p q r, vplus p (vplus q r) = vplus (vplus p q) r.
Proof. intros. unfold vplus; cbn. f_equal; ring. Qed.
Lemma vplus_comm : forall p q, vplus p q = vplus q p.
Proof. intros. unfold vplus; cbn. f_equal; ring. Qed.
Lemma vsum_app : forall a b, vsum (a ++ b) = vplus (vsum a) (vsum b).
Proof.
  induction a as [|p a IH]; intros b; cbn; [rewrite vplus_0_l; reflexivity|].
  rewrite IH. apply vplus_assoc.
Qed.
Lemma vsum_perm : forall a b, Permutation a b -> vsum a = vsum b.
Proof.
  induction 1; cbn; [reflexivity|rewrite IHPermutation; reflexivity| |congruence].
  rewrite !vplus_assoc. f_equal. apply vplus_comm.
Qed.
Lemma mirror_vec_plus : forall w p q, mirror_vec w (vplus p q) = vplus (mirror_vec w p) (mirror_vec w q).
Proof. intros [a|a] p q; unfold mirror_vec, vplus; cbn; f_equal; ring. Qed.
Lemma mirror_vec_0 : forall w, mirror_vec w (0, 0) = (0, 0).
Proof. intros [a|a]; unfold mirror_vec; cbn; f_equal; ring. Qed.
Lemma mirror_vec_sum : forall w l, mirror_vec w (vsum l) = vsum (map (mirror_vec w) l).
Proof.
  intros w l. induction l as [|p l IH]; cbn [vsum map]; [apply mirror_vec_0|].
  rewrite mirror_vec_plus, IH. reflexivity.
Qed.
Lemma mirror_vec_inv : forall w p, mirror_vec w (mirror_vec w p) = p.
Proof. intros [a|a] [u v]; unfold mirror_vec; cbn; f_equal; ring. Qed.
Lemma mirror_pt_inv : forall w p, mirror_pt w (mirror_pt w p) = p.
Proof. intros [a|a] [u v]; unfold mirror_pt; cbn; f_equal; ring. Qed.
Lemma mirror_on : forall w p, on_wall w p -> mirror_pt w p = p.
Proof. intros [a|a] [u v] H; cbn in *; subst; unfold mirror_pt; cbn; f_equal; ring. Qed.

(** the velocity of a reflected vortex is the reflected velocity *)
Lemma mirror_velocity : forall w v x y, axisymmetric (kind v) ->
  v_vector (mirror_vortex w v) (fst (mirror_pt w (x, y))) (snd (mirror_pt w (x, y))) = mirror_vec w (v_vector v x y).
Proof.
  intros w v x y A.
  rewrite (v_vector_form (mirror_vortex w v)) by (destruct w; exact A).
  rewrite (v_vector_form v) by exact A. cbv zeta.
  assert (R0 : get_r (vx0 (mirror_vortex w v)) (fst (mirror_pt w (x, y))) (vy0 (mirror_vortex w v)) (snd (mirror_pt w (x, y))) =
               get_r (vx0 v) x (vy0 v) y).
  { unfold get_r. f_equal. destruct w; cbn; ring. }
  rewrite R0. set (r := get_r _ _ _ _).
  replace (kind (mirror_vortex w v)) with (kind v) by (destruct w; reflexivity).
  replace (rot (mirror_vortex w v)) with (- rot v)%Z by (destruct w; reflexivity).
  rewrite opp_IZR, hfun_opp.
  set (h := hfun _ _ _). set (g := gfun _ _). set (d := IZR _).
  destruct w; unfold mirror_vec; cbn; f_equal; ring.
Qed.
Lemma mirror_velocity' : forall w v x y, axisymmetric (kind v) ->
  v_vector (mirror_vortex w v) x y = mirror_vec w (v_vector v (fst (mirror_pt w (x, y))) (snd (mirror_pt w (x, y)))).
Proof.
  intros w v x y A. rewrite <- (mirror_velocity w v _ _ A).
  rewrite <- (surjective_pairing (mirror_pt w (x, y))), mirror_pt_inv. reflexivity.
Qed.

(** *** the set of reflections *)
Lemma reflections_snoc : forall ws w v,
  reflections (ws ++ [w]) v = reflections ws v ++ map (mirror_vortex w) (reflections ws v).
Proof. intros. unfold reflections. rewrite fold_left_app. reflexivity. Qed.
Lemma reflections_all : forall (P : vortex -> Prop) ws v,
  P v -> (forall w u, P u -> P (mirror_vortex w u)) -> Forall P (reflections ws v).
Proof.
  intros P ws v Hv Hm. induction ws as [|w ws IH] using rev_ind.
  - unfold reflections; cbn. constructor; [exact Hv|constructor].
  - rewrite reflections_snoc, Forall_app. split; [exact IH|].
    rewrite Forall_map. eapply Forall_impl; [|exact IH]. intros u; apply Hm.
Qed.
Lemma reflections_kind : forall ws v, Forall (fun u => kind u = kind v) (reflections ws v).
Proof. intros. apply reflections_all; [reflexivity|]. intros w u E. destruct w; exact E. Qed.
Lemma reflections_id : forall ws v, Forall (fun u => vid u = vid v) (reflections ws v).
Proof. intros. apply reflections_all; [reflexivity|]. intros w u E. destruct w; exact E. Qed.

Lemma induced_snoc : forall ws w v x y, axisymmetric (kind v) ->
  induced (ws ++ [w]) v x y =
  vplus (induced ws v x y) (mirror_vec w (induced ws v (fst (mirror_pt w (x, y))) (snd (mirror_pt w (x, y))))).
Proof.
  intros ws w v x y A. unfold induced at 1. rewrite reflections_snoc, map_app, vsum_app.
  unfold induced. f_equal. rewrite mirror_vec_sum, !map_map. f_equal.
  apply map_ext_in. intros u Hu. apply mirror_velocity'.
  pose proof (reflections_kind ws v) as F. rewrite Forall_forall in F. rewrite (F u Hu). exact A.
Qed.

(** the field of a vortex is symmetric with respect to the last wall and the walls followed only by perpendicular ones *)
Definition symmetric (w : wall) (f : R -> R -> R * R) : Prop :=
  forall x y, f (fst (mirror_pt w (x, y))) (snd (mirror_pt w (x, y))) = mirror_vec w (f x y).
Lemma mirror_pt_comm : forall w w' p, perpendicular w w' -> mirror_pt w (mirror_pt w' p) = mirror_pt w' (mirror_pt w p).
Proof. intros [a|a] [b|b] [x y] P; try contradiction; reflexivity. Qed.
Lemma mirror_vec_comm : forall w w' p, perpendicular w w' -> mirror_vec w (mirror_vec w' p) = mirror_vec w' (mirror_vec w p).
Proof. intros [a|a] [b|b] [x y] P; try contradiction; reflexivity. Qed.
Lemma induced_symmetric : forall ws1 w ws2 v, axisymmetric (kind v) -> Forall (perpendicular w) ws2 ->
  symmetric w (induced (ws1 ++ w :: ws2) v).
Proof.
  intros ws1 w ws2 v A. induction ws2 as [|w2 ws2 IH] using rev_ind; intros F x y.
  - rewrite !induced_snoc by exact A.
    rewrite <- (surjective_pairing (mirror_pt w (x, y))), mirror_pt_inv. cbn [fst snd].
    rewrite mirror_vec_plus, mirror_vec_inv. apply vplus_comm.
  - rewrite Forall_app in F. destruct F as [F P]. inversion P as [|? ? P2 _]; subst.
    replace (ws1 ++ w :: ws2 ++ [w2]) with ((ws1 ++ w :: ws2) ++ [w2]) by (rewrite <- app_assoc; reflexivity).
    rewrite !induced_snoc by exact A.
    rewrite <- (surjective_pairing (mirror_pt w (x, y))).
    rewrite (IH F x y).
    rewrite <- (mirror_pt_comm w w2) by exact P2.
    rewrite (surjective_pairing (mirror_pt w2 (x, y))) at 1 2.
    rewrite (IH F). rewrite mirror_vec_plus, (mirror_vec_comm w w2) by exact P2. reflexivity.
Qed.

(** ** what a system computes *)
Definition pickv (l : list Z) (vs : list vortex) : list vortex := filter (fun v => mem (vid v) l) vs.

Lemma fold_pick : forall (A : Type) (f : A -> R * R) (b : A -> bool) l acc,
  fold_left (fun acc v => if b v then vadd acc (f v) else acc) l acc = vplus acc (vsum (map f (filter b l))).
Proof.
  intros A f b l. induction l as [|v l IH]; intros acc; cbn; [rewrite vplus_0_r; reflexivity|].
  rewrite IH. destruct (b v); cbn [map vsum]; [|reflexivity].
  change (vadd acc (f v)) with (vplus acc (f v)). rewrite <- vplus_assoc. reflexivity.
Qed.

Lemma s_vector_form : forall s x y a b,
  let t := s_fresh s in
  s_vector s x y a b =
  (vplus (vsum (map (fun v => v_vector v x y) (pickv (sel_ids a (curr_id s)) (vorts t ++ images t))))
         (vsum (map (fun c => fst c x y) (filter (fun c => mem (snd c) (sel_ids b (curr_cf s))) (cfields t)))), t).
Proof.
  intros s x y a b t. unfold s_vector. fold t. f_equal.
  rewrite (fold_pick _ (fun c : (R -> R -> R * R) * Z => fst c x y) (fun c => mem (snd c) (sel_ids b (curr_cf s)))).
  rewrite !(fold_pick _ (fun v => v_vector v x y) (fun v => mem (vid v) (sel_ids a (curr_id s)))).
  rewrite vplus_0_l. unfold pickv. rewrite filter_app, map_app, vsum_app. reflexivity.
Qed.

(** the images made by the code induce the velocity of the reflections *)
Lemma v_vector_eq : forall u v x y, vx0 u = vx0 v -> vy0 u = vy0 v -> rot u = rot v -> kind u = kind v -> v_vector u x y = v_vector v x y.
Proof. intros u v x y A B C D. unfold v_vector. rewrite A, B, C, D. reflexivity. Qed.

Definition same_vortex (u v : vortex) : Prop := vx0 u = vx0 v /\ vy0 u = vy0 v /\ rot u = rot v /\ kind u = kind v /\ vid u = vid v.
Lemma image_mirror : forall w u v, same_vortex u v -> same_vortex (v_image w u) (mirror_vortex w v).
Proof.
  intros w u v (A & B & C & D & E). unfold same_vortex, v_image, mirror_vortex. destruct w; cbn; rewrite A, B, C, D, E;
  repeat split; try ring; lia.
Qed.
Lemma Forall2_map2 : forall (f g : vortex -> vortex) (P : vortex -> vortex -> Prop) l l',
  (forall u v, P u v -> P (f u) (g v)) -> Forall2 P l l' -> Forall2 P (map f l) (map g l').
Proof. intros f g P l l' H F. induction F; cbn; constructor; auto. Qed.
Lemma make_images_snoc : forall ws w vs,
  make_images (ws ++ [w]) vs = (make_images ws vs ++ map (v_image w) (make_images ws vs)) ++ map (v_image w) vs.
Proof. intros. unfold make_images. rewrite fold_left_app. reflexivity. Qed.

Fixpoint flat {A B : Type} (f : A -> list B) (l : list A) : list B := match l with [] => [] | a :: r => f a ++ flat f r end.
Lemma flat_app2 : forall (A B : Type) (f g : A -> list B) l, Permutation (flat (fun v => f v ++ g v) l) (flat f l ++ flat g l).
Proof.
  intros A B f g l. induction l as [|v l IH]; cbn; [constructor|].
  rewrite <- !app_assoc. apply Permutation_app_head. rewrite IH.
  rewrite !app_assoc. apply Permutation_app_tail. apply Permutation_app_comm.
Qed.
Lemma flat_map_map : forall (A B C : Type) (f : A -> list B) (h : B -> C) l, flat (fun v => map h (f v)) l = map h (flat f l).
Proof. intros. induction l as [|v l IH]; cbn; [reflexivity|]. rewrite IH, map_app. reflexivity. Qed.

Lemma images_reflections : forall ws vs,
  exists l' l, Permutation (vs ++ make_images ws vs) l' /\ Forall2 same_vortex l' l /\ Permutation l (flat (reflections ws) vs).
Proof.
  intros ws vs. induction ws as [|w ws IH] using rev_ind.
  - exists vs, vs. split; [|split].
    + unfold make_images; cbn. rewrite app_nil_r. apply Permutation_refl.
    + clear. induction vs; constructor; [repeat split|assumption].
    + unfold reflections. cbn. induction vs as [|v vs IH]; cbn; [constructor|]. constructor. exact IH.
  - destruct IH as (l' & l & P' & F & P).
    exists (l' ++ map (v_image w) l'), (l ++ map (mirror_vortex w) l). split; [|split].
    + rewrite make_images_snoc. set (I := make_images ws vs) in *.
      apply Permutation_trans with ((vs ++ I) ++ map (v_image w) (vs ++ I)).
      * rewrite map_app, <- !app_assoc. do 2 apply Permutation_app_head. apply Permutation_app_comm.
      * apply Permutation_app; [exact P'|apply Permutation_map; exact P'].
    + apply Forall2_app; [exact F|]. apply Forall2_map2; [apply image_mirror|exact F].
    + assert (E : flat (reflections (ws ++ [w])) vs = flat (fun v => reflections ws v ++ map (mirror_vortex w) (reflections ws v)) vs).
      { clear. induction vs as [|v vs IH]; cbn; [reflexivity|]. rewrite reflections_snoc, IH. reflexivity. }
      rewrite E. eapply Permutation_trans; [|apply Permutation_sym, flat_app2].
      rewrite flat_map_map. apply Permutation_app; [exact P|apply Permutation_map; exact P].
Qed.

Lemma filter_perm : forall (A : Type) (f : A -> bool) l l', Permutation l l' -> Permutation (filter f l) (filter f l').
Proof.
  intros A f l l' P. induction P; cbn.
  - constructor.
  - destruct (f x); [constructor|]; assumption.
  - destruct (f x), (f y); try constructor; apply Permutation_refl.
  - eapply Permutation_trans; eassumption.
Qed.
Lemma pick_same : forall ids l' l x y, Forall2 same_vortex l' l ->
  map (fun v => v_vector v x y) (pickv ids l') = map (fun v => v_vector v x y) (pickv ids l).
Proof.
  intros ids l' l x y F. unfold pickv. induction F as [|u v l' l (A & B & C & D & E) F IH]; cbn; [reflexivity|].
  rewrite E. destruct (mem (vid v) ids); cbn; [|exact IH].
  rewrite IH. f_equal. apply v_vector_eq; assumption.
Qed.
Lemma pick_reflections : forall ids ws vs x y,
  vsum (map (fun v => v_vector v x y) (pickv ids (flat (reflections ws) vs))) =
  vsum (map (fun v => induced ws v x y) (pickv ids vs)).
Proof.
  intros ids ws vs x y. induction vs as [|v vs IH]; cbn; [reflexivity|].
  unfold pickv in *. rewrite filter_app, map_app, vsum_app, IH.
  pose proof (reflections_id ws v) as F.
  destruct (mem (vid v) ids) eqn:E; cbn [map vsum].
  - f_equal. unfold induced. do 2 f_equal.
    induction F as [|u l Hu F IHF]; cbn; [reflexivity|]. rewrite Hu, E, IHF. reflexivity.
  - enough (filter (fun v0 => mem (vid v0) ids) (reflections ws v) = []) as -> by apply vplus_0_l.
    induction F as [|u l Hu F IHF]; cbn; [reflexivity|]. rewrite Hu, E, IHF. reflexivity.
Qed.
Lemma fresh_sum : forall ids ws vs x y,
  vsum (map (fun v => v_vector v x y) (pickv ids (vs ++ make_images ws vs))) =
  vsum (map (fun v => induced ws v x y) (pickv ids vs)).
Proof.
  intros ids ws vs x y. destruct (images_reflections ws vs) as (l' & l & P' & F & P).
  rewrite <- pick_reflections.
  transitivity (vsum (map (fun v => v_vector v x y) (pickv ids l'))).
  - apply vsum_perm, Permutation_map, filter_perm, P'.
  - rewrite (pick_same ids l' l x y F). apply vsum_perm, Permutation_map, filter_perm, P.
Qed.

(** ** the invariant of the histories *)
Definition zseq (n : nat) : list Z := map Z.of_nat (seq 0 n).
Arguments zseq : simpl never.
Definition good (s : vsys) : Prop :=
  map vid (vorts s) = zseq (length (vorts s)) /\ curr_id s = Z.of_nat (length (vorts s)) /\
  map snd (cfields s) = zseq (length (cfields s)) /\ curr_cf s = Z.of_nat (length (cfields s)) /\
  (to_refresh s = false -> images s = make_images (walls s) (vorts s)).

Lemma zseq_S : forall n, zseq (S n) = zseq n ++ [Z.of_nat n].
Proof. intros. unfold zseq. rewrite seq_S, map_app. reflexivity. Qed.
Lemma zseq_in : forall n i, In i (zseq n) <-> (0 <= i < Z.of_nat n)%Z.
Proof.
  intros n i. unfold zseq. rewrite in_map_iff. split.
  - intros (k & <- & H). apply in_seq in H. lia.
  - intros H. exists (Z.to_nat i). split; [lia|]. apply in_seq. lia.
Qed.

Lemma set_vid_v : forall v i, vid (set_vid v i) = i.
Proof. reflexivity. Qed.
Lemma drop_id_ids : forall i l, map vid (drop_id i l) =
  flat_map (fun j => if Z.eqb j i then [] else if Z.ltb i j then [(j - 1)%Z] else [j]) (map vid l).
Proof.
  intros i l. induction l as [|v l IH]; cbn; [reflexivity|].
  unfold drop_id in *. rewrite map_app, IH. f_equal.
  destruct (Z.eqb (vid v) i); [reflexivity|]. destruct (Z.ltb i (vid v)); reflexivity.
Qed.
Lemma drop_zseq : forall k n, (k < n)%nat ->
  flat_map (fun j => if Z.eqb j (Z.of_nat k) then [] else if Z.ltb (Z.of_nat k) j then [(j - 1)%Z] else [j]) (zseq n) = zseq (n - 1).
Proof.
  intros k n H. induction n as [|n IH]; [lia|].
  rewrite zseq_S, flat_map_app. cbn [flat_map]. rewrite app_nil_r.
  replace (S n - 1)%nat with n by lia.
  destruct (Nat.eq_dec k n) as [->|Hk].
  - rewrite Z.eqb_refl, app_nil_r.
    assert (L : forall m, (m <= n)%nat -> flat_map (fun j => if Z.eqb j (Z.of_nat n) then [] else if Z.ltb (Z.of_nat n) j then [(j - 1)%Z] else [j]) (zseq m) = zseq m).
    { induction m as [|m IHm]; intros Hm; [reflexivity|].
      rewrite zseq_S, flat_map_app, IHm by lia. cbn [flat_map]. f_equal.
      destruct (Z.eqb_spec (Z.of_nat m) (Z.of_nat n)); [lia|]. destruct (Z.ltb_spec (Z.of_nat n) (Z.of_nat m)); [lia|]. reflexivity. }
    apply L. lia.
  - rewrite IH by lia.
    destruct (Z.eqb_spec (Z.of_nat n) (Z.of_nat k)); [lia|].
    destruct (Z.ltb_spec (Z.of_nat k) (Z.of_nat n)); [|lia].
    destruct n as [|n]; [lia|]. rewrite (zseq_S n). f_equal; [f_equal; lia|]. f_equal. lia.
Qed.
Lemma drop_id_image : forall i w l, drop_id i (map (v_image w) l) = map (v_image w) (drop_id i l).
Proof.
  intros i w l. induction l as [|v l IH]; cbn; [reflexivity|]. unfold drop_id in *. rewrite map_app, <- IH.
  f_equal. destruct (Z.eqb (vid v) i); [reflexivity|]. destruct (Z.ltb i (vid v)); reflexivity.
Qed.
Lemma drop_id_images : forall i ws vs, drop_id i (make_images ws vs) = make_images ws (drop_id i vs).
Proof.
  intros i ws vs. induction ws as [|w ws IH] using rev_ind; [reflexivity|].
  rewrite !make_images_snoc. unfold drop_id in *. rewrite !flat_map_app. fold (drop_id i (map (v_image w) vs)).
  fold (drop_id i (map (v_image w) (make_images ws vs))). rewrite !drop_id_image. unfold drop_id. rewrite IH. reflexivity.
Qed.
Lemma nth_zseq : forall vs k v, map vid vs = zseq (length vs) -> nth_error vs k = Some v -> vid v = Z.of_nat k.
Proof.
  intros vs k v E N. assert (H : nth_error (map vid vs) k = Some (vid v)) by (rewrite nth_error_map, N; reflexivity).
  rewrite E in H. unfold zseq in H. rewrite nth_error_map in H.
  assert (L : (k < length vs)%nat) by (apply nth_error_Some; congruence).
  rewrite (nth_error_nth' _ 0%nat) in H by (rewrite seq_length; exact L).
  rewrite seq_nth in H by exact L. cbn in H. congruence.
Qed.

Lemma drop_id_length : forall i l, map vid l = zseq (length l) -> (0 <= i < Z.of_nat (length l))%Z ->
  map vid (drop_id i l) = zseq (length l - 1) /\ length (drop_id i l) = (length l - 1)%nat.
Proof.
  intros i l E H.
  assert (A : map vid (drop_id i l) = zseq (length l - 1)).
  { rewrite drop_id_ids, E. replace i with (Z.of_nat (Z.to_nat i)) by lia. apply drop_zseq. lia. }
  split; [exact A|]. rewrite <- (map_length vid), A. unfold zseq. rewrite map_length, seq_length. reflexivity.
Qed.

Lemma good_fresh : forall s, good s -> s_fresh s = mks (vorts s) (make_images (walls s) (vorts s)) (nmb_vortex s) (walls s) (cfields s) false (curr_id s) (curr_cf s).
Proof.
  intros s (_ & _ & _ & _ & F). unfold s_fresh, s_refresh. destruct (to_refresh s) eqn:E; [reflexivity|].
  rewrite <- (F eq_refl), <- E. destruct s; reflexivity.
Qed.
Lemma good_add : forall s v, good s -> good (s_add s v).
Proof.
  intros s v (A & B & C & D & F). unfold good, s_add; cbn.
  rewrite app_length, map_app, A, B. cbn [length map]. rewrite Nat.add_1_r, zseq_S.
  repeat split; try assumption; try discriminate. lia.
Qed.
Lemma good_wall : forall s w, good s -> good (s_wall s w).
Proof. intros s w (A & B & C & D & F). unfold good, s_wall; cbn. repeat split; try assumption; discriminate. Qed.
Lemma good_field : forall s f, good s -> good (s_field s f).
Proof.
  intros s f (A & B & C & D & F). unfold good, s_field; cbn.
  rewrite app_length, map_app, C, D. cbn [length map]. rewrite Nat.add_1_r, zseq_S. repeat split; try assumption. lia.
Qed.
Lemma good_remove : forall s i, good s -> good (fst (s_remove s i)).
Proof.
  intros s i G. pose proof G as (A & B & C & D & F). unfold s_remove. cbv zeta.
  destruct (PointsModel.norm_ind _ _) as [k|]; [|exact G].
  destruct (nth_error (vorts s) k) as [v|] eqn:N; [|exact G]. cbn [fst].
  assert (L : (k < length (vorts s))%nat) by (apply nth_error_Some; congruence).
  pose proof (nth_zseq _ _ _ A N) as I.
  destruct (drop_id_length (vid v) (vorts s) A) as [E1 E2]; [lia|].
  unfold good; cbn. rewrite E1, E2. repeat split; try assumption; try lia.
  intros T. rewrite (F T). apply drop_id_images.
Qed.
Lemma good_vector : forall s x y a b, good s -> good (snd (s_vector s x y a b)).
Proof.
  intros s x y a b G. rewrite s_vector_form. cbn [snd]. rewrite (good_fresh s G).
  destruct G as (A & B & C & D & F). unfold good; cbn. repeat split; assumption.
Qed.
Lemma v_move_vid : forall s dt v, vid (v_move s dt v) = vid v.
Proof. intros. unfold v_move. destruct (movable v); [|reflexivity]. destruct (fst (s_vector _ _ _ _ _)); reflexivity. Qed.
Lemma good_evolve : forall s dt s', good s -> s_evolve s dt = Ok s' -> good s'.
Proof.
  intros s dt s' (A & B & C & D & F) E. unfold s_evolve in E. destruct (Rle_dec dt 0); [discriminate|].
  injection E as <-. unfold good; cbn. rewrite map_map, map_length.
  rewrite (map_ext _ vid) by (intros; apply v_move_vid). repeat split; assumption.
Qed.
Lemma good_step : forall s o, good s -> good (vstep s o).
Proof.
  intros s [v|i|w|f|x y a b|dt] G; cbn [vstep].
  - apply good_add, G. - apply good_remove, G. - apply good_wall, G. - apply good_field, G. - apply good_vector, G.
  - destruct (s_evolve s dt) eqn:E; [|exact G]. apply (good_evolve _ _ _ G E).
Qed.
Lemma good_new : good s_new.
Proof. unfold good; cbn. repeat split; reflexivity. Qed.
Lemma reached_good : forall h, good (reached h).
Proof.
  intros h. unfold reached. generalize s_new, good_new. induction h as [|o h IH]; intros s G; [exact G|].
  cbn. apply IH, good_step, G.
Qed.

(** ** what get_vector returns *)
Lemma good_vector_sel : forall s x y a b, good s ->
  fst (s_vector s x y a b) =
  vplus (vsum (map (fun v => induced (walls s) v x y) (pickv (sel_ids a (curr_id s)) (vorts s))))
        (vsum (map (fun c => fst c x y) (filter (fun c => mem (snd c) (sel_ids b (curr_cf s))) (cfields s)))).
Proof.
  intros s x y a b G. rewrite s_vector_form. cbn [fst]. rewrite (good_fresh s G). cbn [vorts images cfields].
  rewrite fresh_sum. reflexivity.
Qed.
Lemma mem_spec : forall i l, mem i l = true <-> In i l.
Proof.
  intros i l. unfold mem. rewrite existsb_exists. split.
  - intros (j & H & E). apply Z.eqb_eq in E. congruence.
  - intros H. exists i. split; [exact H|apply Z.eqb_refl].
Qed.
Lemma filter_id : forall (A : Type) (f : A -> bool) l, (forall a, In a l -> f a = true) -> filter f l = l.
Proof.
  intros A f l H. induction l as [|a l IH]; cbn; [reflexivity|].
  rewrite (H a (or_introl eq_refl)), IH; [reflexivity|]. intros b Hb. apply H. right. exact Hb.
Qed.
Lemma pick_all : forall s, good s -> pickv (sel_ids IAll (curr_id s)) (vorts s) = vorts s.
Proof.
  intros s (A & B & _). unfold pickv. apply filter_id. intros v Hv. apply mem_spec. cbn. rewrite B, Nat2Z.id.
  change (In (vid v) (zseq (length (vorts s)))). rewrite <- A. apply in_map, Hv.
Qed.
Lemma pick_all_cf : forall s, good s -> filter (fun c => mem (snd c) (sel_ids IAll (curr_cf s))) (cfields s) = cfields s.
Proof.
  intros s (_ & _ & A & B & _). apply filter_id. intros v Hv. apply mem_spec. cbn. rewrite B, Nat2Z.id.
  change (In (snd v) (zseq (length (cfields s)))). rewrite <- A. apply in_map, Hv.
Qed.
Lemma good_vector_all : forall s x y, good s ->
  fst (s_vector s x y IAll IAll) =
  vplus (vsum (map (fun v => induced (walls s) v x y) (vorts s))) (vsum (map (fun c => fst c x y) (cfields s))).
Proof. intros s x y G. rewrite (good_vector_sel s x y _ _ G), (pick_all s G), (pick_all_cf s G). reflexivity. Qed.
