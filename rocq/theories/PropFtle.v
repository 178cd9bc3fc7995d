(** * PropFtle: displacement of particles and Lyapunov exponents, over the real numbers (C234-C242).
    Statements, examples and counterexamples; the proofs are in FtleProofs*.v.  The vocabulary is in FtleSpec. *)
From Coq Require Import Reals List Bool ZArith Lra Lia.
From Verif Require Import Res FtleModel FtleSpec FtleProofs FtleProofs2 FtleProofs3 FtleProofs4 FtleProofs5.
Import ListNotations.
#[local] Open Scope R_scope.

(** ** C234 *)
Theorem C234_flag z vel f p dt rel dampl q b : displacement z vel f p dt rel dampl = Ok (Some (q, b)) -> (b = true <-> ~ within z q).
Proof. exact (displacement_flag z vel f p dt rel dampl q b). Qed.
Print Assumptions C234_flag.
Theorem C234_duration z vel f p dt rel dampl q b : 0 <= hx z -> displacement z vel f p dt rel dampl = Ok (Some (q, b)) ->
  exists t, travels z vel (backward dt) p t q /\ 0 <= t <= Rabs dt /\ (b = false -> t = Rabs dt).
Proof.
  intros H D. destruct (displacement_travels z vel f p dt rel dampl q b H D) as (t & T & L & E). exists t. split; [exact T|]. split; [|exact E]. split; [exact (travels_time _ _ _ _ _ _ T)|exact L].
Qed.
Print Assumptions C234_duration.
Theorem C234_checks z vel f p dt rel dampl : (exists r, displacement z vel f p dt rel dampl = Ok r) <-> dt <> 0 /\ 0 < rel /\ 0 <= dampl <= 1.
Proof.
  split.
  - intros [r H]. apply displacement_ok in H. tauto.
  - intros (A & B & C). eexists. apply displacement_ok. repeat split; try assumption; try apply C.
Qed.
Print Assumptions C234_checks.
Example C234_example : displacement long_zone (fun _ => (1, 0)) 2 (1, 0) 3 1 (/ 2) = Ok (Some (aim (1, 0) (1, 0) 3, false)).
Proof. apply (uniform_exact long_zone _ (1, 0) (fun _ => eq_refl) 0); try lra; unfold within, aim, vadd, vscale, long_zone; cbn; lra. Qed.

(** ** C235 *)
Theorem C235_affine vel w l reverse p h : affine vel w l ->
  new_xy vel reverse p h = vadd p (series (oriented reverse l) [h; h ^ 2 / 2; h ^ 3 / 6; h ^ 4 / 24; h ^ 5 / 104] (speed vel reverse p)).
Proof. intro A. exact (new_affine w l vel reverse A p h). Qed.
Print Assumptions C235_affine.
Theorem C235_reverse z vel f p dt rel d : 0 < dt -> displacement z vel f p (- dt) rel d = displacement z (fun q => vscale (-1) (vel q)) f p dt rel d.
Proof.
  intro T. unfold displacement. rewrite Rabs_Ropp. destruct (Req_EM_T (- dt) 0); [lra|]. destruct (Req_EM_T dt 0); [lra|]. destruct (Rlt_dec (- dt) 0); [|lra]. destruct (Rlt_dec dt 0); [lra|]. reflexivity.
Qed.
Print Assumptions C235_reverse.
Example C235_example : affine (fun p => (- snd p, fst p)) (0, 0) (mkm 0 (-1) 1 0).
Proof. intro p. unfold apply. vec_tac; cbn; ring. Qed.

(** ** C236 *)
Theorem C236_uniform z vel c f p dt rel d : (forall p, vel p = c) -> 0 < hx z -> dt <> 0 -> 0 < rel -> 0 <= d < 1 -> within z p -> within z (vadd p (vscale dt c)) ->
  displacement z vel (S (S f)) p dt rel d = Ok (Some (vadd p (vscale dt c), false)).
Proof. intro U. exact (uniform_exact z vel c U f p dt rel d). Qed.
Print Assumptions C236_uniform.
Example C236_example : 0 < hx long_zone /\ within long_zone (1, 0) /\ within long_zone (vadd (1, 0) (vscale 3 (2, / 4))).
Proof. unfold within, vadd, vscale, long_zone. cbn. lra. Qed.

(** ** C237 *)
Theorem C237_ends z vel p dt rel d E : 0 < hx z -> dt <> 0 -> 0 < rel -> 0 <= d < 1 ->
  (forall q h, within z q -> 0 < h <= Rabs dt -> move vel (backward dt) q h <> 0 /\ gap vel (backward dt) q h <= E * move vel (backward dt) q h) ->
  exists f r, displacement z vel f p dt rel d = Ok (Some r).
Proof. exact (displacement_ends z vel p dt rel d E). Qed.
Print Assumptions C237_ends.
(** a flow that is faster and faster along x *)
Definition faster (p : vec) : vec := (fst p, 0).
Lemma faster_affine : affine faster (0, 0) (mkm 1 0 0 0).
Proof. intro p. unfold apply, faster. vec_tac; cbn; ring. Qed.
Example C237_example : let z := mkzone 1 5 0 1 (/ 10) in
  forall q h, within z q -> 0 < h <= Rabs 1 -> move faster (backward 1) q h <> 0 /\ gap faster (backward 1) q h <= 1 * move faster (backward 1) q h.
Proof.
  cbn. intros q h [W _] H. cbn in W. rewrite Rabs_R1 in H. assert (B : backward 1 = false) by (unfold backward; destruct (Rlt_dec 1 0); [lra|reflexivity]). rewrite B.
  unfold move, gap. rewrite (new_affine _ _ _ false faster_affine), (best_affine _ _ _ false faster_affine). unfold series, apply, oriented, speed, faster, vadd, vsub, vscale. cbn [fst snd ma mb mc md].
  set (x := fst q) in *. 
  assert (A : forall a b, b = 0 -> vnorm (a, b) = Rabs a).
  { intros a b ->. unfold vnorm. cbn [fst snd]. replace (a ^ 2 + 0 ^ 2) with (Rsqr a) by (unfold Rsqr; ring). apply sqrt_Rsqr_abs. }
  rewrite !A by ring.
  assert (h2 : 0 < h ^ 2 <= 1) by (split; nra). assert (h3 : 0 < h ^ 3 <= 1) by (split; nra). assert (h4 : 0 < h ^ 4 <= 1) by (split; nra).
  assert (h5 : 0 < h ^ 5 <= h) by (split; nra). assert (h6 : 0 < h ^ 6 <= h) by (split; nra).
  match goal with |- Rabs ?a <> 0 /\ _ => assert (M : x * h <= a) by (assert (0 <= x * h ^ 2) by nra; assert (0 <= x * h ^ 3) by nra; assert (0 <= x * h ^ 4) by nra; assert (0 <= x * h ^ 5) by nra; lra) end.
  assert (0 < x * h) by nra. rewrite (Rabs_right _) by lra. split; [lra|].
  match goal with |- Rabs ?a <= _ => replace a with (x * (h ^ 6 / 2080 - h ^ 5 / 780)) by field end.
  apply Rabs_le. assert (x * h ^ 5 <= x * h) by nra. assert (x * h ^ 6 <= x * h) by nra. assert (0 <= x * h ^ 5) by nra. assert (0 <= x * h ^ 6) by nra. split; lra.
Qed.

(** ** C238 *)
Theorem C238_dampl_one_refuted z vel c f p dt rel h : (forall p, vel p = c) -> 0 < hx z -> 0 < rel -> c <> (0, 0) -> h * vnorm c = hx z -> h <= Rabs dt ->
  within z p -> within z (vadd p (vscale (h * (if backward dt then -1 else 1)) c)) -> displacement z vel f p dt rel 1 = Ok None.
Proof. intro U. exact (uniform_hangs z vel c U f p dt rel h). Qed.
Print Assumptions C238_dampl_one_refuted.
Example C238_example : forall f, displacement long_zone (fun _ => (1, 0)) f (1, 0) 3 1 1 = Ok None.
Proof.
  intro f. assert (B : backward 3 = false) by (unfold backward; destruct (Rlt_dec 3 0); [lra|reflexivity]).
  apply (uniform_hangs long_zone _ (1, 0) (fun _ => eq_refl) f (1, 0) 3 1 1).
  - cbn. lra.
  - lra.
  - intro E. injection E as E. lra.
  - unfold vnorm. cbn. replace (1 * (1 * 1) + 0 * (0 * 1)) with 1 by ring. rewrite sqrt_1. ring.
  - rewrite Rabs_right; lra.
  - unfold within, long_zone. cbn. lra.
  - rewrite B. unfold within, long_zone, vadd, vscale, sgn. cbn. lra.
Qed.

(** ** C239 *)
Theorem C239_rel_err_refuted f rel d : 0 < rel -> 0 <= d <= 1 ->
  exists q, displacement long_zone squares (S f) (1, 0) (9 / 10) rel d = Ok (Some (q, false)) /\ fst q < 72 / 10
  /\ (forall t, t < 1 -> derivable_pt_lim (fun t => / (1 - t)) t (fst (squares (/ (1 - t), 0)))) /\ / (1 - 0) = 1 /\ / (1 - 9 / 10) = 10.
Proof.
  intros A B. destruct (inaccurate f rel d A B) as (q & Q & L). exists q. split; [exact Q|]. split; [exact L|]. split; [exact squares_solution|]. split; field.
Qed.
Print Assumptions C239_rel_err_refuted.
Example C239_example : 0 < / 100000 /\ 0 <= / 2 <= 1.
Proof. lra. Qed.

(** ** C240 *)
Theorem C240_points z rx ry i j : let (xs, ys) := points z rx ry in (i < length xs)%nat -> (j < length ys)%nat ->
  (nth i xs 0, nth j ys 0) = grid_point z (delta (spacing z rx ry)) i j.
Proof. exact (points_nth z rx ry i j). Qed.
Print Assumptions C240_points.
Theorem C240_number z rx ry k : regular z rx ry -> let d := delta (spacing z rx ry) in
  ((k < length (fst (points z rx ry)))%nat <-> x0 z + d / 2 + INR k * d < x1 z) /\ ((k < length (snd (points z rx ry)))%nat <-> y0 z + d / 2 + INR k * d < y1 z).
Proof. intros Rg d. destruct (spacing_pos z rx ry Rg) as [D _]. apply delta_pos in D. split; apply arange_length; exact D. Qed.
Print Assumptions C240_number.
Theorem C240_inside z rx ry x y : regular z rx ry -> In x (fst (points z rx ry)) -> In y (snd (points z rx ry)) -> x0 z < x < x1 z /\ y0 z < y < y1 z.
Proof. exact (points_inside z rx ry x y). Qed.
Print Assumptions C240_inside.
Example C240_example : regular long_zone 10 3.
Proof. unfold regular, long_zone. cbn. lra. Qed.

(** ** C241 *)
Theorem C241_rest_refuted z rx ry dt rel d moved i j r s : regular z rx ry -> 0 < hx z -> 0 < rel -> 0 <= d < 1 -> dt <> 0 -> spacing z rx ry = (s, s) ->
  displaced z (fun _ => (0, 0)) rx ry dt rel d moved -> get_ftle z rx ry moved dt i j = Ok r -> (i < length (fst (points z rx ry)))%nat -> (j < length (snd (points z rx ry)))%nat ->
  r = Some (- ln 2 / 2 / Rabs dt) /\ - ln 2 / 2 / Rabs dt < 0.
Proof.
  intros Rg H Rl D T S Mv G I J. rewrite (ftle_rest z rx ry dt rel d moved i j r Rg H Rl D T Mv G I J). destruct (spacing_pos z rx ry Rg) as [X _]. rewrite S in *. cbn [fst snd] in *.
  assert (E : Rmin s s = s) by (unfold Rmin; destruct (Rle_dec s s); reflexivity). rewrite E, ln_half_sqrt by exact X.
  assert (A : 0 < Rabs dt) by (apply Rabs_pos_lt; exact T). split; [f_equal; field; lra|].
  assert (0 < ln 2) by (rewrite <- ln_1; apply ln_increasing; lra). assert (0 < ln 2 / 2 / Rabs dt) by (apply Rdiv_lt_0_compat; lra). replace (- ln 2 / 2 / Rabs dt) with (- (ln 2 / 2 / Rabs dt)) by (field; lra). lra.
Qed.
Print Assumptions C241_rest_refuted.
Theorem C241_rest_partial z rx ry dt rel d moved i j r : regular z rx ry -> 0 < hx z -> 0 < rel -> 0 <= d < 1 -> dt <> 0 ->
  displaced z (fun _ => (0, 0)) rx ry dt rel d moved -> get_ftle z rx ry moved dt i j = Ok r -> (i < length (fst (points z rx ry)))%nat -> (j < length (snd (points z rx ry)))%nat ->
  r = Some (/ Rabs dt * ln (delta (spacing z rx ry) / Rmin (fst (spacing z rx ry)) (snd (spacing z rx ry)))).
Proof. exact (ftle_rest z rx ry dt rel d moved i j r). Qed.
Print Assumptions C241_rest_partial.
Definition square_zone : zone := mkzone 0 4 0 4 1.
Example C241_example : exists moved, regular square_zone 3 3 /\ spacing square_zone 3 3 = (1, 1) /\ displaced square_zone (fun _ => (0, 0)) 3 3 1 1 (/ 2) moved
  /\ exists r, get_ftle square_zone 3 3 moved 1 0 0 = Ok r.
Proof.
  assert (Rg : regular square_zone 3 3) by (unfold regular, square_zone; cbn; lra).
  exists (fun i j => Some (nth i (fst (points square_zone 3 3)) 0, nth j (snd (points square_zone 3 3)) 0)). split; [exact Rg|].
  assert (S : spacing square_zone 3 3 = (1, 1)) by (unfold spacing, square_zone; cbn; f_equal; field). split; [exact S|]. split.
  - intros i j I J. exists 2%nat. unfold moved_point.
    pose proof (points_inside square_zone 3 3 _ _ Rg (nth_In _ 0 I) (nth_In _ 0 J)) as W.
    rewrite (uniform_exact square_zone _ (0, 0) (fun _ => eq_refl) 0); try (cbn [hx square_zone]; lra).
    + cbn. do 3 f_equal. unfold aim. vec_tac; ring.
    + unfold within. cbn [fst snd]. lra.
    + unfold within, aim, vadd, vscale. cbn [fst snd]. lra.
  - eexists. apply get_ftle_ok. split; [|split; [|reflexivity]].
    all: assert (D : 0 < delta (1, 1)) by (apply delta_pos; cbn; lra); assert (D1 : delta (1, 1) <= 1)
      by (unfold delta; cbn; replace (1 * (1 * 1) + 1 * (1 * 1)) with 2 by ring; assert (sqrt 2 <= sqrt 4) by (apply sqrt_le_1_alt; lra); replace 4 with (2 * 2) in * by ring; rewrite sqrt_square in * by lra; lra).
    + apply (C240_number square_zone 3 3 1 Rg). rewrite S. cbn. lra.
    + apply (C240_number square_zone 3 3 1 Rg). rewrite S. cbn. lra.
Qed.

(** ** C242 *)
Theorem C242_shift z rx ry moved dt i j s a b : regular z rx ry -> spacing z rx ry = (s, s) ->
  let n := length (fst (points z rx ry)) in let m := length (snd (points z rx ry)) in let d := delta (spacing z rx ry) in
  (2 <= n)%nat -> (2 <= m)%nat -> along_x n moved d i j = Some a -> along_y m moved d i j = Some b -> a <> (0, 0) \/ b <> (0, 0) ->
  exists r, exponent n m moved d d dt i j = Some r /\ get_ftle z rx ry moved dt i j = Ok (Some (r - ln 2 / 2 / Rabs dt)).
Proof.
  intros Rg S n m d N M X Y K. destruct (spacing_pos z rx ry Rg) as [P _]. pose proof (delta_pos _ P) as D. rewrite S in P. cbn in P.
  destruct (exponent_shift n m moved d s dt i j a b D P X Y K) as (r & E1 & E2). exists r. split; [exact E1|].
  apply get_ftle_ok. split; [exact N|]. split; [exact M|]. rewrite S. cbn [fst snd]. fold n m. rewrite E2. f_equal. unfold d. rewrite S, ln_half_sqrt by exact P. unfold Rdiv. ring.
Qed.
Print Assumptions C242_shift.
Theorem C242_masks z rx ry moved dt i j : let n := length (fst (points z rx ry)) in let m := length (snd (points z rx ry)) in let d := delta (spacing z rx ry) in
  (2 <= n)%nat -> (2 <= m)%nat -> (get_ftle z rx ry moved dt i j = Ok None <-> exponent n m moved d d dt i j = None).
Proof.
  intros n m d N M. rewrite get_ftle_ok. fold n m. split.
  - intros (_ & _ & E). symmetry in E. exact (proj1 (exponent_masked n m moved _ _ d d dt i j) E).
  - intro E. split; [exact N|]. split; [exact M|]. symmetry. exact (proj1 (exponent_masked n m moved d d _ _ dt i j) E).
Qed.
Print Assumptions C242_masks.
Theorem C242_linear n m moved z d w l dt i j : 0 < d -> (2 <= n)%nat -> (2 <= m)%nat ->
  (forall i j, (i < n)%nat -> (j < m)%nat -> moved i j = Some (vadd w (apply l (grid_point z d i j)))) -> (i < n)%nat -> (j < m)%nat ->
  exists s, greatest_stretch2 (ma l, mc l) (mb l, md l) s /\ exponent n m moved d d dt i j = Some (/ Rabs dt * ln (sqrt s)).
Proof.
  intros D N M L I J. exists (top_eigenvalue (ma l, mc l) (mb l, md l)). split; [apply top_greatest|].
  rewrite (exponent_linear n m moved z d w l D N M L) by assumption. replace (d / d) with 1 by (field; lra). do 5 f_equal; vec_tac; ring.
Qed.
Print Assumptions C242_linear.
Example C242_example : greatest_stretch2 (2, 0) (0, 1) 4.
Proof. replace 4 with (top_eigenvalue (2, 0) (0, 1)) by (rewrite top_diag by lra; ring). apply top_greatest. Qed.
