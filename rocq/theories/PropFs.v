(** * PropFs: the boundary layer of Falkner and Skan (C287 to C293). *)
From Coq Require Import Reals List Bool ZArith Lra Lia.
From Verif Require Import Res LayModel LaySpec LayProofs LayProofs2 FsModel FsSpec FsProofs FsProofs2.
Import ListNotations.
#[local] Open Scope R_scope.

Definition ex_fs : fskan := mkfs 1e-6 (1 / 3) 0.1 1.
Example fs_example : fs_physical ex_fs. Proof. repeat split; cbn; lra. Qed.

(** C287: get_mu and get_y are inverse of each other.  Refuted: they are so for m = 1 only. *)
Theorem C287_inverse_refuted : exists f x mu, fs_physical f /\ 0 < x /\ get_mu f x (get_y f x mu) <> mu.
Proof.
  exists (mkfs 1 0 1 1), 1, 1. assert (P : fs_physical (mkfs 1 0 1 1)) by (repeat split; cbn; lra). split; [exact P|]. split; [lra|].
  rewrite (mu_of_y _ P) by lra. cbn [f_m]. intro E. assert (Z : sqrt ((0 + 1) / 2) * sqrt ((0 + 1) / 2) = (0 + 1) / 2) by (apply sqrt_def; lra).
  rewrite Rmult_1_l in E. rewrite E in Z. lra.
Qed.
Print Assumptions C287_inverse_refuted.
(** what holds: a constant factor between the two, which is 1 when m = 1 *)
Theorem C287_inverse_partial f x mu : fs_physical f -> 0 < x -> get_mu f x (get_y f x mu) = mu * sqrt ((f_m f + 1) / 2).
Proof. intros P X. exact (mu_of_y f P x mu X). Qed.
Print Assumptions C287_inverse_partial.
Theorem C287_stagnation_partial f x mu : fs_physical f -> f_m f = 1 -> 0 < x -> get_mu f x (get_y f x mu) = mu.
Proof. intros P M X. rewrite (mu_of_y f P x mu X), M. replace ((1 + 1) / 2) with 1 by field. rewrite sqrt_1. ring. Qed.
Print Assumptions C287_stagnation_partial.

(** C288: the layer thickens downstream for m < 1, keeps its thickness for m = 1 and becomes thinner for m > 1. *)
Theorem C288_growth f x y mu : fs_physical f -> 0 < mu -> 0 < x < y ->
  (f_m f < 1 -> get_y f x mu < get_y f y mu) /\ (f_m f = 1 -> get_y f x mu = get_y f y mu) /\ (1 < f_m f -> get_y f y mu < get_y f x mu).
Proof. intros P. exact (y_growth f P x y mu). Qed.
Print Assumptions C288_growth.

(** C289: the two values of f''(0) the search starts from are guesses that have been integrated, and the values of f'(10) are on both sides of
    1 as soon as the integrated guesses are. *)
Theorem C289_guesses asort gs b : first_interval asort gs = Ok b ->
  (exists y2, In (a3 b, Some (a1 b, y2)) gs) /\ (exists y2, In (b3 b, Some (b1 b, y2)) gs) /\
  ((exists g h g1 h1 g2 h2, In (g, Some (g1, g2)) gs /\ In (h, Some (h1, h2)) gs /\ g1 < 1 /\ 1 < h1) -> straddles b).
Proof.
  intros E. destruct (first_ok asort gs b E) as [[A B] C]. split; [exact A|]. split; [exact B|]. intros (g & h & g1 & h1 & g2 & h2 & I1 & I2 & L1 & L2). apply C.
  assert (K : forall y3 y1 y2, In (y3, Some (y1, y2)) gs -> In (y3, y1, y2) (known gs)).
  { clear. intros y3 y1 y2. induction gs as [|[z [[z1 z2]|]] gs IH]; cbn; intros H; [destruct H| |].
    - destruct H as [H|H]; [injection H as -> -> ->; left; reflexivity|right; exact (IH H)].
    - destruct H as [H|H]; [discriminate H|exact (IH H)]. }
  exists (g, g1, g2), (h, h1, h2). split; [exact (K _ _ _ I1)|]. split; [exact (K _ _ _ I2)|]. split; assumption.
Qed.
Print Assumptions C289_guesses.
Definition ex_gs : list (R * option (R * R)) := [(0, None); (1, Some (1 / 2, -1)); (2, Some (2, 1)); (3, None)].
Example C289_example : first_interval (fun _ => []) ex_gs = Ok (mkint 1 2 (1 / 2) 2).
Proof.
  unfold first_interval, ex_gs. cbn [known map g_y1 g_y2 fst snd rmin rmax changes]. rewrite Rmin_left, Rmax_right by lra. rewrite !ltb_t by lra. reflexivity.
Qed.

(** C290: a start is found whenever guesses lie on both sides of 1.  Refuted: IndexError when f''(10) does not change sign at the same place. *)
Theorem C290_start_refuted asort : exists gs g h g1 h1 g2 h2, In (g, Some (g1, g2)) gs /\ In (h, Some (h1, h2)) gs /\ g1 < 1 /\ 1 < h1 /\
  first_interval asort gs = Err IndexErr.
Proof.
  exists [(1, Some (1 / 2, 1)); (2, Some (2, 1))], 1, 2, (1 / 2), 2, 1, 1. split; [left; reflexivity|]. split; [right; left; reflexivity|]. split; [lra|]. split; [lra|].
  unfold first_interval. cbn [known map g_y1 g_y2 fst snd rmin rmax changes]. rewrite Rmin_left, Rmax_right by lra. rewrite !ltb_t by lra. rewrite ltb_f by lra. reflexivity.
Qed.
Print Assumptions C290_start_refuted.
(** when no guess is above 1 (or none below), and the nearest to 1 is the first or the last one, the search is refused *)
Theorem C290_refused_partial asort gs i rest : (forall g g1 g2, In (g, Some (g1, g2)) gs -> g1 < 1) ->
  asort (map Rabs (map (fun g => g_y1 g - 1) (known gs))) = i :: rest -> i = 0%nat \/ i = (length (known gs) - 1)%nat -> known gs <> [] ->
  first_interval asort gs = Err GenericErr.
Proof.
  intros B A I N. unfold first_interval. destruct (map (fun g => g_y1 g - 1) (known gs)) as [|r0 rs] eqn:E; [destruct (known gs); [contradiction|discriminate E]|].
  assert (NEG : forall x, In x (r0 :: rs) -> x < 0).
  { intros x Hx. rewrite <- E in Hx. apply in_map_iff in Hx as (g & <- & Hg). apply known_in in Hg. specialize (B _ _ _ Hg). lra. }
  assert (MX : rmax r0 rs < 0).
  { assert (T : forall l a, a < 0 -> (forall x, In x l -> x < 0) -> rmax a l < 0).
    { clear. induction l as [|x l IH]; intros a Ha Hl; [exact Ha|]. cbn. apply IH; [apply Rmax_lub_lt; [exact Ha|apply Hl; left; reflexivity]|intros z Hz; apply Hl; right; exact Hz]. }
    apply T; [apply NEG; left; reflexivity|intros x Hx; apply NEG; right; exact Hx]. }
  assert (MN : rmin r0 rs < 0) by (destruct (rmin_le r0 rs) as [M _]; specialize (NEG r0 (or_introl eq_refl)); lra).
  rewrite ltb_f by nra. rewrite A. destruct I as [->| ->]; [reflexivity|]. rewrite Nat.eqb_refl, orb_true_r. reflexivity.
Qed.
Print Assumptions C290_refused_partial.
Example C290_example : exists gs, known gs <> [] /\ forall g g1 g2, In (g, Some (g1, g2)) gs -> g1 < 1.
Proof. exists [(1, Some (0, 0))]. split; [discriminate|]. intros g g1 g2 [H|[]]. injection H as <- <- <-. lra. Qed.

(** C291: the shooting method ends, after at most max_it + 2 integrations.  From two values on both sides of 1, its answer lies between the
    extreme values and is one end of a pair of values that have been integrated and have f'(10) on both sides of 1 (or one equal to 1); it is
    an error only when an integration fails or gives f'(10) = -1. *)
Theorem C291_shooting shoot relerr max_it verbose lo hi b : -1000 <= lo -> hi <= 1000 ->
  inside lo hi (a3 b) -> inside lo hi (b3 b) -> tried shoot b -> straddles b ->
  (exists y n, shoot_y3 shoot relerr max_it verbose b = Ok (y, n) /\ (1 <= n <= max_it + 2)%nat /\ inside lo hi y /\
     exists v z w, shoot y = Some v /\ inside lo hi z /\ shoot z = Some w /\ (v - 1) * (w - 1) <= 0) \/
  (shoot_y3 shoot relerr max_it verbose b = Err GenericErr /\ exists z, inside lo hi z /\ (shoot z = None \/ shoot z = Some (-1))).
Proof.
  intros HL HH A B T S. destruct (shoot_ok shoot relerr max_it verbose lo hi b HL HH S (conj A B) T) as [(y & n & E & [I V] & N)|E]; [left|right; exact E].
  exists y, n. split; [exact E|]. split; [exact N|]. split; [exact I|exact V].
Qed.
Print Assumptions C291_shooting.
(** from any interval, it ends *)
Theorem C291_ends shoot relerr max_it verbose b : shoot_y3 shoot relerr max_it verbose b <> Err OutOfFuel.
Proof.
  unfold shoot_y3. assert (G : forall k b mid it s, (max_it + 2 <= k + it)%nat -> (it <= S max_it)%nat -> shooting shoot relerr max_it verbose k b mid it s <> Err OutOfFuel).
  { induction k as [|k IH]; intros b' mid it s F I; [lia|]. cbn [shooting]. unfold next_mid. destruct (eqb (Rabs (1 - b1 b') + Rabs (1 - a1 b')) 0); [discriminate|]. cbn [guard bind].
    set (nm := _ / _). destruct (ltb (Rabs (nm - mid)) 1e-10); [discriminate|]. destruct (shoot nm); [|discriminate]. destruct (eqb _ 0); [discriminate|]. cbn [guard].
    destruct (Nat.ltb_spec max_it it); [discriminate|]. destruct (_ && verbose)%bool; [discriminate|]. apply IH; lia. }
  apply G; lia.
Qed.
Print Assumptions C291_ends.
Example C291_example : tried ex_shoot ex_int /\ straddles ex_int /\ shoot_y3 ex_shoot 1 0 true ex_int = Ok (1, 1%nat).
Proof.
  split; [split; cbn; unfold ex_shoot; f_equal; field|]. split; [unfold straddles; cbn; lra|]. exact ex_verbose.
Qed.

(** C292: 'verbose' only changes what is displayed.  Refuted: the break on convergence is under 'if verbose'; without it the search goes on
    after the required precision is reached, and gives another answer. *)
Theorem C292_verbose_refuted : exists shoot relerr max_it b y n y' n', tried shoot b /\ straddles b /\
  shoot_y3 shoot relerr max_it true b = Ok (y, n) /\ shoot_y3 shoot relerr max_it false b = Ok (y', n') /\ y <> y' /\ (n < n')%nat.
Proof.
  exists ex_shoot, 1, 0%nat, ex_int, 1, 1%nat, (4 / 3), 2%nat. destruct C291_example as (T & S & E). split; [exact T|]. split; [exact S|]. split; [exact E|]. split; [exact ex_silent|]. split; [lra|lia].
Qed.
Print Assumptions C292_verbose_refuted.
(** what holds with verbose=True: the search stops on the precision asked, on a value that does not move any more, or after max_it + 2
    integrations *)
Theorem C292_verbose_partial shoot relerr max_it b y n : shoot_y3 shoot relerr max_it true b = Ok (y, n) ->
  (exists v, shoot y = Some v /\ Rabs ((v - 1) / ((v + 1) / 2)) < relerr) \/
  (exists b' nm, next_mid b' = Ok nm /\ Rabs (nm - y) < 1e-10) \/ (max_it + 2 <= n)%nat.
Proof.
  intros E. destruct (verbose_end shoot relerr max_it _ _ _ _ _ _ _ (Nat.le_0_l _) E) as [H|[H|H]]; [left; exact H|right; left; exact H|right; right; lia].
Qed.
Print Assumptions C292_verbose_partial.

(** C293: the profiles are those of a flow that satisfies the boundary layer equations of Prandtl, for the external velocity get_u_e: with an
    exact integration of the equation, get_profile(x) gives the heights and velocities of a flow (u, v) that conserves mass and momentum at
    every x > 0 and y, and that is null at the wall when f = f' = 0 there. *)
Theorem C293_prandtl f odeint y3 F G H : fs_physical f -> fs_solution f F G H -> fs_odeint_ok odeint f y3 (fun t => (F t, G t, H t)) ->
  exists u v ue', (forall x, 0 < x -> derivable_pt_lim (get_u_e f) x (ue' x)) /\
    (forall x y, 0 < x -> prandtl (f_nu f) (get_u_e f x) (ue' x) u v x y) /\
    (forall x, 0 < x -> Forall (fun p => snd p = u x (fst p)) (fs_profile odeint f y3 x) /\ length (fs_profile odeint f y3 x) = 100%nat /\
       map fst (fs_profile odeint f y3 x) = map (get_y f x) mus) /\
    (F 0 = 0 -> G 0 = 0 -> forall x, 0 < x -> u x 0 = 0 /\ v x 0 = 0 /\ hd_error (fs_profile odeint f y3 x) = Some (0, 0)).
Proof.
  intros P S O. exists (u_of f G), (v_of f F G), (fun x => f_m f / x * get_u_e f x).
  split; [intros x X; exact (u_e_deriv f P x X)|]. split; [intros x y X; exact (prandtl_ok f P F G H S x y X)|].
  split; [intros x X|intros F0 G0 x X; split; [exact (u_wall f G x G0)|split; [exact (v_wall f F G x F0)|]]]; rewrite (profile_u f P F G H odeint y3 x X O); [split; [|split]|].
  - apply Forall_forall. intros p Hp. apply in_map_iff in Hp as (mu & <- & _). reflexivity.
  - rewrite map_length. unfold mus. rewrite map_length, seq_length. reflexivity.
  - rewrite map_map. reflexivity.
  - assert (E : mus = 0 :: tl mus) by (unfold mus; cbn [seq map tl]; f_equal; cbn; field). rewrite E. cbn [map hd_error]. assert (Y : get_y f x 0 = 0) by (unfold get_y; ring).
    rewrite Y, (u_wall f G x G0). reflexivity.
Qed.
Print Assumptions C293_prandtl.
(** two solutions known in closed form: the external flow, for every m, and the fluid at rest, for m = 0 *)
Example C293_example f : fs_solution f (fun t => t) (fun _ => 1) (fun _ => 0).
Proof.
  intros t. split; [apply derivable_pt_lim_id|]. replace (- (f_m f + 1) / 2 * t * 0 - f_m f * (1 - 1 ^ 2)) with 0 by field. split; apply derivable_pt_lim_const.
Qed.
Example C293_example_wall : fs_physical (mkfs 1 0 1 1) /\ fs_solution (mkfs 1 0 1 1) (fun _ => 0) (fun _ => 0) (fun _ => 0) /\
  fs_odeint_ok (fun _ _ l => map (fun _ => (0, 0, 0)) l) (mkfs 1 0 1 1) 0 (fun _ => (0, 0, 0)).
Proof.
  split; [repeat split; cbn; lra|]. split; [|intros d t0 r _; reflexivity]. intros t. cbn [f_m].
  replace (- (0 + 1) / 2 * 0 * 0 - 0 * (1 - 0 ^ 2)) with 0 by field. repeat split; apply derivable_pt_lim_const.
Qed.
