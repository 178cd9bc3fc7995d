(** * LayProofs2: confinement, profiles of Blasius and the layer of Thwaites. *)
From Coq Require Import Reals List Bool ZArith Lra Lia FunctionalExtensionality.
From Verif Require Import Res LayModel LaySpec LayProofs.
Import ListNotations.
#[local] Open Scope R_scope.

Lemma combine_nth_error {A B} (l : list A) (r : list B) i : nth_error (combine l r) i = match nth_error l i, nth_error r i with Some a, Some b => Some (a, b) | _, _ => None end.
Proof.
  revert r i. induction l as [|a l IH]; intros [|c r] [|i]; cbn; try reflexivity; [destruct (nth_error l i); reflexivity|apply IH].
Qed.
Lemma confined b xs h turb ls : get_BL_properties b xs turb P99 = Ok ls ->
  with_confinement b xs h turb = Ok (combine xs (map (fun l => delta l * (1 - 0.26547 * delta l / h)) ls)).
Proof. intros E. unfold with_confinement. rewrite E. reflexivity. Qed.
Lemma confined_bounds d h : 0 < h -> 0 <= d <= h -> (1 - 0.26547) * d <= d * (1 - 0.26547 * d / h) <= d.
Proof.
  intros H [D L]. assert (E : 0 <= d / h <= 1).
  { split; [apply Rmult_le_pos; [exact D|left; apply Rinv_0_lt_compat; exact H]|]. apply (Rmult_le_reg_r h); [exact H|]. unfold Rdiv. rewrite Rmult_assoc, Rinv_l by lra. lra. }
  replace (0.26547 * d / h) with (0.26547 * (d / h)) by (unfold Rdiv; ring). nra.
Qed.

Section Prof.
Context (odeint : (state -> state) -> state -> list R -> list state) (Phi : R -> state) (OK : odeint_ok odeint Phi) (b : blasius) (PH : physical b).
Definition len (x : R) : R := sqrt x * sqrt (nu b / Uinf b).
Lemma len_pos x : 0 < x -> 0 < len x.
Proof. intros X. destruct PH as [HU Hn]. apply Rmult_lt_0_compat; apply sqrt_lt_R0; [exact X|apply Rdiv_lt_0_compat; assumption]. Qed.
Lemma combine_self {A B} (f : A -> B) l : combine l (map f l) = map (fun a => (a, f a)) l.
Proof. induction l as [|a l IH]; [reflexivity|]. cbn. rewrite IH. reflexivity. Qed.
Lemma profile_run x y0 r : get_profile odeint b x (y0 :: r) false =
  Ok (map (fun v => (v, snd (fst (Phi (v / len x - y0 / len x))) * Uinf b)) (y0 :: r)).
Proof.
  unfold get_profile. fold (len x). cbn [map]. rewrite (OK f_deriv) by (intros ? ? ?; reflexivity). f_equal. change (y0 / len x :: map (fun v => v / len x) r) with (map (fun v => v / len x) (y0 :: r)).
  rewrite !map_map, combine_self. reflexivity.
Qed.
Lemma profile_wall x r : 
  get_profile odeint b x (0 :: r) false = Ok (map (fun v => (v, snd (fst (Phi (v / len x))) * Uinf b)) (0 :: r)).
Proof.
  rewrite profile_run. f_equal. apply map_ext. intros v. replace (v / len x - 0 / len x) with (v / len x) by (unfold Rdiv; ring). reflexivity.
Qed.
Lemma len_scale k x : 0 < k -> 0 < x -> len (k * x) = sqrt k * len x.
Proof. intros K X. unfold len. rewrite sqrt_mult by lra. ring. Qed.
Lemma profile_similar k x y0 r : 0 < k -> 0 < x -> exists us, 
  get_profile odeint b x (y0 :: r) false = Ok (combine (y0 :: r) us) /\ length us = length (y0 :: r) /\
  get_profile odeint b (k * x) (map (fun v => sqrt k * v) (y0 :: r)) false = Ok (combine (map (fun v => sqrt k * v) (y0 :: r)) us).
Proof.
  intros K X. exists (map (fun v => snd (fst (Phi (v / len x - y0 / len x))) * Uinf b) (y0 :: r)).
  split; [rewrite profile_run, combine_self; reflexivity|]. split; [apply map_length|].
  change (map (fun v => sqrt k * v) (y0 :: r)) with (sqrt k * y0 :: map (fun v => sqrt k * v) r) at 1. rewrite profile_run. f_equal.
  change (sqrt k * y0 :: map (fun v => sqrt k * v) r) with (map (fun v => sqrt k * v) (y0 :: r)). rewrite map_map.
  assert (E : forall v, sqrt k * v / len (k * x) = v / len x).
  { intros v. rewrite (len_scale k x K X). pose proof (len_pos x X). pose proof (sqrt_lt_R0 k K). field. split; lra. }
  set (l := y0 :: r). clearbody l. induction l as [|a l IH]; [reflexivity|]. cbn [map combine]. f_equal; [rewrite !E; reflexivity|exact IH].
Qed.
Lemma slip (W : from_wall Phi) x : 0 < x -> exists y1 u1, 0 < y1 /\ 0 < u1 /\
  get_profile odeint b x [0; y1] false = Ok [(0, 0); (y1, u1)] /\ get_profile odeint b x [y1] false = Ok [(y1, 0)].
Proof.
  intros X. destruct W as [W0 W1]. rewrite W0 in W1. cbn [snd] in W1. destruct (W1 0.1 ltac:(lra)) as [d Hd]. pose proof (cond_pos d) as D.
  pose proof (Hd (d / 2) ltac:(lra) ltac:(rewrite Rabs_right; lra)) as H. rewrite W0, Rplus_0_l in H. cbn [fst snd] in H. rewrite Rminus_0_r in H.
  assert (P : 0 < snd (fst (Phi (d / 2)))).
  { apply Rabs_def2 in H. destruct H as [_ H]. assert (0.2 < snd (fst (Phi (d / 2))) / (d / 2)) by lra.
    replace (snd (fst (Phi (d / 2)))) with (snd (fst (Phi (d / 2))) / (d / 2) * (d / 2)) by (field; lra). apply Rmult_lt_0_compat; lra. }
  pose proof (len_pos x X) as LP. destruct PH as [HU _]. exists (d / 2 * len x), (snd (fst (Phi (d / 2))) * Uinf b).
  split; [apply Rmult_lt_0_compat; lra|]. split; [apply Rmult_lt_0_compat; assumption|]. split.
  - rewrite profile_wall. cbn [map]. replace (d / 2 * len x / len x) with (d / 2 : R) by (field; lra). replace (0 / len x) with 0 by (unfold Rdiv; ring).
    rewrite W0. cbn [fst snd]. rewrite Rmult_0_l. reflexivity.
  - rewrite profile_run. cbn [map]. rewrite Rminus_diag_eq by reflexivity. rewrite W0. cbn [fst snd]. rewrite Rmult_0_l. reflexivity.
Qed.
End Prof.

(** ** Thwaites *)
Lemma pw_nonneg x a : 0 <= pw x a. Proof. unfold pw. destruct (Req_EM_T x 0); [lra|left; apply Rpower_pos]. Qed.
Lemma pw_half_sq x : 0 <= x -> pw x 0.5 ^ 2 = x. Proof. intros H. rewrite pw_half_sqrt by exact H. rewrite <- Rsqr_pow2. apply Rsqr_sqrt. exact H. Qed.
Lemma momentum_ok quad ue nu x F : 0 <= nu -> 0 <= x -> 0 < ue x -> F 0 <= F x ->
  quad_exact quad (fun t => pw (ue t) 4.68) 0 x -> (forall t, 0 <= t <= x -> derivable_pt_lim F t (pw (ue t) 4.68)) ->
  exists d, momentum quad ue nu x = Some d /\ 0 <= d /\ d ^ 2 * Rpower (ue x) 5.68 = 0.441 * nu * (F x - F 0).
Proof.
  intros N X P M Q D. unfold momentum. replace (5.68 - 1) with 4.68 by lra. rewrite (Q F D). rewrite (pw_pos _ _ P). pose proof (Rpower_pos (ue x) 5.68) as Z.
  rewrite eqb_f by lra. eexists. split; [reflexivity|]. split; [apply pw_nonneg|]. rewrite pw_half_sq.
  - field. lra.
  - apply Rmult_le_pos; [|lra]. apply Rmult_le_pos; [lra|left; apply Rinv_0_lt_compat; exact Z].
Qed.
Lemma increasing_prim (F f : R -> R) x : 0 <= x -> (forall t, 0 <= t <= x -> derivable_pt_lim F t (f t)) -> (forall t, 0 <= f t) -> F 0 <= F x.
Proof.
  intros X D P. destruct (Req_EM_T x 0) as [->|N]; [lra|]. destruct (MVT_cor2 F f 0 x ltac:(lra) D) as (c & E & _). pose proof (P c). nra.
Qed.
Lemma momentum_none quad ue nu x : ue x = 0 -> momentum quad ue nu x = None.
Proof. intros E. unfold momentum. rewrite E. assert (Z : pw 0 5.68 = 0) by (unfold pw; destruct (Req_EM_T 0 0); [reflexivity|contradiction]). rewrite Z, eqb_t. reflexivity. Qed.
Lemma momentum_const quad U nu x : 0 <= nu -> 0 <= x -> 0 < U -> quad_exact quad (fun _ => pw U 4.68) 0 x ->
  exists d, momentum quad (fun _ => U) nu x = Some d /\ 0 <= d /\ d ^ 2 * U = 0.441 * nu * x.
Proof.
  intros N X HU Q. destruct (momentum_ok quad (fun _ => U) nu x (fun t => pw U 4.68 * t) N X HU) as (d & E & D & S).
  - pose proof (pw_nonneg U 4.68). nra.
  - exact Q.
  - intros t _. pose proof (derivable_pt_lim_scal id (pw U 4.68) t 1 (derivable_pt_lim_id t)) as Z. rewrite Rmult_1_r in Z. exact Z.
  - exists d. split; [exact E|]. split; [exact D|]. rewrite (pw_pos _ _ HU) in S. replace 5.68 with (4.68 + 1) in S by lra. rewrite Rpower_plus, Rpower_1 in S by exact HU.
    pose proof (Rpower_pos U 4.68). apply (Rmult_eq_reg_l (Rpower U 4.68)); [|lra]. lra.
Qed.
Lemma gradient_len l g : np_gradient l = Ok g -> length g = length l.
Proof. unfold np_gradient. destruct (Nat.ltb (length l) 2); [discriminate|]. cbn [guard]. intros E. injection E as <-. rewrite map_length, seq_length. reflexivity. Qed.
Lemma gradient_lin h xs a c : le 2 (length xs) -> stepped h xs -> np_gradient (map (fun t => a + c * t) xs) = Ok (repeat (c * h) (length xs)).
Proof.
  intros L S. unfold np_gradient. rewrite map_length. assert (Nat.ltb (length xs) 2 = false) as -> by (apply Nat.ltb_ge; exact L). cbn [guard]. f_equal.
  set (ue := fun t => a + c * t). assert (V : forall i, lt i (length xs) -> nth i (map ue xs) 0 = ue (nth i xs 0)).
  { intros i Hi. rewrite (nth_indep _ 0 (ue 0)) by (rewrite map_length; exact Hi). apply map_nth. }
  assert (E : forall i, lt i (length xs) -> (if Nat.eqb i 0 then nth 1 (map ue xs) 0 - nth 0 (map ue xs) 0
      else if Nat.eqb i (length xs - 1) then nth i (map ue xs) 0 - nth (i - 1) (map ue xs) 0 else (nth (i + 1) (map ue xs) 0 - nth (i - 1) (map ue xs) 0) / 2) = c * h).
  { intros i Hi. destruct (Nat.eqb_spec i 0) as [->|N].
    - rewrite !V by lia. pose proof (S 0%nat ltac:(lia)) as S0. unfold ue. replace (a + c * nth 1 xs 0 - (a + c * nth 0 xs 0)) with (c * (nth 1 xs 0 - nth 0 xs 0)) by ring. rewrite S0. reflexivity.
    - destruct (Nat.eqb_spec i (length xs - 1)) as [E|E]; rewrite !V by lia; pose proof (S (i - 1)%nat ltac:(lia)) as S1; replace (Datatypes.S (i - 1)) with i in S1 by lia.
      + unfold ue. replace (a + c * nth i xs 0 - (a + c * nth (i - 1) xs 0)) with (c * (nth i xs 0 - nth (i - 1) xs 0)) by ring. rewrite S1. reflexivity.
      + pose proof (S i ltac:(lia)) as S2. replace (i + 1)%nat with (Datatypes.S i) by lia. unfold ue.
        replace ((a + c * nth (Datatypes.S i) xs 0 - (a + c * nth (i - 1) xs 0)) / 2) with (c * ((nth (Datatypes.S i) xs 0 - nth i xs 0) + (nth i xs 0 - nth (i - 1) xs 0)) / 2) by field. rewrite S1, S2. field. }
  assert (G : forall k s, (s + k <= length xs)%nat -> map (fun i => if Nat.eqb i 0 then nth 1 (map ue xs) 0 - nth 0 (map ue xs) 0
      else if Nat.eqb i (length xs - 1) then nth i (map ue xs) 0 - nth (i - 1) (map ue xs) 0 else (nth (i + 1) (map ue xs) 0 - nth (i - 1) (map ue xs) 0) / 2) (seq s k) = repeat (c * h) k).
  { induction k as [|k IH]; intros s Hs; [reflexivity|]. cbn [seq map repeat]. rewrite (E s) by lia. f_equal. apply IH. lia. }
  apply G. lia.
Qed.
Definition thw_at quad ue nu (x g : R) : thwaites :=
  let d2 := momentum quad ue nu x in
  let l := option_map (fun d => d ^ 2 / nu * g) d2 in
  let h := match l with Some v => h_factor v | None => None end in
  mkthw l d2 (match h, d2 with Some a, Some c => Some (a * c) | _, _ => None end) h.
Lemma combine_repeat {A B} (l : list A) (v : B) : combine l (repeat v (length l)) = map (fun a => (a, v)) l.
Proof. induction l as [|a l IH]; [reflexivity|]. cbn. rewrite IH. reflexivity. Qed.
Lemma thw_linear quad a c nu h xs : le 2 (length xs) -> stepped h xs ->
  thw_properties quad (fun t => a + c * t) nu xs = Ok (map (fun x => thw_at quad (fun t => a + c * t) nu x (c * h)) xs).
Proof.
  intros L S. unfold thw_properties. rewrite (gradient_lin h xs a c L S). cbn [bind]. rewrite combine_repeat, map_map. reflexivity.
Qed.
Lemma h_small l : 0 <= l < 0.1 -> h_factor l = Some (2.61 - 3.75 * l + 5.24 * l ^ 2).
Proof. intros [A B]. unfold h_factor. rewrite (ltb_f l 0) by lra. rewrite ltb_t by lra. reflexivity. Qed.
Lemma h_neg l : -0.1 < l < 0 -> h_factor l = Some (2.088 + 0.0731 / (l + 0.14)).
Proof. intros [A B]. unfold h_factor. rewrite (ltb_t l 0) by lra. cbn [negb andb]. rewrite ltb_t by lra. reflexivity. Qed.
Lemma h_out l : l <= -0.1 \/ 0.1 <= l -> h_factor l = None.
Proof.
  intros [A|A]; unfold h_factor.
  - rewrite (ltb_t l 0) by lra. cbn [negb andb]. rewrite ltb_f by lra. reflexivity.
  - rewrite (ltb_f l 0) by lra. rewrite (ltb_f l 0.1) by lra. reflexivity.
Qed.
Lemma h_range l v : h_factor l = Some v -> 2.2 < v < 4.
Proof.
  destruct (Rlt_dec l 0) as [N|N].
  - destruct (Rlt_dec (-0.1) l) as [M|M]; [|rewrite h_out by lra; discriminate]. rewrite h_neg by lra. intros E. injection E as <-.
    assert (H : 0 < / (l + 0.14)) by (apply Rinv_0_lt_compat; lra). assert (H2 : / (l + 0.14) * (l + 0.14) = 1) by (apply Rinv_l; lra). unfold Rdiv. split; nra.
  - destruct (Rlt_dec l 0.1) as [M|M]; [|rewrite h_out by lra; discriminate]. rewrite h_small by lra. intros E. injection E as <-. split; nra.
Qed.
Lemma thw_at_star quad ue nu x g : let t := thw_at quad ue nu x g in
  (forall d, t_delta2 t = Some d -> exists l, t_lambda t = Some l /\ t_H t = h_factor l /\ t_star t = option_map (fun h => h * d) (h_factor l)) /\
  (t_delta2 t = None -> t_star t = None).
Proof.
  cbv zeta. unfold thw_at. cbn. destruct (momentum quad ue nu x) as [d|]; cbn.
  - split; [|discriminate]. intros d' E. injection E as <-. eexists. split; [reflexivity|]. split; [reflexivity|]. destruct (h_factor _); reflexivity.
  - split; [discriminate|reflexivity].
Qed.
Lemma thw_run quad ue nu xs : le 2 (length xs) -> exists r, thw_properties quad ue nu xs = Ok r /\ length r = length xs /\
  forall i x, nth_error xs i = Some x -> exists g, nth_error r i = Some (thw_at quad ue nu x g).
Proof.
  intros L. unfold thw_properties. destruct (np_gradient (map ue xs)) as [g|] eqn:E.
  - cbn [bind]. eexists. split; [reflexivity|]. pose proof (gradient_len _ _ E) as LG. rewrite map_length in LG.
    split; [rewrite map_length, combine_length, LG; apply Nat.min_id|]. intros i x Hx. rewrite nth_error_map, combine_nth_error, Hx.
    destruct (nth_error g i) as [v|] eqn:Ev; [|exfalso; apply nth_error_None in Ev; assert (lt i (length xs)) by (apply nth_error_Some; congruence); lia].
    exists v. reflexivity.
  - exfalso. unfold np_gradient in E. rewrite map_length in E. assert (Nat.ltb (length xs) 2 = false) as Z by (apply Nat.ltb_ge; exact L). rewrite Z in E. discriminate E.
Qed.
(** a correct quad for the flow 1 + t *)
Definition prim (t : R) : R := Rpower (1 + t) 5.68 / 5.68.
Lemma prim_d t : 0 <= t -> derivable_pt_lim prim t (pw (1 + 1 * t) 4.68).
Proof.
  intros T. rewrite Rmult_1_l, pw_pos by lra. unfold prim.
  assert (E : (fun t => Rpower (1 + t) 5.68 / 5.68) = mult_real_fct (/ 5.68) (comp (fun x => Rpower x 5.68) (plus_fct (fct_cte 1) id))).
  { apply functional_extensionality. intros u. unfold mult_real_fct, comp, plus_fct, fct_cte, id, Rdiv. ring. }
  rewrite E. replace (Rpower (1 + t) 4.68) with (/ 5.68 * (5.68 * Rpower (1 + t) (5.68 - 1) * (0 + 1))).
  - apply derivable_pt_lim_scal. apply derivable_pt_lim_comp; [apply derivable_pt_lim_plus; [apply derivable_pt_lim_const|apply derivable_pt_lim_id]|].
    unfold plus_fct, fct_cte, id. apply derivable_pt_lim_power. lra.
  - replace (5.68 - 1) with 4.68 by lra. rewrite Rplus_0_l, Rmult_1_r, <- Rmult_assoc, Rinv_l by lra. ring.
Qed.
Lemma prim_unique (F G f : R -> R) a b : a <= b -> (forall t, a <= t <= b -> derivable_pt_lim F t (f t)) -> (forall t, a <= t <= b -> derivable_pt_lim G t (f t)) -> F b - F a = G b - G a.
Proof.
  intros AB DF DG. destruct (Req_EM_T a b) as [->|N]; [lra|]. destruct (MVT_cor2 (F - G)%F (fun t => f t - f t) a b ltac:(lra)) as (c & E & _).
  - intros t Ht. apply derivable_pt_lim_minus; [apply DF|apply DG]; exact Ht.
  - unfold minus_fct in E. replace (f c - f c) with 0 in E by ring. lra.
Qed.
Lemma quad_prim x : 0 <= x -> quad_exact (fun _ a b => prim b - prim a) (fun t => pw (1 + 1 * t) 4.68) 0 x.
Proof. intros X F D. apply (prim_unique prim F (fun t => pw (1 + 1 * t) 4.68) 0 x X); [|exact D]. intros t [T _]. apply prim_d. exact T. Qed.
Lemma prim_grow : prim 0 < prim 1.
Proof. unfold prim, Rdiv. apply Rmult_lt_compat_r; [lra|]. apply Rlt_Rpower_l; lra. Qed.
