(** * NormProofs: norms of fields *)
From Coq Require Import Reals Lra Qreals Permutation Lia.
From Verif Require Import Num Res ListLib Arr FieldModel ScalarFieldModel VectorFieldModel FieldSpec FieldProofs GradProofs VpropModel VpropSpec VpropProofs VpropProofs2 CriterionModel CriterionProofs2 NormModel NormSpec.
#[local] Open Scope R_scope.

(** ** roots *)
Lemma pow_mono_lt p : (1 <= p)%nat -> forall a b, 0 <= a -> a < b -> a ^ p < b ^ p.
Proof.
  intros P. induction p as [|p IH]; [lia|]. intros a b A L. destruct p as [|p]; [cbn; lra|].
  assert (X := IH ltac:(lia) a b A L). cbn [pow] in *. assert (Y := pow_le a p A). apply Rle_lt_trans with (b * (a * a ^ p)); [apply Rmult_le_compat_r; [apply Rmult_le_pos|]; lra|apply Rmult_lt_compat_l; lra].
Qed.
Lemma pow_inj p a b : (1 <= p)%nat -> 0 <= a -> 0 <= b -> a ^ p = b ^ p -> a = b.
Proof. intros P A B E. destruct (Rtotal_order a b) as [L|[L|L]]; [|exact L|]; [pose proof (pow_mono_lt p P a b A L)|pose proof (pow_mono_lt p P b a B L)]; lra. Qed.
Lemma pow_le_inv p a b : (1 <= p)%nat -> 0 <= a -> 0 <= b -> a ^ p <= b ^ p -> a <= b.
Proof. intros P A B E. destruct (Rle_lt_dec a b) as [|L]; [assumption|]. pose proof (pow_mono_lt p P b a B L). lra. Qed.
Lemma root_spec p s : (1 <= p)%nat -> 0 <= s -> 0 <= root p s /\ root p s ^ p = s.
Proof.
  intros P S0. unfold root. destruct (Rle_dec s 0) as [L|L].
  - split; [lra|]. rewrite pow_i by lia. lra.
  - assert (Q : 0 < Rpower s (/ INR p)) by apply exp_pos. split; [lra|]. rewrite <- Rpower_pow by exact Q. rewrite Rpower_mult. rewrite Rinv_l by (apply not_0_INR; lia). apply Rpower_1. lra.
Qed.
(** ** sums *)
Lemma power_total p (l : list num) : power_sum p (map toR l) = rtotal (map (fun v => Rabs (toR v) ^ p) l).
Proof. unfold power_sum. rewrite map_map. induction l as [|v l IH]; [reflexivity|]. cbn. now rewrite IH. Qed.
Lemma rtotal_nonneg l : (forall x, In x l -> 0 <= x) -> 0 <= rtotal l.
Proof. induction l as [|a l IH]; intro H; cbn; [lra|]. assert (0 <= a) by (apply H; now left). assert (0 <= rtotal l) by (apply IH; intros; apply H; now right). lra. Qed.
Lemma rtotal_in l x : (forall x, In x l -> 0 <= x) -> In x l -> x <= rtotal l.
Proof.
  induction l as [|a l IH]; intros H I; [contradiction|]. cbn. assert (0 <= a) by (apply H; now left). assert (0 <= rtotal l) by (apply rtotal_nonneg; intros; apply H; now right).
  destruct I as [->|I]; [lra|]. assert (x <= rtotal l) by (apply IH; [intros; apply H; now right|exact I]). lra.
Qed.
Lemma rtotal_perm l l' : Permutation l l' -> rtotal l = rtotal l'.
Proof. induction 1; cbn; lra. Qed.
Lemma rtotal_scale {A} (g : A -> R) k l : rtotal (map (fun a => g a * k) l) = rtotal (map g l) * k.
Proof. induction l as [|a l IH]; cbn; [lra|]. rewrite IH. lra. Qed.
Lemma rtotal_le2 {A B} (g : A -> R) (h : B -> R) l l' : Forall2 (fun a b => g a <= h b) l l' -> rtotal (map g l) <= rtotal (map h l').
Proof. induction 1; cbn; lra. Qed.
Lemma powers_nonneg p l x : In x (map (fun v => Rabs (toR v) ^ p) l) -> 0 <= x.
Proof. intro I. apply in_map_iff in I. destruct I as (v & <- & _). apply pow_le, Rabs_pos. Qed.
Lemma norm_exists p l : (1 <= p)%nat -> p_norm p l (root p (power_sum p (map toR l))).
Proof. intro P. rewrite power_total. apply root_spec; [exact P|]. apply rtotal_nonneg. apply powers_nonneg. Qed.
Lemma norm_unique p l r r' : (1 <= p)%nat -> p_norm p l r -> p_norm p l r' -> r = r'.
Proof. intros P [A E] [A' E']. apply (pow_inj p); auto. congruence. Qed.
Lemma norm_perm p l l' r : Permutation l l' -> p_norm p l r -> p_norm p l' r.
Proof. intros H [A E]. split; [exact A|]. rewrite E. apply rtotal_perm. now apply Permutation_map. Qed.
(** ** the values *)
Lemma all_some_map l : all_some (map Some l) = Some (map toR l).
Proof. induction l as [|v l IH]; [reflexivity|]. cbn. now rewrite IH. Qed.
Lemma shows_fun f c v w : shows_at f c v -> shows_at f c w -> v = w.
Proof. intros (_ & _ & _ & A) (_ & _ & _ & B). congruence. Qed.
Lemma unmasked_some (a : arr onum) m cs : (forall c, In c cs -> at_ m (fst c) (snd c) = false -> at_cell a c <> None) ->
  exists l, flat_map (fun c => if at_ m (fst c) (snd c) then [] else [at_cell a c]) cs = map Some l /\
    Forall2 (fun c v => at_cell a c = Some v) (filter (fun c => negb (at_ m (fst c) (snd c))) cs) l.
Proof.
  induction cs as [|c cs IH]; intro H; [exists []; split; [reflexivity|constructor]|]. destruct IH as (l & E & F); [intros d I; apply H; now right|]. cbn [flat_map filter].
  destruct (at_ m (fst c) (snd c)) eqn:M; cbn [negb app]; [exists l; auto|]. destruct (at_cell a c) as [v|] eqn:V; [|exfalso; apply (H c); [now left|exact M|exact V]].
  exists (v :: l). rewrite E. split; [reflexivity|]. constructor; assumption.
Qed.
Lemma forall2_map {A B} (R0 : A -> B -> Prop) (g : A -> B) cs l : (forall c v, R0 c v -> g c = v) -> Forall2 R0 cs l -> l = map g cs.
Proof. intros H F. induction F as [|c v cs l Q F IH]; [reflexivity|]. cbn. now rewrite (H c v Q), <- IH. Qed.
Lemma forall2_mono {A B} (R0 R1 : A -> B -> Prop) cs l : (forall c v, In c cs -> R0 c v -> R1 c v) -> Forall2 R0 cs l -> Forall2 R1 cs l.
Proof. intros H F. induction F as [|c v cs l Q F IH]; constructor; [apply H; [now left|exact Q]|]. apply IH. intros; apply H; [now right|assumption]. Qed.
Definition cell_num (f : sfield) (c : nat * nat) : num := match at_cell (values f) c with Some v => v | None => qz 0 end.
Lemma cell_num_at f c v : shows_at f c v -> cell_num f c = v.
Proof. intros (_ & _ & _ & E). unfold cell_num, at_cell. now rewrite E. Qed.
Lemma shown_same f l l' : shown_values f l -> shown_values f l' -> Permutation l l'.
Proof.
  intros (cs & N & H & F) (cs' & N' & H' & F'). rewrite (forall2_map _ (cell_num f) _ _ (cell_num_at f) F), (forall2_map _ (cell_num f) _ _ (cell_num_at f) F'). apply Permutation_map. apply NoDup_Permutation; auto. intro c. rewrite H, H'. tauto.
Qed.
Lemma unmasked_lemma f : sf_wf f -> sf_clean f -> exists l, unmasked (values f) (msk f) = map Some l /\ shown_values f l.
Proof.
  intros [[R0 R1] _] C. unfold unmasked. change (d0 (values f)) with (d0 (raw f)). change (d1 (values f)) with (d1 (raw f)). rewrite R0, R1.
  assert (SH : forall c, In c (all_cells (length (ax (sg f))) (length (ay (sg f)))) -> at_ (msk f) (fst c) (snd c) = false -> exists v, at_cell (values f) c = Some v /\ shows_at f c v).
  { intros c I M. apply in_all in I. destruct (at_cell (values f) c) as [v|] eqn:E; [exists v; split; [reflexivity|]; apply shows_iff; auto; tauto|].
    exfalso. assert (K := proj1 (sf_clean_idx f) C _ _ (proj1 I) (proj2 I)). apply K in E. congruence. }
  destruct (unmasked_some (values f) (msk f) (all_cells (length (ax (sg f))) (length (ay (sg f))))) as (l & E & F).
  { intros c I M. destruct (SH c I M) as (v & E & _). congruence. }
  exists l. split; [exact E|]. eexists. split; [|split; [|eapply forall2_mono; [|exact F]]].
  - apply NoDup_filter. apply all_nodup.
  - intro c. rewrite filter_In, in_all. split; [intros [I M]; apply negb_true_iff in M; destruct (SH c (proj2 (in_all _ _ _) I) M) as (v & _ & S0); eauto|].
    intros (v & H1 & H2 & M & _). split; [auto|]. now rewrite M.
  - intros c v I Q. cbn beta in Q. apply filter_In in I. destruct I as [I M]. apply negb_true_iff in M. destruct (SH c I M) as (w & E' & S0). congruence.
Qed.
Lemma norm_value p f l : (1 <= p)%nat -> sf_wf f -> sf_clean f -> shown_values f l ->
  exists r, sf_norm p false f = Ok (Some r) /\ p_norm p l r /\ (l <> [] -> sf_norm p true f = Ok (Some (r / INR (length l)))).
Proof.
  intros P W C SV. destruct (unmasked_lemma f W C) as (l' & E & SV'). assert (PM := shown_same f _ _ SV' SV). exists (root p (power_sum p (map toR l'))). unfold sf_norm, norm_of. rewrite E, all_some_map, map_length.
  assert (Nat.eqb p 0 = false) as -> by (apply Nat.eqb_neq; lia). cbn [guard]. split; [reflexivity|]. split; [apply (norm_perm p l' l); [exact PM|now apply norm_exists]|].
  intro NE. rewrite (Permutation_length PM). destruct l; [congruence|]. reflexivity.
Qed.
Lemma shown_exists f : sf_wf f -> sf_clean f -> exists l, shown_values f l.
Proof. intros W C. destruct (unmasked_lemma f W C) as (l & _ & S0). eauto. Qed.
Lemma shown_in f l : shown_values f l -> forall v, In v l <-> exists c, shows_at f c v.
Proof.
  intros (cs & N & H & F) v. split.
  - clear N H. induction F as [|c w cs l Q F IH]; intro I; [contradiction|]. destruct I as [->|I]; eauto.
  - intros (c & S0). assert (I : In c cs) by (apply H; eauto). clear N H. induction F as [|c' w cs l Q F IH]; [contradiction|]. destruct I as [->|I]; [left; now apply (shows_fun f c)|right; auto].
Qed.
(** every value shown is at most the norm, the norm is at most the sum *)
Lemma norm_bounds p f r : (1 <= p)%nat -> sf_wf f -> sf_clean f -> sf_norm p false f = Ok (Some r) -> 0 <= r /\ forall c v, shows_at f c v -> Rabs (toR v) <= r.
Proof.
  intros P W C E. destruct (shown_exists f W C) as (l & SV). destruct (norm_value p f l P W C SV) as (r' & E' & [A N] & _). rewrite E in E'. injection E' as ->. split; [exact A|].
  intros c v S0. apply (pow_le_inv p); [exact P|apply Rabs_pos|exact A|]. rewrite N. apply rtotal_in; [apply powers_nonneg|]. apply in_map_iff. exists v. split; [reflexivity|]. apply (shown_in f l SV). eauto.
Qed.
Lemma toR_zero v : toR v = 0 <-> v = qz 0.
Proof. split; [intro E; apply toR_inj; now rewrite toR_qz|intros ->; apply toR_qz]. Qed.
Lemma norm_zero p f r : (1 <= p)%nat -> sf_wf f -> sf_clean f -> sf_norm p false f = Ok (Some r) -> (r = 0 <-> forall c v, shows_at f c v -> v = qz 0).
Proof.
  intros P W C E. split.
  - intros -> c v S0. destruct (norm_bounds p f 0 P W C E) as [_ B]. specialize (B c v S0). apply toR_zero. destruct (Req_dec (toR v) 0) as [|N]; [assumption|]. pose proof (Rabs_pos_lt _ N). lra.
  - intro Z. destruct (shown_exists f W C) as (l & SV). destruct (norm_value p f l P W C SV) as (r' & E' & N & _). rewrite E in E'. injection E' as <-. apply (norm_unique p l); [exact P|exact N|]. split; [lra|].
    assert (AZ : forall v, In v l -> v = qz 0) by (intros v I; apply (shown_in f l SV) in I; destruct I as (c & S0); eauto). clear - P AZ. rewrite pow_i by lia.
    induction l as [|v l IH]; [reflexivity|]. cbn. rewrite <- IH by (intros; apply AZ; now right). rewrite (AZ v) by now left. rewrite toR_qz, Rabs_R0, pow_i by lia. lra.
Qed.
Lemma scaled_values k f g l : scaled_by k f g -> shown_values f l -> shown_values g (map (fun v => (v * k)%num) l).
Proof.
  intros [S1 S2] (cs & N & H & F). exists cs. split; [exact N|]. split; [intro c; rewrite H; split; [intros (v & S0); eauto|auto]|].
  clear N H. induction F; constructor; auto.
Qed.
Lemma norm_scaled p k f g r : (1 <= p)%nat -> sf_wf f -> sf_clean f -> sf_wf g -> sf_clean g -> scaled_by k f g -> sf_norm p false f = Ok (Some r) -> sf_norm p false g = Ok (Some (r * Rabs (toR k))).
Proof.
  intros P W C W' C' SC E. destruct (shown_exists f W C) as (l & SV). destruct (norm_value p f l P W C SV) as (r' & E' & [A N] & _). rewrite E in E'. injection E' as <-.
  destruct (norm_value p g _ P W' C' (scaled_values k f g l SC SV)) as (s & Es & Ns & _). rewrite Es. do 2 f_equal. apply (norm_unique p _ _ _ P Ns). split; [apply Rmult_le_pos; [exact A|apply Rabs_pos]|].
  rewrite Rpow_mult_distr, N, <- rtotal_scale, map_map. f_equal. apply map_ext. intro v. rewrite toR_mul, Rabs_mult, Rpow_mult_distr. reflexivity.
Qed.
(** ** the triangle inequality *)
Lemma pow_convex p a b t : 0 <= a -> 0 <= b -> 0 <= t <= 1 -> (t * a + (1 - t) * b) ^ S p <= t * a ^ S p + (1 - t) * b ^ S p.
Proof.
  intros A B T. induction p as [|p IH]; [cbn; lra|]. assert (PA := pow_le a (S p) A). assert (PB := pow_le b (S p) B).
  assert (K : 0 <= (a - b) * (a ^ S p - b ^ S p)).
  { destruct (Rtotal_order a b) as [L|[->|L]]; [pose proof (pow_mono_lt (S p) ltac:(lia) a b A L)|lra|pose proof (pow_mono_lt (S p) ltac:(lia) b a B L)]; nra. }
  change ((t * a + (1 - t) * b) ^ S (S p)) with ((t * a + (1 - t) * b) * (t * a + (1 - t) * b) ^ S p). change (a ^ S (S p)) with (a * a ^ S p). change (b ^ S (S p)) with (b * b ^ S p).
  set (X := a ^ S p) in *. set (Y := b ^ S p) in *. set (Z := (t * a + (1 - t) * b) ^ S p) in *. clearbody X Y Z.
  assert (H : (t * a + (1 - t) * b) * Z <= (t * a + (1 - t) * b) * (t * X + (1 - t) * Y)) by (apply Rmult_le_compat_l; [nra|exact IH]). assert (H2 : 0 <= t * (1 - t) * ((a - b) * (X - Y))) by (apply Rmult_le_pos; [nra|exact K]). nra.
Qed.
Lemma pow_incr' p a b : 0 <= a -> a <= b -> a ^ p <= b ^ p.
Proof. intros A L. apply pow_incr. lra. Qed.
Lemma minkowski p (ps : list (num * num)) r s t : (1 <= p)%nat -> p_norm p (map fst ps) r -> p_norm p (map snd ps) s -> p_norm p (map (fun q => (fst q + snd q)%num) ps) t -> t <= r + s.
Proof.
  intros P [A E] [B F] [C G]. destruct (Rle_lt_dec (r + s) 0) as [Z|Z].
  - assert (r = 0) as -> by lra. assert (s = 0) as -> by lra. rewrite pow_i in E, F by lia.
    assert (t ^ p = 0). { rewrite G. clear - E F P. induction ps as [|[v w] ps IH]; [reflexivity|]. cbn in *. assert (0 <= rtotal (map (fun v => Rabs (toR v) ^ p) (map fst ps))) by (apply rtotal_nonneg, powers_nonneg). assert (0 <= rtotal (map (fun v => Rabs (toR v) ^ p) (map snd ps))) by (apply rtotal_nonneg, powers_nonneg).
      assert (0 <= Rabs (toR v) ^ p) by apply pow_le, Rabs_pos. assert (0 <= Rabs (toR w) ^ p) by apply pow_le, Rabs_pos. rewrite IH by lra.
      assert (V : Rabs (toR v) = 0) by (apply (pow_inj p); [exact P|apply Rabs_pos|lra|rewrite pow_i by lia; lra]). assert (W : Rabs (toR w) = 0) by (apply (pow_inj p); [exact P|apply Rabs_pos|lra|rewrite pow_i by lia; lra]).
      rewrite toR_add. assert (toR v = 0) as -> by (destruct (Req_dec (toR v) 0) as [|N]; [assumption|pose proof (Rabs_pos_lt _ N); lra]). assert (toR w = 0) as -> by (destruct (Req_dec (toR w) 0) as [|N]; [assumption|pose proof (Rabs_pos_lt _ N); lra]). rewrite Rplus_0_l, Rabs_R0, pow_i by lia. lra. }
    assert (t = 0) by (apply (pow_inj p); [exact P|exact C|lra|rewrite pow_i by lia; assumption]). lra.
  - apply (pow_le_inv p); [exact P|exact C|lra|]. rewrite G.
    destruct (Req_dec r 0) as [->|NR].
    + rewrite pow_i in E by lia. rewrite Rplus_0_l, F. clear - E P. induction ps as [|[v w] ps IH]; [cbn; lra|]. cbn in *. assert (0 <= rtotal (map (fun v => Rabs (toR v) ^ p) (map fst ps))) by (apply rtotal_nonneg, powers_nonneg). assert (0 <= Rabs (toR v) ^ p) by apply pow_le, Rabs_pos.
      assert (V : Rabs (toR v) = 0) by (apply (pow_inj p); [exact P|apply Rabs_pos|lra|rewrite pow_i by lia; lra]). rewrite toR_add. assert (toR v = 0) as -> by (destruct (Req_dec (toR v) 0) as [|N]; [assumption|pose proof (Rabs_pos_lt _ N); lra]). rewrite Rplus_0_l. specialize (IH ltac:(lra)). lra.
    + destruct (Req_dec s 0) as [->|NS].
      * rewrite pow_i in F by lia. rewrite Rplus_0_r, E. clear - F P. induction ps as [|[v w] ps IH]; [cbn; lra|]. cbn in *. assert (0 <= rtotal (map (fun v => Rabs (toR v) ^ p) (map snd ps))) by (apply rtotal_nonneg, powers_nonneg). assert (0 <= Rabs (toR w) ^ p) by apply pow_le, Rabs_pos.
        assert (V : Rabs (toR w) = 0) by (apply (pow_inj p); [exact P|apply Rabs_pos|lra|rewrite pow_i by lia; lra]). rewrite toR_add. assert (toR w = 0) as -> by (destruct (Req_dec (toR w) 0) as [|N]; [assumption|pose proof (Rabs_pos_lt _ N); lra]). rewrite Rplus_0_r. specialize (IH ltac:(lra)). lra.
      * assert (R0 : 0 < r) by lra. assert (S0 : 0 < s) by lra. destruct p as [|p]; [lia|]. set (k := r + s) in *. set (T := r / k). assert (TB : 0 <= T <= 1). { unfold T. split; [apply Rmult_le_pos; [lra|]; apply Rlt_le, Rinv_0_lt_compat; lra|]. apply Rmult_le_reg_r with k; [exact Z|]. unfold Rdiv. rewrite Rmult_assoc, Rinv_l by lra. unfold k; lra. }
        set (al := / r ^ S p). set (be := / s ^ S p). assert (RP : 0 < r ^ S p) by (apply pow_lt; exact R0). assert (SP : 0 < s ^ S p) by (apply pow_lt; exact S0). assert (KP : 0 < k ^ S p) by (apply pow_lt; exact Z).
        assert (PT : forall v w, Rabs (v + w) ^ S p <= k ^ S p * (T * (Rabs v ^ S p * al) + (1 - T) * (Rabs w ^ S p * be))).
        { intros v w. assert (H1 : Rabs (v + w) <= k * (T * (Rabs v / r) + (1 - T) * (Rabs w / s))).
          { apply Rle_trans with (Rabs v + Rabs w); [apply Rabs_triang|]. assert (1 - T = s / k) as -> by (unfold T, k; field; unfold k in Z; lra). unfold T. right. field. repeat split; lra. }
          apply Rle_trans with ((k * (T * (Rabs v / r) + (1 - T) * (Rabs w / s))) ^ S p); [apply pow_incr'; [apply Rabs_pos|exact H1]|]. rewrite Rpow_mult_distr. apply Rmult_le_compat_l; [lra|].
          assert (VA : Rabs v ^ S p * al = (Rabs v / r) ^ S p) by (unfold Rdiv, al; rewrite Rpow_mult_distr, pow_inv; reflexivity).
          assert (VB : Rabs w ^ S p * be = (Rabs w / s) ^ S p) by (unfold Rdiv, be; rewrite Rpow_mult_distr, pow_inv; reflexivity). rewrite VA, VB.
          apply pow_convex; [apply Rmult_le_pos; [apply Rabs_pos|apply Rlt_le, Rinv_0_lt_compat; lra]|apply Rmult_le_pos; [apply Rabs_pos|apply Rlt_le, Rinv_0_lt_compat; lra]|exact TB]. }
        assert (TOT : rtotal (map (fun v => Rabs (toR v) ^ S p) (map (fun q => (fst q + snd q)%num) ps)) <= k ^ S p * (T * (rtotal (map (fun v => Rabs (toR v) ^ S p) (map fst ps)) * al) + (1 - T) * (rtotal (map (fun v => Rabs (toR v) ^ S p) (map snd ps)) * be))).
        { clear - PT. clearbody T k al be. induction ps as [|[v w] ps IH]; [cbn [map rtotal]; lra|]. cbn [map rtotal fst snd]. rewrite toR_add. specialize (PT (toR v) (toR w)).
          set (x1 := Rabs (toR v + toR w) ^ S p) in *. set (x2 := Rabs (toR v) ^ S p) in *. set (x3 := Rabs (toR w) ^ S p) in *. set (K := k ^ S p) in *. set (y1 := rtotal _) in IH. set (y2 := rtotal _) in IH. set (y3 := rtotal _) in IH. fold y1 y2 y3. clearbody x1 x2 x3 K y1 y2 y3.
          replace (K * (T * ((x2 + y2) * al) + (1 - T) * ((x3 + y3) * be))) with (K * (T * (x2 * al) + (1 - T) * (x3 * be)) + K * (T * (y2 * al) + (1 - T) * (y3 * be))) by ring. lra. }
        apply Rle_trans with (1 := TOT). rewrite <- E, <- F. unfold al, be. rewrite !Rinv_r by lra. lra.
Qed.
Lemma norm_triangle p f g h r s t : (1 <= p)%nat -> sf_wf f -> sf_clean f -> sf_wf g -> sf_clean g -> sf_wf h -> sf_clean h -> sum_of f g h ->
  sf_norm p false f = Ok (Some r) -> sf_norm p false g = Ok (Some s) -> sf_norm p false h = Ok (Some t) -> t <= r + s.
Proof.
  intros P W1 C1 W2 C2 W3 C3 (S1 & S2 & S3) E1 E2 E3. destruct (shown_exists f W1 C1) as (l & SV). pose proof SV as (cs & N & H & F).
  assert (EL := forall2_map _ (cell_num f) _ _ (cell_num_at f) F).
  assert (IN : forall c, In c cs -> exists v w, shows_at f c v /\ shows_at g c w /\ shows_at h c (v + w)%num).
  { intros c I. apply H in I. destruct (proj1 (S3 c) I) as (w & Sw). destruct I as (v & Sv). exists v, w. auto. }
  set (ps := map (fun c => (cell_num f c, cell_num g c)) cs).
  assert (V1 : shown_values f (map fst ps)) by (unfold ps; rewrite map_map; cbn [fst]; rewrite EL in SV; exact SV).
  assert (FS : forall (f' : sfield) (val : nat * nat -> num), (forall c, In c cs -> shows_at f' c (val c)) -> Forall2 (shows_at f') cs (map val cs)).
  { intros f' val. clear. induction cs as [|c cs IH]; intro Q; constructor; [apply Q; now left|]. apply IH. intros; apply Q. now right. }
  assert (V2 : shown_values g (map snd ps)).
  { unfold ps. rewrite map_map. cbn [snd]. exists cs. split; [exact N|]. split; [intro c; rewrite H; apply S3|]. apply FS. intros c I. destruct (IN c I) as (v & w & _ & Sw & _). now rewrite (cell_num_at g c w Sw). }
  assert (V3 : shown_values h (map (fun q => (fst q + snd q)%num) ps)).
  { unfold ps. rewrite map_map. cbn [fst snd]. exists cs. split; [exact N|]. split; [intro c; rewrite H, S2; tauto|]. apply (FS h (fun c => (cell_num f c + cell_num g c)%num)). intros c I. destruct (IN c I) as (v & w & Sv & Sw & Sh). now rewrite (cell_num_at f c v Sv), (cell_num_at g c w Sw). }
  destruct (norm_value p f _ P W1 C1 V1) as (r' & X1 & N1 & _). destruct (norm_value p g _ P W2 C2 V2) as (s' & X2 & N2 & _). destruct (norm_value p h _ P W3 C3 V3) as (t' & X3 & N3 & _).
  rewrite E1 in X1. rewrite E2 in X2. rewrite E3 in X3. injection X1 as <-. injection X2 as <-. injection X3 as <-. now apply (minkowski p ps).
Qed.
(** the norm of order 1 per point is the mean of the absolute values *)
Lemma norm_mean f l : sf_wf f -> sf_clean f -> shown_values f l -> l <> [] -> sf_norm 1 true f = Ok (Some (rtotal (map (fun v => Rabs (toR v)) l) / INR (length l))).
Proof.
  intros W C SV NE. destruct (norm_value 1 f l ltac:(lia) W C SV) as (r & _ & [_ N] & E). rewrite (E NE). do 3 f_equal. rewrite pow_1 in N. rewrite N. f_equal. apply map_ext. intro v. apply pow_1.
Qed.
(** per point, the norm of a uniform field depends on the number of points *)
Lemma norm_uniform p f l v : (1 <= p)%nat -> sf_wf f -> sf_clean f -> shown_values f l -> l <> [] -> (forall c w, shows_at f c w -> w = v) ->
  exists r, sf_norm p true f = Ok (Some r) /\ 0 <= r /\ (r * INR (length l)) ^ p = INR (length l) * Rabs (toR v) ^ p.
Proof.
  intros P W C SV NE U. destruct (norm_value p f l P W C SV) as (r & _ & [A N] & E). rewrite (E NE). eexists. split; [reflexivity|]. assert (L : 0 < INR (length l)) by (apply lt_0_INR; destruct l; [congruence|cbn; lia]).
  split; [apply Rmult_le_pos; [exact A|apply Rlt_le, Rinv_0_lt_compat; exact L]|]. unfold Rdiv. rewrite Rmult_assoc, Rinv_l, Rmult_1_r, N by lra.
  assert (AV : forall w, In w l -> w = v) by (intros w I; apply (shown_in f l SV) in I; destruct I as (c & S0); eauto). clear - AV. induction l as [|w l IH]; [cbn; lra|]. cbn [map rtotal length]. rewrite IH by (intros; apply AV; now right). rewrite (AV w) by now left. rewrite S_INR. lra.
Qed.
(** ** vector fields *)
Lemma vf_norm_value p f l : (1 <= p)%nat -> vf_wf f -> vectors_whole f -> shown_vectors f l ->
  exists r, vf_norm p false f = Ok (Some r) /\ p_norm p (map fst l ++ map snd l) r /\ (l <> [] -> vf_norm p true f = Ok (Some (r / INR (length l)))).
Proof.
  intros P W VW (cs & N & H & F). pose proof W as ((X0 & X1) & (Y0 & Y1) & _). set (n := length (ax (vg f))) in *. set (m := length (ay (vg f))) in *.
  set (kept := filter (fun c => negb (at_ (vmsk f) (fst c) (snd c))) (all_cells n m)).
  assert (PC : Permutation kept cs).
  { apply NoDup_Permutation; [apply NoDup_filter, all_nodup|exact N|]. intro c. unfold kept. rewrite filter_In, in_all, H. split.
    - intros [[H1 H2] M]. apply negb_true_iff in M. destruct (VW (fst c) (snd c) H1 H2 M) as [A B]. destruct (at_ (cx f) (fst c) (snd c)) as [a|] eqn:Ea; [|congruence]. destruct (at_ (cy f) (fst c) (snd c)) as [b|] eqn:Eb; [|congruence]. exists (a, b). repeat split; auto.
    - intros (v & H1 & H2 & M & _). rewrite M. auto. }
  set (vx := fun c => match at_cell (cx f) c with Some v => v | None => qz 0 end). set (vy := fun c => match at_cell (cy f) c with Some v => v | None => qz 0 end).
  assert (EL : l = map (fun c => (vx c, vy c)) cs) by (apply (forall2_map (vshows_at f)); [|exact F]; intros c [a b] (_ & _ & _ & A & B); unfold vx, vy, at_cell; cbn [fst snd] in *; now rewrite A, B).
  destruct (unmasked_some (cx f) (vmsk f) (all_cells n m)) as (lx & Ex & Fx). { intros c I M. apply in_all in I. apply (VW (fst c) (snd c)); tauto. }
  destruct (unmasked_some (cy f) (vmsk f) (all_cells n m)) as (ly & Ey & Fy). { intros c I M. apply in_all in I. apply (VW (fst c) (snd c)); tauto. }
  fold kept in Fx, Fy. assert (EX : lx = map vx kept) by (apply (forall2_map _ vx) with (2 := Fx); intros c v Q; unfold vx; now rewrite Q). assert (EY : ly = map vy kept) by (apply (forall2_map _ vy) with (2 := Fy); intros c v Q; unfold vy; now rewrite Q).
  assert (PL : Permutation (lx ++ ly) (map fst l ++ map snd l)) by (rewrite EX, EY, EL, !map_map; cbn [fst snd]; apply Permutation_app; now apply Permutation_map).
  assert (LL : length lx = length l) by (rewrite EX, EL, !map_length; now apply Permutation_length).
  unfold vf_norm, norm_of, unmasked. rewrite X0, X1, Y0, Y1, Ex, Ey, <- map_app, all_some_map, map_length, LL. assert (Nat.eqb p 0 = false) as -> by (apply Nat.eqb_neq; lia). cbn [guard].
  eexists. split; [reflexivity|]. split; [apply (norm_perm p (lx ++ ly)); [exact PL|now apply norm_exists]|]. intro NE. destruct l; [congruence|]. reflexivity.
Qed.
