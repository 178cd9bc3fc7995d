(** * CriterionProofs3: fields moved, multiplied and turned *)
From Coq Require Import Reals Lra Qreals Permutation.
From Verif Require Import Num Res ListLib Arr FieldModel ScalarFieldModel VectorFieldModel PointsModel FieldSpec FieldProofs
  GradModel GradSpec GradProofs GradProofs3 GradProofs5 CriterionModel CriterionSpec CriterionProofs CriterionProofs2.
#[local] Open Scope R_scope.

Definition vec_map (f f' : vfield) (T : vec -> vec) : Prop :=
  forall i j, ovec (at_ (cx f') i j) (at_ (cy f') i j) = option_map T (ovec (at_ (cx f) i j) (at_ (cy f) i j)).
Lemma all_some_option_map {A B} (T : A -> B) l : all_some (map (option_map T) l) = option_map (map T) (all_some l).
Proof. induction l as [|[a|] l IH]; cbn; [reflexivity| |reflexivity]. rewrite IH. now destruct (all_some l). Qed.
Lemma velocities_map f f' T motif i j : vg f' = vg f -> vf_wf f -> vf_wf f' -> vec_map f f' T ->
  velocities f' motif i j = (let* o := velocities f motif i j in Ok (option_map (map T) o)).
Proof.
  intros G ([X0 X1] & [Y0 Y1] & _) ([X0' X1'] & [Y0' Y1'] & _) V. rewrite G in *. unfold velocities.
  assert (mapM (fun s => let* x := read_at (cx f') i j s in let* y := read_at (cy f') i j s in Ok (ovec x y)) motif =
          (let* l := mapM (fun s => let* x := read_at (cx f) i j s in let* y := read_at (cy f) i j s in Ok (ovec x y)) motif in
           Ok (map (option_map T) l))) as ->.
  { assert (forall s, (let* x := read_at (cx f') i j s in let* y := read_at (cy f') i j s in Ok (ovec x y)) =
       (let* o := (let* x := read_at (cx f) i j s in let* y := read_at (cy f) i j s in Ok (ovec x y)) in Ok (option_map T o))) as K.
    { intro s. unfold read_at. rewrite X0, X1, Y0, Y1, X0', X1', Y0', Y1'.
      destruct (norm_ind _ _) as [p|]; [|reflexivity]. destruct (norm_ind _ _) as [q|]; [|reflexivity]. cbn [bind]. now rewrite V. }
    induction motif as [|s motif IH]; [reflexivity|]. cbn [mapM]. rewrite IH, K. clear IH.
    destruct (let* x := read_at (cx f) i j s in _) as [o|]; [|reflexivity]. cbn [bind].
    destruct (mapM _ motif) as [l|]; reflexivity. }
  destruct (mapM _ motif) as [l|]; [|reflexivity]. cbn [bind]. now rewrite all_some_option_map.
Qed.
Lemma each_cell_fmap {A B} (G : A -> B) n m (c : nat -> nat -> res A) (c' : nat -> nat -> res B) :
  (forall i j, c' i j = (let* a := c i j in Ok (G a))) -> each_cell n m c' = each_cell n m c.
Proof.
  intro H. unfold each_cell.
  assert (forall l, mapM (fun p => c' (fst p) (snd p)) l = (let* r := mapM (fun p => c (fst p) (snd p)) l in Ok (map G r))) as K.
  { induction l as [|p l IH]; [reflexivity|]. cbn [mapM]. rewrite H, IH. destruct (c (fst p) (snd p)); [|reflexivity]. cbn [bind].
    destruct (mapM (fun p => c (fst p) (snd p)) l); reflexivity. }
  rewrite K. destruct (mapM (fun p => c (fst p) (snd p)) _); reflexivity.
Qed.
Lemma criterion_map f f' user r ind (G : R -> R) c c' : vg f' = vg f -> vmsk f' = vmsk f -> G 0 = 0 ->
  (forall dx dy motif i j, c' dx dy motif i j = (let* o := c dx dy motif i j in Ok (option_map G o))) ->
  match criterion f user r ind c, criterion f' user r ind c' with
  | Ok (v, m), Ok (v', m') => d0 v = d0 v' /\ d1 v = d1 v' /\
      forall i j, (i < d0 v)%nat -> (j < d1 v)%nat -> at_ v' i j = option_map G (at_ v i j) /\ at_ m i j = at_ m' i j
  | Err e, Err e' => e = e'
  | _, _ => False
  end.
Proof.
  intros Eg Em G0 H. unfold criterion, neighbourhood. rewrite Eg, Em.
  destruct (if ind then _ else _) as [motif|e]; [|reflexivity]. cbn [bind]. destruct (_ || _)%bool; [reflexivity|]. cbn [guard].
  set (k := mkneigh _ _ _ _).
  rewrite (each_cell_fmap (option_map G) _ _ (fun i j => if skipped k i j then Ok (Some 0)
     else c (toR (step0 (ax (vg f)))) (toR (step0 (ay (vg f)))) (nmotif k) i j)
    (fun i j => if skipped k i j then Ok (Some 0) else c' (toR (step0 (ax (vg f)))) (toR (step0 (ay (vg f)))) (nmotif k) i j)).
  2: { intros i j. destruct (skipped k i j); [cbn; now rewrite G0|]. apply H. }
  destruct (each_cell _ _ _); [|reflexivity]. cbn [bind d0 d1 at_]. split; [reflexivity|]. split; [reflexivity|]. intros i j _ _. split; [|reflexivity].
  destruct (skipped k i j); [cbn; now rewrite G0|]. rewrite H. destruct (c _ _ _ i j); reflexivity.
Qed.
Lemma criterion_same f f' user r ind c c' : vg f' = vg f -> vmsk f' = vmsk f ->
  (forall dx dy motif i j, c' dx dy motif i j = c dx dy motif i j) -> same_result (criterion f user r ind c) (criterion f' user r ind c').
Proof.
  intros Eg Em H. pose proof (criterion_map f f' user r ind (fun x => x) c c' Eg Em eq_refl) as K. unfold same_result.
  assert (forall dx dy motif i j, c' dx dy motif i j = (let* o := c dx dy motif i j in Ok (option_map (fun x => x) o))) as Hc.
  { intros. rewrite H. destruct (c dx dy motif i j) as [[x|]|]; reflexivity. }
  specialize (K Hc). destruct (criterion f user r ind c) as [[v m]|], (criterion f' user r ind c') as [[v' m']|]; try assumption.
  destruct K as (K1 & K2 & K3). split; [exact K1|]. split; [exact K2|]. intros i j Hi Hj. destruct (K3 i j Hi Hj) as [-> ->].
  split; [|reflexivity]. destruct (at_ v i j); reflexivity.
Qed.
Lemma criterion_opposite f f' user r ind c c' : vg f' = vg f -> vmsk f' = vmsk f ->
  (forall dx dy motif i j, c' dx dy motif i j = (let* o := c dx dy motif i j in Ok (option_map Ropp o))) ->
  opposite_result (criterion f user r ind c) (criterion f' user r ind c').
Proof.
  intros Eg Em H. pose proof (criterion_map f f' user r ind Ropp c c' Eg Em Ropp_0 H) as K. unfold opposite_result.
  destruct (criterion f user r ind c) as [[v m]|], (criterion f' user r ind c') as [[v' m']|]; assumption.
Qed.

(** ** translation *)
Lemma translated_map f f' w : translated f f' w -> vec_map f f' (fun v => vadd v (toR (fst w), toR (snd w))).
Proof.
  intros (_ & _ & _ & _ & H) i j. destruct (H i j) as [-> ->]. destruct (at_ (cx f) i j), (at_ (cy f) i j); try reflexivity.
  cbn. rewrite !toR_add. reflexivity.
Qed.
Lemma combine_map_r {A B C} (g : B -> C) (l : list A) (l' : list B) : combine l (map g l') = map (fun p => (fst p, g (snd p))) (combine l l').
Proof. revert l'. induction l as [|a l IH]; intros [|b l']; cbn; [reflexivity|reflexivity|reflexivity|]. now rewrite IH. Qed.
Lemma rsum_shift {A} (f : A -> R) c l : rsum (map (fun a => f a + c) l) = rsum (map f l) + INR (length l) * c.
Proof.
  induction l as [|a l IH]; cbn [map rsum length]; [cbn; ring|]. rewrite IH, S_INR. ring.
Qed.
Lemma rmean_shift {A} (f : A -> R) c l : l <> [] -> rmean (map (fun a => f a + c) l) = rmean (map f l) + c.
Proof.
  intro N. unfold rmean. rewrite !map_length, rsum_shift. field. apply not_0_INR. destruct l; [congruence|discriminate].
Qed.
Lemma vmean_shift w l : l <> [] -> vmean (map (fun v => vadd v w) l) = vadd (vmean l) w.
Proof. intro N. unfold vmean, vadd. rewrite !map_map. cbn [fst snd]. rewrite !rmean_shift by exact N. reflexivity. Qed.
Lemma gamma2_shift arm vel w : gamma_of Gamma2 arm (map (fun v => vadd v w) vel) = gamma_of Gamma2 arm vel.
Proof.
  destruct vel as [|v0 vel0] eqn:E; [reflexivity|]. rewrite <- E. assert (vel <> []) as N by congruence. clear E v0 vel0.
  unfold gamma_of. rewrite vmean_shift, combine_map_r, map_map, map_length by exact N. do 2 f_equal.
  apply map_ext. intros [a v]. cbn [fst snd]. f_equal. unfold vminus, vadd. cbn [fst snd]. f_equal; ring.
Qed.
Lemma gamma2_galilean f f' w user r ind : translated f f' w -> same_result (get_gamma f user r ind Gamma2) (get_gamma f' user r ind Gamma2).
Proof.
  intros T. pose proof (translated_map _ _ _ T) as V. destruct T as (Eg & Em & W & W' & _). apply criterion_same; [exact Eg|exact Em|].
  intros dx dy motif i j. rewrite (velocities_map f f' _ motif i j Eg W W' V). destruct (velocities f motif i j) as [[vel|]|]; try reflexivity.
  cbn [bind option_map]. now rewrite gamma2_shift.
Qed.
Lemma kappa2_galilean f f' w user r ind : translated f f' w -> same_result (get_kappa f user r ind true) (get_kappa f' user r ind true).
Proof.
  intros T. pose proof (translated_map _ _ _ T) as V. destruct T as (Eg & Em & W & W' & _). apply criterion_same; [exact Eg|exact Em|].
  intros dx dy motif i j. rewrite (velocities_map f f' _ motif i j Eg W W' V). rewrite (V i j).
  destruct (velocities f motif i j) as [[vel|]|]; try reflexivity. cbn [bind option_map].
  destruct (ovec (at_ (cx f) i j) (at_ (cy f) i j)) as [c|]; [|reflexivity]. cbn [option_map]. do 2 f_equal.
  unfold kappa_of. rewrite combine_map_r, map_map, map_length. do 2 f_equal. apply map_ext. intros [a v]. cbn [fst snd]. f_equal.
  unfold vminus, vadd. cbn [fst snd]. f_equal; ring.
Qed.

(** ** multiplication *)
Definition vscale (k : R) (v : vec) : vec := (k * fst v, k * snd v).
Lemma multiplied_map f f' k : multiplied f f' k -> vec_map f f' (vscale (toR k)).
Proof.
  intros (_ & _ & _ & _ & H) i j. destruct (H i j) as [-> ->]. destruct (at_ (cx f) i j), (at_ (cy f) i j); try reflexivity.
  cbn. rewrite !toR_mul. reflexivity.
Qed.
Lemma len_scale k v : len (vscale k v) = Rabs k * len v.
Proof.
  unfold len, dot, vscale. cbn [fst snd]. replace (k * fst v * (k * fst v) + k * snd v * (k * snd v)) with (Rsqr k * (fst v * fst v + snd v * snd v)) by (unfold Rsqr; ring).
  rewrite sqrt_mult by (try apply Rle_0_sqr; nra). now rewrite sqrt_Rsqr_abs.
Qed.
Lemma cross_scale k a b : cross a (vscale k b) = k * cross a b.
Proof. unfold cross, vscale. cbn. ring. Qed.
Lemma dot_scale k a b : dot a (vscale k b) = k * dot a b.
Proof. unfold dot, vscale. cbn. ring. Qed.
Lemma ratio_scale s d x k s' : k <> 0 -> s * d = x -> (d = 0 -> s = 0) -> s' * (Rabs k * d) = k * x -> (Rabs k * d = 0 -> s' = 0) ->
  s' = k / Rabs k * s.
Proof.
  intros Hk E Z E' Z'. pose proof (Rabs_pos_lt k Hk) as Ha. destruct (Req_EM_T d 0) as [D|D].
  - rewrite (Z D), Z' by (rewrite D; ring). ring.
  - apply (Rmult_eq_reg_r (Rabs k * d)); [|apply Rmult_integral_contrapositive; split; lra]. rewrite E', <- E. field. lra.
Qed.
Lemma cross_term_scale k a b : k <> 0 -> cross_term a (vscale k b) = k / Rabs k * cross_term a b.
Proof.
  intro Hk. destruct (cross_term_sine a b) as [E Z]. destruct (cross_term_sine a (vscale k b)) as [E' Z'].
  rewrite len_scale in E', Z'. rewrite cross_scale in E'.
  apply (ratio_scale _ (len a * len b) (cross a b) k _ Hk E Z); [rewrite <- E'; ring|]. intro K. apply Z'. rewrite <- K. ring.
Qed.
Lemma dot_term_scale k a b : k <> 0 -> dot_term a (vscale k b) = k / Rabs k * dot_term a b.
Proof.
  intro Hk. destruct (dot_term_cosine a b) as [E Z]. destruct (dot_term_cosine a (vscale k b)) as [E' Z'].
  rewrite len_scale in E', Z'. rewrite dot_scale in E'.
  apply (ratio_scale _ (len a * len b) (dot a b) k _ Hk E Z); [rewrite <- E'; ring|]. intro K. apply Z'. rewrite <- K. ring.
Qed.
Lemma rsum_scale {A} (f : A -> R) c l : rsum (map (fun a => c * f a) l) = c * rsum (map f l).
Proof. induction l as [|a l IH]; cbn; [ring|]. rewrite IH. ring. Qed.
Lemma rmean_scale {A} (f : A -> R) c l : rmean (map (fun a => c * f a) l) = c * rmean (map f l).
Proof. unfold rmean. rewrite !map_length, rsum_scale. unfold Rdiv. ring. Qed.
Lemma vmean_scale k l : vmean (map (vscale k) l) = vscale k (vmean l).
Proof. unfold vmean, vscale. rewrite !map_map. cbn [fst snd]. now rewrite !rmean_scale. Qed.
Lemma gamma_total_scale k arm vel c : k <> 0 ->
  rsum (map (fun p => cross_term (fst p) (vminus (vscale k c) (snd p))) (combine arm (map (vscale k) vel))) / INR (length (map (vscale k) vel)) =
  k / Rabs k * (rsum (map (fun p => cross_term (fst p) (vminus c (snd p))) (combine arm vel)) / INR (length vel)).
Proof.
  intro Hk. rewrite combine_map_r, map_map, map_length. cbn [fst snd].
  rewrite (map_ext _ (fun p => k / Rabs k * cross_term (fst p) (vminus c (snd p)))).
  - rewrite rsum_scale. unfold Rdiv. ring.
  - intros [a v]. cbn [fst snd]. rewrite <- cross_term_scale by exact Hk. f_equal. unfold vminus, vscale. cbn [fst snd]. f_equal; ring.
Qed.
Lemma gamma_scale k kind arm vel : k <> 0 -> kind <> Gamma1b -> gamma_of kind arm (map (vscale k) vel) = k / Rabs k * gamma_of kind arm vel.
Proof.
  intros Hk K. unfold gamma_of. rewrite vmean_scale. destruct kind; [| congruence | |].
  - rewrite <- gamma_total_scale by exact Hk. replace (vscale k (0, 0)) with ((0, 0) : vec) by (unfold vscale; cbn; f_equal; ring). reflexivity.
  - apply gamma_total_scale, Hk.
  - rewrite gamma_total_scale by exact Hk. rewrite Rmult_assoc. do 2 f_equal.
    set (w := vmean vel). rewrite !map_map.
    change (norm2 (fst (vscale k w)) (snd (vscale k w))) with (len (vscale k w)). change (norm2 (fst w) (snd w)) with (len w). rewrite len_scale.
    set (sx := rmean (map (fun v => (fst v - fst w) * (fst v - fst w)) vel)).
    set (sy := rmean (map (fun v => (snd v - snd w) * (snd v - snd w)) vel)).
    assert (rmean (map (fun v => (fst (vscale k v) - fst (vscale k w)) * (fst (vscale k v) - fst (vscale k w))) vel) = k * k * sx) as ->.
    { unfold sx. rewrite <- rmean_scale. f_equal. apply map_ext. intro v. unfold vscale. cbn. ring. }
    assert (rmean (map (fun v => (snd (vscale k v) - snd (vscale k w)) * (snd (vscale k v) - snd (vscale k w))) vel) = k * k * sy) as ->.
    { unfold sy. rewrite <- rmean_scale. f_equal. apply map_ext. intro v. unfold vscale. cbn. ring. }
    pose proof (Rabs_pos_lt k Hk) as Ha.
    assert (sqrt (k * k * sx + k * k * sy) = Rabs k * sqrt (sx + sy)) as ->.
    { assert (0 <= sx + sy) as Hs.
      { assert (forall g : vec -> R, 0 <= rmean (map (fun v => g v * g v) vel)) as Hp.
        { intro g. apply div_nonneg, rsum_nonneg. intros x Hx. apply in_map_iff in Hx. destruct Hx as (v & <- & _). nra. }
        pose proof (Hp (fun v => fst v - fst w)). pose proof (Hp (fun v => snd v - snd w)). unfold sx, sy. lra. }
      replace (k * k * sx + k * k * sy) with (Rsqr k * (sx + sy)) by (unfold Rsqr; ring).
      rewrite sqrt_mult by (try apply Rle_0_sqr; lra). now rewrite sqrt_Rsqr_abs. }
    assert ((if Req_EM_T (Rabs k * len w) 0 then 1 else Rabs k * sqrt (sx + sy) / (Rabs k * len w)) =
            (if Req_EM_T (len w) 0 then 1 else sqrt (sx + sy) / len w)) as ->; [|reflexivity].
    destruct (Req_EM_T (len w) 0) as [Z|Z], (Req_EM_T (Rabs k * len w) 0) as [Z'|Z']; try reflexivity.
    + exfalso. apply Z'. rewrite Z. ring.
    + exfalso. apply Rmult_integral in Z'. destruct Z'; lra.
    + field. split; [exact Z|lra].
Qed.
Lemma sign_pos k : 0 < k -> k / Rabs k = 1.
Proof. intro H. rewrite Rabs_right by lra. field. lra. Qed.
Lemma sign_neg k : k < 0 -> k / Rabs k = -1.
Proof. intro H. rewrite Rabs_left by lra. field. lra. Qed.
Lemma gamma_multiplied_pos f f' k user r ind kind : multiplied f f' k -> (0 < k)%num -> kind <> Gamma1b ->
  same_result (get_gamma f user r ind kind) (get_gamma f' user r ind kind).
Proof.
  intros T Hk K. pose proof (multiplied_map _ _ _ T) as V. destruct T as (Eg & Em & W & W' & _). apply toR_lt in Hk.
  change 0%num with (qz 0) in Hk. rewrite toR_qz in Hk. apply criterion_same; [exact Eg|exact Em|].
  intros dx dy motif i j. rewrite (velocities_map f f' _ motif i j Eg W W' V). destruct (velocities f motif i j) as [[vel|]|]; try reflexivity.
  cbn [bind option_map]. rewrite gamma_scale, sign_pos, Rmult_1_l; try assumption; [reflexivity|lra].
Qed.
Lemma gamma_multiplied_neg f f' k user r ind kind : multiplied f f' k -> (k < 0)%num -> kind <> Gamma1b ->
  opposite_result (get_gamma f user r ind kind) (get_gamma f' user r ind kind).
Proof.
  intros T Hk K. pose proof (multiplied_map _ _ _ T) as V. destruct T as (Eg & Em & W & W' & _). apply toR_lt in Hk.
  change 0%num with (qz 0) in Hk. rewrite toR_qz in Hk. apply criterion_opposite; [exact Eg|exact Em|].
  intros dx dy motif i j. rewrite (velocities_map f f' _ motif i j Eg W W' V). destruct (velocities f motif i j) as [[vel|]|]; try reflexivity.
  cbn [bind option_map]. rewrite gamma_scale, sign_neg; try assumption; [|lra]. do 2 f_equal. ring.
Qed.

(** ** a quarter of turn: kappa1 is gamma1 of the turned field *)
Lemma turned_map f f' : turned f f' -> vec_map f f' (fun v => (- snd v, fst v)).
Proof.
  intros (_ & _ & _ & _ & H) i j. destruct (H i j) as [-> ->]. destruct (at_ (cx f) i j), (at_ (cy f) i j); try reflexivity.
  cbn. rewrite toR_opp. reflexivity.
Qed.
Lemma kappa_turned f f' user r ind : turned f f' -> same_result (get_kappa f user r ind false) (get_gamma f' user r ind Gamma1).
Proof.
  intros T. pose proof (turned_map _ _ T) as V. destruct T as (Eg & Em & W & W' & _). apply criterion_same; [exact Eg|exact Em|].
  intros dx dy motif i j. rewrite (velocities_map f f' _ motif i j Eg W W' V). destruct (velocities f motif i j) as [[vel|]|]; try reflexivity.
  cbn [bind option_map]. do 2 f_equal. unfold kappa_of, gamma_of. rewrite combine_map_r, map_map, map_length. do 2 f_equal. apply map_ext.
  intros [a [x y]]. unfold cross_term, dot_term, vminus, norm2. cbn [fst snd].
  replace ((- y - 0) * (- y - 0) + (x - 0) * (x - 0)) with ((x - 0) * (x - 0) + (y - 0) * (y - 0)) by ring.
  destruct (Req_EM_T _ 0); [reflexivity|]. f_equal. ring.
Qed.
