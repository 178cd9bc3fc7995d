(** * BlProofs4: thicknesses in other units *)
From Verif Require Import Num Res ListLib SortLib Arr FieldModel ScalarFieldModel FieldSpec PointsSpec FieldProofs ScalarProofs ProfileModel ProfileSpec ProfileProofs ProfileProofs2 ProfileProofs3 ProfileProofs4 BlModel BlSpec BlProofs BlProofs2 BlProofs3.

Section Scaling.
Variables a c : num.
Hypothesis Pa : (0 < a)%num.
Hypothesis Pc : (0 < c)%num.

Lemma mul_lt_iff k x y : (0 < k)%num -> qltb (x * k)%num (y * k)%num = qltb x y.
Proof.
  intro P. destruct (qltb_spec x y) as [Q|Q].
  - apply qltb_lt. assert (0 < (y - x) * k)%num by (apply qmul_pos; qlra). qlra.
  - apply qltb_ge. assert (0 <= (x - y) * k)%num by (apply qmul_nonneg; qlra). qlra.
Qed.
Lemma mul_le_iff k x y : (0 < k)%num -> qleb (x * k)%num (y * k)%num = qleb x y.
Proof.
  intro P. destruct (qleb_spec x y) as [Q|Q].
  - apply qleb_le. assert (0 <= (y - x) * k)%num by (apply qmul_nonneg; qlra). qlra.
  - apply qleb_gt. assert (0 < (x - y) * k)%num by (apply qmul_pos; qlra). qlra.
Qed.
Lemma mul_eq_iff k x y : (0 < k)%num -> qeqb (x * k)%num (y * k)%num = qeqb x y.
Proof.
  intro P. destruct (qeqb_spec x y) as [->|Q]; [apply qeqb_refl|]. apply qeqb_neq. intro E. apply Q.
  destruct (qltb_spec x y) as [L|L]; [assert (0 < (y - x) * k)%num by (apply qmul_pos; qlra); exfalso; qlra|].
  apply Qcle_antisym; [|exact L]. destruct (qleb_spec x y) as [|L']; [assumption|]. assert (0 < (x - y) * k)%num by (apply qmul_pos; qlra). exfalso. qlra.
Qed.
Lemma zero_eq_iff k x : (0 < k)%num -> qeqb (x * k)%num 0%num = qeqb x 0%num.
Proof. intro P. rewrite <- (mul_eq_iff k x 0%num P). f_equal. qring. Qed.
Lemma abs_mul k x : (0 < k)%num -> qabs (x * k)%num = (qabs x * k)%num.
Proof.
  intro P. destruct (qabs_spec x) as [[H ->]|[H ->]]; destruct (qabs_spec (x * k)%num) as [[H' ->]|[H' ->]]; try reflexivity.
  - assert (0 <= x * k)%num by (apply qmul_nonneg; qlra). qlra.
  - assert (0 < (0 - x) * k)%num by (apply qmul_pos; qlra). exfalso. qlra.
  - qring.
Qed.
Lemma lmax_mul k l : (0 < k)%num -> lmax (map (fun x => x * k)%num l) = (lmax l * k)%num.
Proof.
  intro P. destruct l as [|y l]; [unfold lmax; cbn; qring|]. apply lmax_greatest.
  - apply in_map_iff. exists (lmax (y :: l)). split; [reflexivity|]. pose proof (greatest_exists (map (fun v => (0%num, v)) (y :: l)) ltac:(discriminate)) as [(x & Hx) _].
    rewrite map_map in Hx. cbn [snd] in Hx. rewrite map_id in Hx. apply in_map_iff in Hx. destruct Hx as (z & E & Hz). injection E as _ E. now rewrite <- E.
  - intros x Hx. apply in_map_iff in Hx. destruct Hx as (z & <- & Hz). destruct (qleb_spec z (lmax (y :: l))) as [L|L].
    + assert (0 <= (lmax (y :: l) - z) * k)%num by (apply qmul_nonneg; qlra). qlra.
    + pose proof (lmax_spec _ _ L z Hz). qlra.
Qed.
Lemma keep_map {A B} (f : A -> B) b l : keep b (map f l) = map f (keep b l).
Proof. symmetry. apply map_keep. Qed.

Lemma max_scaled p p' : yv p' = map (oscale c) (yv p) -> pm p' = pm p -> prof_max p' = option_map (oscale c) (prof_max p).
Proof.
  intros Y M. unfold prof_max. rewrite Y, M. destruct (forallb (fun b => b) (pm p)); [reflexivity|]. cbn [option_map]. f_equal. rewrite keep_map.
  set (l := keep (map negb (pm p)) (yv p)). assert (E : existsb isnan (map (oscale c) l) = existsb isnan l).
  { clear. induction l as [|o l IH]; [reflexivity|]. cbn [map existsb]. rewrite IH. now destruct o. }
  rewrite E. destruct (existsb isnan l) eqn:EX; [reflexivity|]. cbn [oscale option_map]. f_equal.
  assert (E2 : map (fun y => match y with Some v => v | None => 0%num end) (map (oscale c) l) = map (fun x => x * c)%num (map (fun y => match y with Some v => v | None => 0%num end) l)).
  { rewrite !map_map. apply map_ext. intros [v|]; cbn [oscale option_map]; qring. }
  rewrite E2, (lmax_mul c _ Pc). qring.
Qed.
Lemma oscale_val k v : oscale k (Some v) = Some (v * k)%num.
Proof. reflexivity. Qed.
Lemma ocmp_scaled o v : oge (oscale c o) (v * c)%num = oge o v /\ ogt (oscale c o) (v * c)%num = ogt o v /\ ole (oscale c o) (v * c)%num = ole o v /\
  olt (oscale c o) (v * c)%num = olt o v /\ oeqv (oscale c o) (v * c)%num = oeqv o v.
Proof.
  destruct o as [x|]; [|repeat split]. rewrite oscale_val. unfold oge, ogt, ole, olt, oeqv. repeat split; first [now apply mul_le_iff|now apply mul_lt_iff|now apply mul_eq_iff].
Qed.
Lemma nth_oscale k i l : nth i (map (oscale k) l) None = oscale k (nth i l None).
Proof. change (@None num) with (oscale k None) at 1. apply map_nth. Qed.
Lemma between_scaled vals vals2 v i : cross vals v i = true -> ~ oeqv (nth i vals None) v = true ->
  between (map (oscale c) vals) (map (oscale a) vals2) (v * c)%num i = oscale a (between vals vals2 v i).
Proof.
  intros CR NE. unfold between. rewrite !nth_oscale. unfold cross in CR. destruct (nth i vals None) as [x|]; [|reflexivity]. destruct (nth (S i) vals None) as [y|]; [|reflexivity].
  destruct (nth i vals2 None) as [x2|]; [|reflexivity]. destruct (nth (S i) vals2 None) as [y2|]; [|reflexivity]. rewrite !oscale_val. f_equal.
  replace (y * c - v * c)%num with ((y - v) * c)%num by qring. replace (x * c - v * c)%num with ((x - v) * c)%num by qring. replace (x * c - y * c)%num with ((x - y) * c)%num by qring.
  rewrite !(abs_mul c _ Pc). assert (N : qabs (x - y)%num <> 0%num).
  { cbn [oge olt ole ogt oeqv] in *. apply qgt_neq. assert (x <> y).
    { intros ->. apply orb_true_iff in CR. destruct CR as [CR|CR]; apply andb_true_iff in CR; destruct CR as [C1 C2]; apply qleb_le in C1; apply qltb_lt in C2; qlra. }
    destruct (qabs_spec (x - y)%num) as [[Q ->]|[Q ->]]; [|qlra]. apply qle_lt_or_eq in Q. destruct Q as [Q|Q]; [exact Q|]. exfalso. apply H. apply Qcle_antisym; qlra. }
  assert (NC : c <> 0%num) by (now apply qgt_neq). qfield; repeat split; assumption.
Qed.
Lemma filter_ext_in' {A} (f g : A -> bool) l : (forall x, In x l -> f x = g x) -> filter f l = filter g l.
Proof. induction l as [|x l IH]; intro H; [reflexivity|]. cbn [filter]. rewrite (H x (or_introl eq_refl)), IH; [reflexivity|]. intros y Hy. apply H. now right. Qed.
Lemma interp_scaled vals vals2 v : interp_list (map (oscale c) vals) (map (oscale a) vals2) (v * c)%num = map (oscale a) (interp_list vals vals2 v).
Proof.
  unfold interp_list. assert (E : map (fun o => oeqv o (v * c)%num) (map (oscale c) vals) = map (fun o => oeqv o v) vals).
  { rewrite map_map. apply map_ext. intro o. apply ocmp_scaled. }
  assert (E' : existsb (fun o => oeqv o (v * c)%num) (map (oscale c) vals) = existsb (fun o => oeqv o v) vals).
  { clear - Pc. induction vals as [|o l IH]; [reflexivity|]. cbn [map existsb]. rewrite IH. f_equal. apply ocmp_scaled. }
  rewrite E, E', map_length. destruct (existsb (fun o => oeqv o v) vals) eqn:EX; [apply keep_map|].
  assert (F : filter (cross (map (oscale c) vals) (v * c)%num) (seq 0 (length vals - 1)) = filter (cross vals v) (seq 0 (length vals - 1))).
  { apply filter_ext. intro i. unfold cross. rewrite !nth_oscale. destruct (ocmp_scaled (nth i vals None) v) as (-> & _ & -> & _). destruct (ocmp_scaled (nth (S i) vals None) v) as (_ & -> & _ & -> & _). reflexivity. }
  rewrite F, map_map. apply map_ext_in. intros i Hi. apply filter_In in Hi. destruct Hi as [H1 H2]. apply between_scaled; [exact H2|].
  intro Q. apply not_true_iff_false in EX. apply EX. apply existsb_exists. exists (nth i vals None). split; [|exact Q]. apply nth_In. apply in_seq in H1. lia.
Qed.
Lemma rescaled_parts p p' : rescaled a c p p' -> px p' = map (fun x => x * a)%num (px p) /\ yv p' = map (oscale c) (yv p) /\ pm p' = pm p.
Proof.
  intros (OK & OK' & E). destruct (samples_fst p OK) as (X & Y & M). destruct (samples_fst p' OK') as (X' & Y' & M'). rewrite E, map_map in X', Y', M'.
  rewrite <- X, <- Y, <- M, <- X', <- Y', <- M', !map_map. repeat split.
Qed.
Lemma thickness_scaled p p' perc : rescaled a c p p' -> result_times a (bl_thickness p perc) (bl_thickness p' perc).
Proof.
  intro R. destruct (rescaled_parts p p' R) as (X & Y & M). unfold bl_thickness. rewrite (max_scaled p p' Y M). destruct (prof_max p) as [[m|]|]; cbn [option_map result_times].
  - rewrite oscale_val. unfold interp_y. rewrite X, Y. replace (m * c * perc)%num with (m * perc * c)%num by qring.
    assert (ES : map Some (map (fun x => x * a)%num (px p)) = map (oscale a) (map Some (px p))) by (rewrite !map_map; apply map_ext; intro x; now rewrite oscale_val).
    rewrite ES, interp_scaled. destruct (interp_list (yv p) (map Some (px p)) (m * perc)%num); reflexivity.
  - reflexivity.
  - rewrite oscale_val. f_equal. f_equal. qring.
Qed.
Lemma nths_mul k l i : nths (map (fun x => x * k)%num l) i = (nths l i * k)%num.
Proof.
  destruct (Nat.lt_ge_cases i (length l)) as [H|H]; [now rewrite (nth_map' (fun x => x * k)%num l i (qz 0) (qz 0)) by exact H|].
  rewrite !nth_overflow by (rewrite ?map_length; exact H). change (qz 0) with 0%num. qring.
Qed.
Lemma lmin_mul k l : (0 < k)%num -> lmin (map (fun x => x * k)%num l) = (lmin l * k)%num.
Proof.
  intro P. unfold lmin. rewrite nths_mul. generalize (nths l 0) as d. intro d. induction l as [|y l IH]; [reflexivity|]. cbn [map fold_right]. rewrite IH.
  set (z := fold_right qmin d l). destruct (qmin_spec y z) as [[H ->]|[H ->]]; destruct (qmin_spec (y * k)%num (z * k)%num) as [[H' E]|[H' E]]; rewrite E; try reflexivity.
  - assert (0 <= (z - y) * k)%num by (apply qmul_nonneg; qlra). apply Qcle_antisym; qlra.
  - assert (0 < (y - z) * k)%num by (apply qmul_pos; qlra). apply Qcle_antisym; qlra.
Qed.
Lemma crop_inds_mul k x u v : (0 < k)%num -> crop_inds (map (fun x => x * k)%num x) (u * k)%num (v * k)%num = crop_inds x u v.
Proof.
  intro P. unfold crop_inds. rewrite map_length.
  assert (E : forall l s, fold_left (crop_step (map (fun x => x * k)%num x) (u * k)%num (v * k)%num) l s = fold_left (crop_step x u v) l s).
  { induction l as [|i l IH]; intro s; [reflexivity|]. cbn [fold_left]. rewrite IH. f_equal. unfold crop_step. destruct s as [i1 i2]. rewrite !nths_mul.
    now rewrite !(mul_eq_iff k), !(mul_lt_iff k) by exact P. }
  now rewrite E.
Qed.
Lemma slice_map {A B} (f : A -> B) i j l : slice i j (map f l) = map f (slice i j l).
Proof. unfold slice. now rewrite skipn_map, firstn_map. Qed.
Lemma crop_scaled_gen p p' b d : rescaled a c p p' ->
  match crop_data p (Some (b, d)) None with
  | Ok (x, y, m) => crop_data p' (Some ((b * a)%num, (d * a)%num)) None = Ok (map (fun x => x * a)%num x, map (oscale c) y, m)
  | Err e => crop_data p' (Some ((b * a)%num, (d * a)%num)) None = Err e
  end.
Proof.
  intro R. pose proof R as (OK & OK' & _). destruct (rescaled_parts p p' R) as (X & Y & M). unfold crop_data. rewrite (aligned_ok p OK), (aligned_ok p' OK'), X, Y, M, map_length.
  rewrite (mul_le_iff a d b Pa). destruct (qleb d b); [reflexivity|]. cbn [guard negb].
  destruct (Nat.eqb (length (px p)) 0); [reflexivity|]. cbn [guard]. rewrite (lmin_mul a _ Pa), (lmax_mul a _ Pa), !(mul_lt_iff a) by exact Pa.
  destruct (qltb b (lmin (px p)) && qltb d (lmin (px p)) || qltb (lmax (px p)) b && qltb (lmax (px p)) d)%bool; [reflexivity|]. cbn [guard].
  rewrite (crop_inds_mul a _ b d Pa). destruct (crop_inds (px p) b d) as [i1 i2]. cbn [bind]. now rewrite !slice_map.
Qed.
Lemma new_sorted x y m u w : length x = length y -> length m = length x -> nondecreasing x ->
  exists q, prof_new x y (Some m) u w = Ok q /\ px q = x /\ yv q = nan_at m y.
Proof.
  intros L1 L2 N. destruct (new_lemma x y (Some m) u w L1 L2) as (q & E & OK & _ & _ & _ & F). destruct (F N) as [X SS]. exists q. split; [exact E|]. split; [exact X|].
  destruct (samples_fst q OK) as (_ & Y & _). rewrite <- Y, SS, map_map. unfold sy, smask, nan_at, zip3. cbn [fst snd]. clear - L1 L2. revert y m L1 L2.
  induction x as [|a0 x IH]; intros [|b y] [|e m] L1 L2; try discriminate; [reflexivity|]. cbn [combine map fst snd]. cbn in L1, L2. now rewrite IH by lia.
Qed.
Lemma nondec_mul l : nondecreasing l -> nondecreasing (map (fun x => x * a)%num l).
Proof.
  intros N i j Hij Hj. rewrite map_length in Hj. rewrite !nths_mul. pose proof (N i j Hij Hj). assert (0 <= (nths l j - nths l i) * a)%num by (apply qmul_nonneg; qlra). qlra.
Qed.
Lemma nan_at_scaled m y : nan_at m (map (oscale c) y) = map (oscale c) (nan_at m y).
Proof. unfold nan_at. revert y. induction m as [|b m IH]; intros [|o y]; [reflexivity..|]. cbn [map combine fst snd]. rewrite IH. f_equal. now destruct b. Qed.
Lemma prof_crop_scaled p p' d : rescaled a c p p' ->
  match prof_crop p (Some (0%num, d)) None with
  | Ok q => exists q', prof_crop p' (Some (0%num, (d * a)%num)) None = Ok q' /\ px q' = map (fun x => x * a)%num (px q) /\ yv q' = map (oscale c) (yv q) /\ length (yv q) = length (px q)
  | Err e => prof_crop p' (Some (0%num, (d * a)%num)) None = Err e
  end.
Proof.
  intro R. pose proof R as (OK & OK' & _). pose proof (crop_scaled_gen p p' 0%num d R) as Q. assert (Z : (0 * a = 0)%num) by qring. rewrite Z in Q.
  unfold prof_crop, prof_crop_with. destruct (crop_data p (Some (0%num, d)) None) as [[[x y] m]|e] eqn:CD; cbn [bind]; [|now rewrite Q].
  destruct (crop_data_shape p _ _ x y m OK CD) as (L1 & L2 & N & NA & _). destruct (new_sorted x y m (pux p) (puy p) (eq_sym L1) L2 N) as (q & E & X & Y). rewrite E.
  rewrite Q. cbn [bind]. destruct (new_sorted (map (fun x => x * a)%num x) (map (oscale c) y) m (pux p') (puy p')) as (q' & E' & X' & Y'); [rewrite !map_length; lia|rewrite map_length; lia|now apply nondec_mul|].
  exists q'. split; [exact E'|]. rewrite X', Y', X, Y. split; [reflexivity|]. split; [apply nan_at_scaled|]. rewrite NA. exact L1.
Qed.
Definition sc2 (t : num * onum) : num * onum := ((fst t * a)%num, oscale c (snd t)).
Definition sc2n (t : num * num) : num * num := (fst t * a, snd t * c)%num.
Lemma wall_points_scaled q q' : px q' = map (fun x => x * a)%num (px q) -> yv q' = map (oscale c) (yv q) -> wall_points q' = map sc2 (wall_points q).
Proof.
  intros X Y. unfold wall_points. rewrite X, Y. destruct (px q) as [|x0 xs] eqn:EX; [reflexivity|]. cbn [map]. rewrite (zero_eq_iff a x0 Pa).
  assert (CB : forall (l : list num) (r : list onum), combine (map (fun x => x * a)%num l) (map (oscale c) r) = map sc2 (combine l r)).
  { induction l as [|x l IH]; intros [|o r]; [reflexivity..|]. cbn [map combine]. now rewrite IH. }
  change ((x0 * a)%num :: map (fun x => x * a)%num xs) with (map (fun x => x * a)%num (x0 :: xs)). rewrite CB. destruct (qeqb x0 0%num); [reflexivity|]. cbn [map]. f_equal.
  unfold sc2. cbn [fst snd]. rewrite oscale_val. f_equal; [qring|]. f_equal. qring.
Qed.
Lemma all_known_scaled l : all_known (map sc2 l) = option_map (map sc2n) (all_known l).
Proof.
  unfold all_known. assert (E : existsb (fun t : num * onum => isnan (snd t)) (map sc2 l) = existsb (fun t => isnan (snd t)) l).
  { induction l as [|[x o] l IH]; [reflexivity|]. cbn [map existsb]. rewrite IH. f_equal. unfold sc2. cbn [snd]. now destruct o. }
  rewrite E. destruct (existsb (fun t : num * onum => isnan (snd t)) l); [reflexivity|]. cbn [option_map]. f_equal. rewrite !map_map. apply map_ext. intros [x o]. unfold sc2, sc2n. cbn [fst snd]. f_equal.
  destruct o as [v|]; [reflexivity|]. cbn [oscale option_map]. qring.
Qed.
Lemma trapz_scaled l : trapz (map (fun t : num * num => (fst t * a, snd t)%num) l) = (trapz l * a)%num.
Proof.
  induction l as [|[x u] [|[y v] l] IH]; [cbn; qring|cbn; qring|]. cbn [map fst snd] in *. rewrite !trapz_step, IH. unfold Qcdiv. qring.
Qed.
Lemma integral_scaled g p p' : rescaled a c p p' -> result_times a (integral_thickness g p) (integral_thickness g p').
Proof.
  intro R. pose proof (thickness_scaled p p' (qq 19 20) R) as T. unfold integral_thickness. destruct (bl_thickness p (qq 19 20)) as [[d|]|e]; cbn [result_times] in T; rewrite T; cbn [bind]; [|reflexivity|reflexivity].
  rewrite oscale_val. rewrite (zero_eq_iff a d Pa). destruct (qeqb d 0%num); [cbn [result_times]; rewrite oscale_val; f_equal; f_equal; qring|].
  pose proof (prof_crop_scaled p p' d R) as Q. destruct (prof_crop p (Some (0%num, d)) None) as [q|e]; cbn [bind]; [|rewrite Q; reflexivity].
  destruct Q as (q' & E & X & Y & _). rewrite E. cbn [bind]. rewrite (wall_points_scaled q q' X Y). destruct (wall_points q) as [|t l]; [cbn [map result_times]; rewrite oscale_val; f_equal; f_equal; qring|].
  cbn [map]. change (sc2 t :: map sc2 l) with (map sc2 (t :: l)). rewrite all_known_scaled. destruct (all_known (t :: l)) as [pts|]; [|reflexivity]. cbn [option_map]. cbv zeta.
  assert (EM : map snd (map sc2n pts) = map (fun x => x * c)%num (map snd pts)) by (now rewrite !map_map). rewrite EM, (lmax_mul c _ Pc), (zero_eq_iff c _ Pc).
  destruct (qeqb_spec (lmax (map snd pts)) 0%num) as [|NZ]; [reflexivity|]. cbn [result_times]. rewrite oscale_val. f_equal. f_equal. rewrite <- trapz_scaled. f_equal. rewrite !map_map. apply map_ext. intros [x u]. unfold sc2n. cbn [fst snd]. f_equal. f_equal.
  assert (NC : c <> 0%num) by (now apply qgt_neq). qfield; split; assumption.
Qed.
Lemma displ_scaled p p' : rescaled a c p p' -> result_times a (displ_thickness p) (displ_thickness p') /\ result_times a (momentum_thickness p) (momentum_thickness p').
Proof. intro R. split; now apply integral_scaled. Qed.
Lemma shape_scaled p p' : rescaled a c p p' -> shape_factor p' = shape_factor p.
Proof.
  intro R. destruct (displ_scaled p p' R) as [D M]. unfold shape_factor. destruct (displ_thickness p) as [d|e]; cbn [result_times] in D; rewrite D; [|reflexivity]. cbn [bind].
  destruct (momentum_thickness p) as [m|e]; cbn [result_times] in M; rewrite M; [|reflexivity]. cbn [bind]. f_equal. destruct d as [d|]; [|reflexivity]. destruct m as [m|]; [|reflexivity]. rewrite !oscale_val.
  unfold odiv. rewrite (zero_eq_iff a m Pa). destruct (qeqb_spec m 0%num) as [|NZ]; [reflexivity|]. f_equal. assert (NA : a <> 0%num) by (now apply qgt_neq). qfield. split; assumption.
Qed.
End Scaling.
Lemma rescale_lemma a c p p' : (0 < a)%num -> (0 < c)%num -> rescaled a c p p' ->
  (forall perc, result_times a (bl_thickness p perc) (bl_thickness p' perc)) /\
  result_times a (displ_thickness p) (displ_thickness p') /\ result_times a (momentum_thickness p) (momentum_thickness p') /\
  shape_factor p' = shape_factor p.
Proof.
  intros Pa Pc R. split; [intro perc; exact (thickness_scaled a c Pc p p' perc R)|]. destruct (displ_scaled a c Pa Pc p p' R) as [D M]. split; [exact D|]. split; [exact M|]. exact (shape_scaled a c Pa Pc p p' R).
Qed.
