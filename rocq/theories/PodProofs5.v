(** * PodProofs5: the decomposition followed by the reconstruction *)
From Coq Require Import Sorted Permutation Lia.
From Verif Require Import Num Res ListLib SortLib Arr FieldModel ScalarFieldModel VectorFieldModel ProfileModel FieldSpec SeqSpec
  ProfileSpec ProfileProofs ProfileProofs2 PointsModel PointsSpec FieldProofs2 TemporalModel TemporalSpec TemporalProofs2 TemporalProofs10 GradModel GradProofs2 PodModel PodSpec PodProofs PodProofs2 PodProofs3 PodProofs4.

(** ** sums *)
Lemma sumn_ext n f g : (forall k, k < n -> f k = g k) -> sumn n f = sumn n g.
Proof. induction n as [|n IH]; intro H; [reflexivity|]. cbn [sumn]. rewrite IH by (intros; apply H; lia). now rewrite H by lia. Qed.
Lemma sumn_add n f g : sumn n (fun k => f k + g k)%num = (sumn n f + sumn n g)%num.
Proof. induction n as [|n IH]; cbn [sumn]; [qring|]. rewrite IH. qring. Qed.
Lemma sumn_mul_l n c f : sumn n (fun k => c * f k)%num = (c * sumn n f)%num.
Proof. induction n as [|n IH]; cbn [sumn]; [qring|]. rewrite IH. qring. Qed.
Lemma sumn_mul_r n c f : sumn n (fun k => f k * c)%num = (sumn n f * c)%num.
Proof. induction n as [|n IH]; cbn [sumn]; [qring|]. rewrite IH. qring. Qed.
Lemma sumn_zero n : sumn n (fun _ => 0%num) = 0%num.
Proof. induction n as [|n IH]; cbn [sumn]; [reflexivity|]. rewrite IH. qring. Qed.
Lemma sumn_swap n m f : sumn n (fun a => sumn m (fun b => f a b)) = sumn m (fun b => sumn n (fun a => f a b)).
Proof. induction n as [|n IH]; cbn [sumn]; [now rewrite sumn_zero|]. rewrite IH. now rewrite sumn_add. Qed.
Lemma sumn_nonneg n f : (forall k, k < n -> (0 <= f k)%num) -> (0 <= sumn n f)%num.
Proof. induction n as [|n IH]; intro H; cbn [sumn]; [apply Qcle_refl|]. specialize (IH (fun k Hk => H k (Nat.lt_lt_succ_r _ _ Hk))). specialize (H n (Nat.lt_succ_diag_r n)). qlra. Qed.
Lemma sumn_nonneg_zero n f : (forall k, k < n -> (0 <= f k)%num) -> sumn n f = 0%num -> forall k, k < n -> f k = 0%num.
Proof.
  induction n as [|n IH]; intros H E k Hk; [lia|]. cbn [sumn] in E.
  assert (P : (0 <= sumn n f)%num) by (apply sumn_nonneg; intros; apply H; lia). pose proof (H n (Nat.lt_succ_diag_r n)) as Q.
  destruct (Nat.eq_dec k n) as [-> | N]; [qlra|]. apply IH; [intros; apply H; lia|qlra|lia].
Qed.
Lemma sumn_select n k f : k < n -> sumn n (fun l => f l * (if Nat.eqb l k then 1 else 0))%num = f k.
Proof.
  intro H. assert (Z : forall m, m <= k -> sumn m (fun l => f l * (if Nat.eqb l k then 1 else 0))%num = 0%num).
  { induction m as [|m IH]; intro L; [reflexivity|]. cbn [sumn]. rewrite IH by lia. destruct (Nat.eqb_spec m k); [lia|qring]. }
  assert (G : forall m, k < m -> sumn m (fun l => f l * (if Nat.eqb l k then 1 else 0))%num = f k); [|now apply G].
  induction m as [|m IH]; intro L; [lia|]. cbn [sumn]. destruct (Nat.eqb_spec m k) as [-> | N]; [rewrite Z by lia; qring|rewrite IH by lia; qring].
Qed.
Lemma sumn_split n N f : N <= n -> (forall k, N <= k -> k < n -> f k = 0%num) -> sumn n f = sumn N f.
Proof.
  intros L Z. induction n as [|n IH]; [now replace N with 0 by lia|]. destruct (Nat.eq_dec N (S n)) as [-> | NE]; [reflexivity|]. cbn [sumn].
  rewrite IH by (first [lia|intros; apply Z; lia]). rewrite Z by lia. qring.
Qed.
Lemma total_sumn n f : total (map f (seq 0 n)) = sumn n f.
Proof.
  induction n as [|n IH]; [reflexivity|]. rewrite seq_S, map_app, total_app', IH. cbn [sumn map Nat.add]. unfold total. cbn [fold_right]. qring.
Qed.

(** ** the sum of the modes weighted by their coefficients gives back the snapshots *)
Section Algebra.
  Context (nc nx ny T N : nat) (s : nat -> nat -> nat -> nat -> num) (lam : nat -> num) (V : nat -> nat -> num) (root : num -> num).
  Context (LN : N <= T).
  Context (ORT : forall k l, k < T -> l < T -> sumn T (fun n => V k n * V l n)%num = if Nat.eqb k l then 1%num else 0%num).
  Context (EIG : forall n k, n < T -> k < T -> sumn T (fun l => dot nc nx ny (s k) (s l) * V l n)%num = (lam n * V k n)%num).
  Context (RT : forall n, n < N -> lam n <> 0%num /\ (root (lam n) * root (lam n) = lam n)%num).
  Context (NUL : forall n, N <= n -> n < T -> lam n = 0%num).
  Let W n c i j := sumn T (fun k => s k c i j * V k n)%num.
  Lemma pod_norm n : n < T -> sumn nc (fun c => sumn nx (fun i => sumn ny (fun j => W n c i j * W n c i j)%num)) = sumn T (fun k => V k n * (lam n * V k n))%num.
  Proof.
    intro Hn. transitivity (sumn T (fun k => sumn T (fun l => V k n * (dot nc nx ny (s k) (s l) * V l n)))%num).
    - assert (P : forall c i j, (W n c i j * W n c i j)%num = sumn T (fun k => sumn T (fun l => V k n * (s k c i j * s l c i j * V l n)))%num).
      { intros c i j. unfold W at 1. rewrite <- sumn_mul_r. apply sumn_ext. intros k _. unfold W. rewrite <- sumn_mul_l. apply sumn_ext. intros l _. qring. }
      rewrite (sumn_ext nc _ (fun c => sumn T (fun k => sumn T (fun l => V k n * (sumn nx (fun i => sumn ny (fun j => s k c i j * s l c i j)) * V l n))))%num).
      + rewrite sumn_swap. apply sumn_ext. intros k _. rewrite sumn_swap. apply sumn_ext. intros l _. unfold dot. rewrite sumn_mul_l. f_equal. now rewrite sumn_mul_r.
      + intros c _. rewrite (sumn_ext nx _ (fun i => sumn T (fun k => sumn T (fun l => V k n * (sumn ny (fun j => s k c i j * s l c i j) * V l n))))%num).
        * rewrite sumn_swap. apply sumn_ext. intros k _. rewrite sumn_swap. apply sumn_ext. intros l _. rewrite sumn_mul_l. f_equal. now rewrite sumn_mul_r.
        * intros i _. rewrite (sumn_ext ny _ (fun j => sumn T (fun k => sumn T (fun l => V k n * (s k c i j * s l c i j * V l n))))%num) by (intros; apply P).
          rewrite sumn_swap. apply sumn_ext. intros k _. rewrite sumn_swap. apply sumn_ext. intros l _. rewrite sumn_mul_l. f_equal. now rewrite sumn_mul_r.
    - apply sumn_ext. intros k Hk. rewrite sumn_mul_l. f_equal. now apply EIG.
  Qed.
  Lemma pod_null n c i j : N <= n -> n < T -> c < nc -> i < nx -> j < ny -> W n c i j = 0%num.
  Proof.
    intros H1 H2 Hc Hi Hj. pose proof (pod_norm n H2) as E. rewrite (sumn_ext T _ (fun _ => 0%num)) in E by (intros; rewrite NUL by assumption; qring). rewrite sumn_zero in E.
    pose proof (sumn_nonneg_zero nc _ ltac:(intros; apply sumn_nonneg; intros; apply sumn_nonneg; intros; apply qsq_nonneg) E c Hc) as E1. cbn beta in E1.
    pose proof (sumn_nonneg_zero nx _ ltac:(intros; apply sumn_nonneg; intros; apply qsq_nonneg) E1 i Hi) as E2. cbn beta in E2.
    pose proof (sumn_nonneg_zero ny _ ltac:(intros; apply qsq_nonneg) E2 j Hj) as E3. cbn beta in E3. destruct (Qcmult_integral _ _ E3); assumption.
  Qed.
  Lemma pod_algebra k c i j : k < T -> c < nc -> i < nx -> j < ny ->
    sumn N (fun n => sumn T (fun l => s l c i j * V l n) / root (lam n) * (V k n * root (lam n)))%num = s k c i j.
  Proof.
    intros Hk Hc Hi Hj. transitivity (sumn N (fun n => W n c i j * V k n)%num).
    { apply sumn_ext. intros n Hn. fold (W n c i j). destruct (RT n Hn) as (Z & R). assert (root (lam n) <> 0%num). { intro Hz. rewrite Hz in R. apply Z. rewrite <- R. qring. }
      replace (W n c i j / root (lam n) * (V k n * root (lam n)))%num with (W n c i j / root (lam n) * root (lam n) * V k n)%num by qring. now rewrite qdiv_mul. }
    rewrite <- (sumn_split T N (fun n => W n c i j * V k n)%num LN) by (intros n A B; rewrite pod_null by assumption; qring).
    unfold W. rewrite (sumn_ext T _ (fun n => sumn T (fun l => s l c i j * (V l n * V k n)))%num) by (intros; rewrite <- sumn_mul_r; apply sumn_ext; intros; qring).
    rewrite sumn_swap. rewrite (sumn_ext T _ (fun l => s l c i j * (if Nat.eqb l k then 1 else 0))%num).
    - now apply (sumn_select T k (fun l => s l c i j)).
    - intros l Hl. rewrite sumn_mul_l. f_equal. now apply ORT.
  Qed.
End Algebra.

(** ** what modal_pod builds *)
Lemma prof_new_plain x v u w : nondecreasing x -> length v = length x -> exists p, prof_new x (map Some v) None u w = Ok p /\ prof_ok p /\ px p = x /\ yv p = map Some v /\ pux p = u /\ puy p = w.
Proof.
  intros H L. destruct (new_lemma x (map Some v) None u w) as (p & E & O & U1 & U2 & _ & S); [now rewrite map_length|exact I|]. destruct (S H) as (X & Sm).
  exists p. repeat (split; [assumption|]). split; [|auto]. pose proof (ok_lengths p O) as (L1 & L2 & _).
  apply (f_equal (map sy)) in Sm. unfold samples in Sm. rewrite zip3_y in Sm by lia. rewrite Sm, map_map. clear -L. revert v L. induction x as [|a x IH]; intros [|b v] L; try discriminate L; [reflexivity|]. cbn. f_equal. apply IH. now injection L.
Qed.
Lemma filter_arange N T : N <= T -> filter (fun i => (i <? Z.of_nat N)%Z) (arange0 (Z.of_nat T)) = arange0 (Z.of_nat N).
Proof.
  intro L. unfold arange0. rewrite !Nat2Z.id. replace T with (N + (T - N)) by lia. rewrite seq_app, map_app, filter_app.
  assert (E1 : filter (fun i => (i <? Z.of_nat N)%Z) (map Z.of_nat (seq 0 N)) = map Z.of_nat (seq 0 N)).
  { assert (G : forall a n, a + n <= N -> filter (fun i => (i <? Z.of_nat N)%Z) (map Z.of_nat (seq a n)) = map Z.of_nat (seq a n)); [|now apply G].
    intros a n; revert a; induction n as [|n IH]; intros a H; [reflexivity|]. cbn [seq map filter]. destruct (Z.ltb_spec (Z.of_nat a) (Z.of_nat N)); [|lia]. f_equal. apply IH. lia. }
  assert (E2 : forall n a, N <= a -> filter (fun i => (i <? Z.of_nat N)%Z) (map Z.of_nat (seq a n)) = []).
  { induction n as [|n IH]; intros a H; [reflexivity|]. cbn [seq map filter]. destruct (Z.ltb_spec (Z.of_nat a) (Z.of_nat N)); [lia|]. apply IH. lia. }
  rewrite E1, E2 by lia. apply app_nil_r.
Qed.
Lemma get_first {A} (l : list A) n : n <= length l -> mapM (py_get l) (arange0 (Z.of_nat n)) = Ok (firstn n l).
Proof.
  intro L. destruct (py_get_all l (arange0 (Z.of_nat n)) (seq 0 n) (designates_first n _ L)) as (r & E & T). rewrite E. f_equal. now apply taken_seq_firstn.
Qed.
Lemma mapM_ext_in {A B} (f g : A -> res B) l : (forall a, In a l -> f a = g a) -> mapM f l = mapM g l.
Proof. induction l as [|a l IH]; intro H; [reflexivity|]. cbn [mapM]. rewrite (H a (or_introl eq_refl)), IH; [reflexivity|]. intros; apply H; now right. Qed.
Lemma mapM_ok {A B} (f : A -> B) l : mapM (fun a => Ok (f a)) l = Ok (map f l).
Proof. induction l as [|a l IH]; [reflexivity|]. cbn [mapM bind map]. rewrite IH. reflexivity. Qed.
Lemma py_get_map {A} (f : nat -> A) n k : k < n -> py_get (map f (seq 0 n)) (Z.of_nat k) = Ok (f k).
Proof.
  intro H. destruct (py_get_ok (map f (seq 0 n)) (Z.of_nat k) k) as (a & E & G); [rewrite map_length, seq_length; split; [lia|now left]|].
  rewrite nth_error_map, (nth_error_nth' _ 0), seq_nth in E by (rewrite ?seq_length; lia). cbn in E. injection E as <-. exact G.
Qed.
Lemma nths_map_seq (f : nat -> num) n k : k < n -> nths (map f (seq 0 n)) k = f k.
Proof. intro H. apply nth_error_nths. rewrite nth_error_map, (nth_error_nth' _ 0), seq_nth by (rewrite ?seq_length; lia). reflexivity. Qed.
Lemma nondec_qz N : nondecreasing (map qz (arange0 (Z.of_nat N))).
Proof.
  intros i j Hij Hj. unfold arange0 in *. rewrite Nat2Z.id in *. rewrite map_map, map_length, seq_length in Hj. rewrite map_map.
  rewrite !nths_map_seq by lia. apply qz_le. lia.
Qed.
Lemma incr_qz N : increasing (map qz (arange0 (Z.of_nat N))).
Proof.
  intros i j Hij Hj. unfold arange0 in *. rewrite Nat2Z.id in *. rewrite map_map, map_length, seq_length in Hj. rewrite map_map.
  rewrite !nths_map_seq by lia. apply qz_lt. lia.
Qed.
Lemma modal_run {F} (M : mops F) asort nearest linear cubic solve root (t t1 t2 fl : tfield F) mean d dr lam V N (P : nat -> F -> Prop) :
  let T := length (tff t) in let sol := solve (map (m_comps M) (tff fl)) in
  tf_crop_border (m_ops M) t = Ok t1 -> tf_fill_in M nearest linear cubic t1 = Ok t2 -> tf_mean (m_ops M) t2 1 = Ok mean -> tf_fluct (m_ops M) asort t2 1 = Ok fl ->
  tff fl = d :: dr -> length (tft fl) = T -> nondecreasing (tft fl) ->
  s_vals sol = map lam (seq 0 N) -> s_vects sol = map (fun k => map (V k) (seq 0 N)) (seq 0 T) -> 1 <= N -> N <= T ->
  (forall n, n < N -> exists f, m_import M (tfg fl) (s_mode sol n) (tf_mask_cum (m_ops M) fl) (m_unit M d) = Ok f /\ P n f) ->
  exists fmodes evo ev,
    modal_pod M asort nearest linear cubic solve root t WAll =
      Ok (mkmf Pod mean fmodes (arange0 (Z.of_nat N)) evo (tft fl) (tfu fl) (o_grid (m_ops M) mean) (m_unit M mean) (Some ev) (Some (s_vects sol)) None None None None) /\
    Forall2 P (seq 0 N) fmodes /\
    Forall2 (fun n p => prof_ok p /\ px p = tft fl /\ pux p = tfu fl /\ yv p = map Some (map (fun k => V k n * root (lam n))%num (seq 0 T))) (seq 0 N) evo /\
    prof_ok ev /\ px ev = map qz (arange0 (Z.of_nat N)) /\ yv ev = map Some (map lam (seq 0 N)).
Proof.
  intros T sol E1 E2 E3 E4 Ed LT ND SV SW HN HNT IMP.
  unfold modal_pod. cbn [dwanted bind]. rewrite E1. cbn [bind]. rewrite E2. cbn [bind]. rewrite E3. cbn [bind]. rewrite E4. cbn [bind].
  assert (G0 : py_get (tff fl) 0 = Ok d) by (rewrite Ed; reflexivity). rewrite G0. cbn [bind]. fold sol.
  assert (length (s_vals sol) = N) as LSV by (rewrite SV, map_length, seq_length; reflexivity). rewrite LSV. fold T. rewrite (filter_arange N T HNT).
  set (ws := arange0 (Z.of_nat N)).
  assert (mapM (fun row => mapM (py_get row) ws) (s_vects sol) = Ok (s_vects sol)) as ->.
  { rewrite (mapM_ext_in _ (fun row => Ok row)); [rewrite mapM_ok, map_id; reflexivity|]. intros row Ir. rewrite SW in Ir. apply in_map_iff in Ir. destruct Ir as (k & <- & _).
    unfold ws. rewrite get_first by (rewrite map_length, seq_length; lia). f_equal. replace N with (length (map (V k) (seq 0 N))) at 1 by (now rewrite map_length, seq_length). apply firstn_all. }
  cbn [bind]. assert (mapM (py_get (s_vals sol)) ws = Ok (map lam (seq 0 N))) as ->.
  { unfold ws. rewrite get_first by lia. rewrite <- SV. f_equal. apply firstn_all2. lia. }
  cbn [bind].
  assert (LA : length (map qz ws) = N) by (unfold ws, arange0; now rewrite !map_length, seq_length, Nat2Z.id).
  destruct (prof_new_plain (map qz ws) (map lam (seq 0 N)) (tfu fl) one_unit (nondec_qz N)) as (ev & Eev & Oev & Xev & Yev & _); [rewrite map_length, seq_length; congruence|].
  rewrite Eev. cbn [bind].
  assert (Lws : length ws = N) by (now rewrite map_length in LA). rewrite Lws.
  set (ef := fun n => let* col := mapM (fun row => py_get row (Z.of_nat n)) (s_vects sol) in let* e := py_get (yv ev) (Z.of_nat n) in
     prof_new (tft fl) (map (fun v => option_map (fun e => v * root e)%num e) col) None (tfu fl) (m_unit M d)).
  assert (EF : forall n, n < N -> exists p, ef n = Ok p /\ prof_ok p /\ px p = tft fl /\ pux p = tfu fl /\ yv p = map Some (map (fun k => V k n * root (lam n))%num (seq 0 T))).
  { intros n Hn. unfold ef. rewrite SW.
    assert (mapM (fun row => py_get row (Z.of_nat n)) (map (fun k => map (V k) (seq 0 N)) (seq 0 T)) = Ok (map (fun k => V k n) (seq 0 T))) as ->.
    { rewrite <- mapM_ok. assert (G : forall l, mapM (fun row => py_get row (Z.of_nat n)) (map (fun k => map (V k) (seq 0 N)) l) = mapM (fun a => Ok (V a n)) l); [|apply G].
      induction l as [|k l IH]; [reflexivity|]. cbn [map mapM]. rewrite py_get_map by exact Hn. cbn [bind]. rewrite IH. reflexivity. }
    cbn [bind]. rewrite Yev, map_map. rewrite (py_get_map (fun x => Some (lam x))) by exact Hn. cbn [bind option_map].
    replace (map (fun v => Some (v * root (lam n))%num) (map (fun k => V k n) (seq 0 T))) with (map Some (map (fun k => V k n * root (lam n))%num (seq 0 T))) by (rewrite !map_map; reflexivity).
    destruct (prof_new_plain (tft fl) (map (fun k => V k n * root (lam n))%num (seq 0 T)) (tfu fl) (m_unit M d) ND) as (p & Ep & Op & Xp & Yp & Up & _); [rewrite map_length, seq_length; congruence|].
    exists p. auto. }
  destruct (mapM_forall2_ex ef (fun n p => prof_ok p /\ px p = tft fl /\ pux p = tfu fl /\ yv p = map Some (map (fun k => V k n * root (lam n))%num (seq 0 T))) (seq 0 N)) as (evo & Eevo & Fevo).
  { intros n Hn. apply in_seq in Hn. destruct (EF n ltac:(lia)) as (p & H). eauto. }
  rewrite Eevo. cbn [bind].
  assert (exists fm, mapM (fun cs => m_import M (tfg fl) cs (tf_mask_cum (m_ops M) fl) (m_unit M d)) (map (fun i => s_mode sol (Z.to_nat i)) ws) = Ok fm /\ Forall2 P (seq 0 N) fm) as (fm & Efm & Ffm).
  { destruct (mapM_forall2_ex (fun n => m_import M (tfg fl) (s_mode sol n) (tf_mask_cum (m_ops M) fl) (m_unit M d)) P (seq 0 N)) as (fm & E & Ff).
    { intros n Hn. apply in_seq in Hn. apply IMP. lia. }
    exists fm. split; [|exact Ff]. rewrite <- E. unfold ws, arange0. rewrite Nat2Z.id, map_map. assert (G : forall l, mapM (fun cs => m_import M (tfg fl) cs (tf_mask_cum (m_ops M) fl) (m_unit M d)) (map (fun x => s_mode sol (Z.to_nat (Z.of_nat x))) l) = mapM (fun n => m_import M (tfg fl) (s_mode sol n) (tf_mask_cum (m_ops M) fl) (m_unit M d)) l); [|apply G].
    induction l as [|k l IH]; [reflexivity|]. cbn [map mapM]. rewrite Nat2Z.id. destruct (m_import M (tfg fl) (s_mode sol k) _ _); [|reflexivity]. cbn [bind]. rewrite IH. reflexivity. }
  rewrite Efm. cbn [bind].
  assert (Lfm := Forall2_len _ _ _ Ffm). rewrite seq_length in Lfm. assert (Lev := Forall2_len _ _ _ Fevo). rewrite seq_length in Lev.
  exists fm, evo, ev. split; [|auto 10].
  unfold mf_new. destruct fm as [|f0 fm]; [cbn in Lfm; lia|]. destruct evo as [|p0 evo]; [cbn in Lev; lia|]. assert (X0 : px p0 = tft fl /\ pux p0 = tfu fl) by (clear -Fevo; inversion Fevo as [|? ? ? ? (_ & X & U & _)]; auto). destruct X0 as (X0 & U0).
  rewrite <- Lfm, Lws, <- Lev, !Nat.eqb_refl. cbn [negb guard]. unfold len_is. cbn [option_map]. rewrite Xev, LA, Nat.eqb_refl. cbn [negb guard].
  rewrite X0, U0, LT, SW, map_length, seq_length, Nat.eqb_refl.
  assert (forallb (fun r => Nat.eqb (length r) N) (map (fun k => map (V k) (seq 0 N)) (seq 0 T)) = true) as ->.
  { apply forallb_forall. intros r Hr. apply in_map_iff in Hr. destruct Hr as (k & <- & _). rewrite map_length, seq_length. apply Nat.eqb_refl. }
  cbn [andb negb guard]. reflexivity.
Qed.
