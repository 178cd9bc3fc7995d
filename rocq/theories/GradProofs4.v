From Verif Require Import Num Res ListLib SortLib Arr FieldModel ScalarFieldModel VectorFieldModel PointsModel FieldSpec FieldProofs FieldProofs2 ScalarProofs GradModel GradSpec GradProofs GradProofs2 GradProofs3.

(** ** sums over 0..n-1 *)
Lemma sumn_ext n f g : (forall k, k < n -> f k = g k) -> sumn n f = sumn n g.
Proof. induction n as [|n IH]; intro H; [reflexivity|]. cbn [sumn]. rewrite IH by (intros; apply H; lia). now rewrite H by lia. Qed.
Lemma sumn_add n f g : sumn n (fun k => f k + g k)%num = (sumn n f + sumn n g)%num.
Proof. induction n as [|n IH]; cbn [sumn]; [qring|]. rewrite IH. qring. Qed.
Lemma sumn_sub n f g : sumn n (fun k => f k - g k)%num = (sumn n f - sumn n g)%num.
Proof. induction n as [|n IH]; cbn [sumn]; [qring|]. rewrite IH. qring. Qed.
Lemma sumn_scale n c f : sumn n (fun k => c * f k)%num = (c * sumn n f)%num.
Proof. induction n as [|n IH]; cbn [sumn]; [qring|]. rewrite IH. qring. Qed.
Lemma sumn_const n c : sumn n (fun _ => c) = (qn n * c)%num.
Proof. induction n as [|n IH]; cbn [sumn]; [change (qn 0) with (qz 0); qring|]. rewrite IH, qn_S. qring. Qed.
Lemma sumn_telescope n f : sumn n (fun k => f (S k) - f k)%num = (f n - f O)%num.
Proof. induction n as [|n IH]; cbn [sumn]; [qring|]. rewrite IH. qring. Qed.
Lemma sumn_first n f : sumn (S n) f = (f O + sumn n (fun k => f (S k)))%num.
Proof. induction n as [|n IH]; [cbn; qring|]. change (sumn (S (S n)) f) with (sumn (S n) f + f (S n))%num. rewrite IH. cbn [sumn]. qring. Qed.
Lemma sumn_seq n f : forall s, qsum (map f (seq s n)) = sumn n (fun k => f (s + k)).
Proof.
  induction n as [|n IH]; intro s; [reflexivity|]. rewrite sumn_first. cbn [seq map qsum fold_right].
  change (fold_right Qcplus 0%num) with qsum. rewrite IH. rewrite Nat.add_0_r. f_equal. apply sumn_ext. intros k _. f_equal. lia.
Qed.
(** 2 (0 + 1 + ... + (n-1)) = n (n-1) *)
Lemma sumn_ramp n : (2 * sumn n qn)%num = (qn n * (qn n - 1))%num.
Proof. induction n as [|n IH]; cbn [sumn]; [change (qn 0) with (qz 0); qring|]. rewrite qn_S. replace (2 * (sumn n qn + qn n))%num with (2 * sumn n qn + 2 * qn n)%num by qring. rewrite IH. qring. Qed.
Lemma qsum_affine n a h : (2 * sumn n (fun k => a + qn k * h))%num = (qn n * (2 * a + (qn n - 1) * h))%num.
Proof.
  rewrite sumn_add, sumn_const. rewrite (sumn_ext n (fun k => qn k * h)%num (fun k => h * qn k)%num) by (intros; qring). rewrite sumn_scale.
  replace (2 * (qn n * a + h * sumn n qn))%num with (2 * (qn n * a) + h * (2 * sumn n qn))%num by qring. rewrite sumn_ramp. qring.
Qed.

(** ** the axes of the windows *)
Lemma firstn_seq (l : list num) w : w <= length l -> firstn w l = map (fun k => nths l k) (seq 0 w).
Proof.
  revert l. induction w as [|w IH]; intros [|x l] H; cbn in H; try lia; [reflexivity..|].
  cbn [firstn seq map]. f_equal. rewrite <- seq_shift, map_map. rewrite (IH l) by lia. reflexivity.
Qed.
Lemma skipn_seq (l : list num) n : n <= length l -> skipn n l = map (fun k => nths l k) (seq n (length l - n)).
Proof.
  revert n. induction l as [|x l IH]; intros [|n] H; cbn in H; try lia; [reflexivity| |].
  - cbn [skipn length Nat.sub]. rewrite <- firstn_seq by (cbn; lia). symmetry. apply (firstn_all (x :: l)).
  - cbn [skipn length Nat.sub]. rewrite <- seq_shift, map_map. rewrite (IH n) by lia. reflexivity.
Qed.
Lemma qmean_seq (f : nat -> num) s w : 0 < w -> qmean (map f (seq s w)) = (sumn w (fun k => f (s + k)%nat) / qn w)%num.
Proof. intro H. unfold qmean. rewrite sumn_seq, map_length, seq_length. reflexivity. Qed.
Lemma qn_nz w : 0 < w -> qn w <> 0%num.
Proof. intro. apply qgt_neq. unfold qn. apply qz_lt. lia. Qed.
Lemma mean_affine w a h : 0 < w -> (sumn w (fun k => a + qn k * h) / qn w)%num = (a + (qn w - 1) / 2 * h)%num.
Proof.
  intro Hw. pose proof (qn_nz w Hw). pose proof (qsum_affine w a h).
  replace (sumn w (fun k => a + qn k * h))%num with ((2 * sumn w (fun k => a + qn k * h)) / 2)%num by (qfield; discriminate).
  rewrite H0. qfield. repeat split; try assumption; discriminate.
Qed.
Lemma window_axis_spec l h w : evenly l h -> 0 < w <= length l ->
  length (window_axis l w) = length l + 1 - w /\ 
  forall i, i < length l + 1 - w -> nths (window_axis l w) i = (nths l i + (qn w - 1) / 2 * h)%num.
Proof.
  intros E Hw. pose proof (evenly_step _ _ E) as Es. destruct E as (Hh & Hl & He). unfold window_axis. rewrite Es.
  assert (qmean (firstn w l) = (nths l 0 + (qn w - 1) / 2 * h)%num) as ->.
  { rewrite firstn_seq by lia. rewrite qmean_seq by lia. rewrite <- mean_affine by lia. f_equal. apply sumn_ext. intros k Hk. apply He. lia. }
  assert (qmean (map (fun x => x + h * qq 9 10)%num (skipn (length l - w) l)) =
          (nths l 0 + (qn w - 1) / 2 * h + (qn (length l - w) + qq 9 10) * h)%num) as ->.
  { rewrite skipn_seq by lia. rewrite map_map. replace (length l - (length l - w)) with w by lia. rewrite qmean_seq by lia.
    rewrite (sumn_ext w _ (fun k => (nths l 0 + (qn (length l - w) + qq 9 10) * h) + qn k * h)%num).
    - rewrite mean_affine by lia. qring.
    - intros k Hk. rewrite He by lia. unfold qn. rewrite Nat2Z.inj_add, qz_add. qring. }
  unfold arange.
  assert (Z.to_nat (qceil ((nths l 0 + (qn w - 1) / 2 * h + (qn (length l - w) + qq 9 10) * h - (nths l 0 + (qn w - 1) / 2 * h)) / h)%num)
          = length l + 1 - w) as ->.
  { replace ((nths l 0 + (qn w - 1) / 2 * h + (qn (length l - w) + qq 9 10) * h - (nths l 0 + (qn w - 1) / 2 * h)) / h)%num
      with (qn (length l - w) + qq 9 10)%num by (qfield; repeat split; try (apply qgt_neq; exact Hh); discriminate).
    assert (qceil (qn (length l - w) + qq 9 10)%num = Z.of_nat (length l - w) + 1)%Z as ->; [|lia].
    apply Z.le_antisymm.
    - apply qceil_iff. rewrite qz_add. unfold qn. apply Qcplus_le_compat; [apply qle_refl|]. apply qleb_le. vm_compute. reflexivity.
    - destruct (Z_lt_le_dec (qceil (qn (length l - w) + qq 9 10)%num) (Z.of_nat (length l - w) + 1)) as [L|L]; [|exact L].
      exfalso. assert (qceil (qn (length l - w) + qq 9 10)%num <= Z.of_nat (length l - w))%Z as L' by lia.
      apply qceil_iff in L'. fold (qn (length l - w)) in L'. assert (0 < qq 9 10)%num by (apply qltb_lt; reflexivity). qlra. }
  split; [now rewrite map_length, seq_length|].
  intros i Hi. apply nth_error_nths.
  rewrite nth_error_map. rewrite (nth_error_nth' _ 0) by (rewrite seq_length; lia). rewrite seq_nth by lia. cbn [option_map].
  f_equal. rewrite (He i) by lia. cbn [Nat.add]. qring.
Qed.
Lemma window_axis_evenly l h w : evenly l h -> 0 < w -> w < length l -> evenly (window_axis l w) h.
Proof.
  intros E Hw Hl. destruct (window_axis_spec l h w E ltac:(lia)) as [L N]. destruct E as (Hh & _ & He). rewrite <- L in N.
  split; [exact Hh|]. split; [lia|]. intros i Hi. rewrite (N i Hi), (N 0) by lia. rewrite (He i), (He 0) by lia.
  change (qn 0) with (qz 0). qring.
Qed.

(** ** the circulation *)
Lemma trapz_cons h a b r : trapz h (a :: b :: r) = oadd (odiv (oscale h (oadd a b)) (Some 2%num)) (trapz h (b :: r)).
Proof. reflexivity. Qed.
Lemma trapz_some h (g : nat -> num) n : forall s,
  trapz h (map (fun k => Some (g k)) (seq s n)) = Some (sumn (n - 1) (fun k => (g (s + k)%nat + g (s + S k)%nat) * h / 2)%num).
Proof.
  induction n as [|[|n] IH]; intro s; [reflexivity..|].
  change (map (fun k => Some (g k)) (seq s (S (S n)))) with (Some (g s) :: Some (g (S s)) :: map (fun k => Some (g k)) (seq (S (S s)) n)).
  rewrite trapz_cons. change (Some (g (S s)) :: map (fun k => Some (g k)) (seq (S (S s)) n)) with (map (fun k => Some (g k)) (seq (S s) (S n))).
  rewrite IH. change (S (S n) - 1) with (S n). change (S n - 1) with (n - 0). rewrite Nat.sub_0_r. rewrite sumn_first.
  cbn [oadd lift2 oscale option_map odiv]. change (qeqb 2%num 0%num) with false. cbn [lift2 oadd].
  rewrite Nat.add_0_r. replace (s + 1) with (S s) by lia. f_equal. f_equal.
  apply sumn_ext. intros k _. replace (S s + k) with (s + S k) by lia. now replace (S s + S k) with (s + S (S k)) by lia.
Qed.

Section Circulation.
Variables (u v : nat -> nat -> num) (hx hy : num).
(** the integral along an edge, upwards or to the right *)
Definition up (i j : nat) : num := ((v i j + v i (S j)) * hy / 2)%num.
Definition right (i j : nat) : num := ((u i j + u (S i) j) * hx / 2)%num.
(** counterclockwise around one cell of the grid *)
Definition around (i j : nat) : num := (right i j + up (S i) j - right i (S j) - up i j)%num.
Lemma circulation_edges (vx vy : arr onum) w i j : 0 < w ->
  (forall a b, i <= a < i + w -> j <= b < j + w -> at_ vx a b = Some (u a b) /\ at_ vy a b = Some (v a b)) ->
  circulation vx vy hx hy w i j =
    Some (sumn (w - 1) (fun k => right (i + k) j) + sumn (w - 1) (fun k => up (i + (w - 1)) (j + k))
          - sumn (w - 1) (fun k => right (i + k) (j + (w - 1))) - sumn (w - 1) (fun k => up i (j + k)))%num.
Proof.
  intros Hw H. unfold circulation.
  assert (forall (f : nat -> onum) g, (forall k, k < w -> f k = Some (g k)) -> map f (seq 0 w) = map (fun k => Some (g k)) (seq 0 w)) as M.
  { intros f g E. apply map_ext_in. intros k Hk. apply in_seq in Hk. apply E. lia. }
  rewrite (M (fun k => oneg (at_ vy i (j + k))) (fun k => 0 - v i (j + k)%nat)%num).
  2: { intros k Hk. rewrite (proj2 (H i (j + k) ltac:(lia) ltac:(lia))). cbn. f_equal. qring. }
  rewrite (M (fun k => at_ vy (i + w - 1) (j + k)) (fun k => v (i + (w - 1))%nat (j + k)%nat)).
  2: { intros k Hk. replace (i + w - 1) with (i + (w - 1)) by lia. apply H; lia. }
  rewrite (M (fun k => at_ vx (i + k) j) (fun k => u (i + k)%nat j)).
  2: { intros k Hk. apply H; lia. }
  rewrite (M (fun k => oneg (at_ vx (i + k) (j + w - 1))) (fun k => 0 - u (i + k)%nat (j + (w - 1))%nat)%num).
  2: { intros k Hk. replace (j + w - 1) with (j + (w - 1)) by lia. rewrite (proj1 (H (i + k) (j + (w - 1)) ltac:(lia) ltac:(lia))). cbn. f_equal. qring. }
  rewrite !trapz_some. cbn [oadd lift2]. f_equal. cbn [Nat.add].
  rewrite (sumn_ext (w - 1) (fun k => (0 - v i (j + k)%nat + (0 - v i (j + S k)%nat)) * hy / 2)%num (fun k => 0 - up i (j + k))%num).
  2: { intros k _. unfold up. replace (j + S k) with (S (j + k)) by lia. qfield. discriminate. }
  rewrite (sumn_ext (w - 1) (fun k => (0 - u (i + k)%nat (j + (w - 1))%nat + (0 - u (i + S k)%nat (j + (w - 1))%nat)) * hx / 2)%num
             (fun k => 0 - right (i + k) (j + (w - 1)))%num).
  2: { intros k _. unfold right. replace (i + S k) with (S (i + k)) by lia. qfield. discriminate. }
  rewrite !(sumn_sub (w - 1) (fun _ => 0%num)), !sumn_const.
  rewrite (sumn_ext (w - 1) (fun k => (u (i + k)%nat j + u (i + S k)%nat j) * hx / 2)%num (fun k => right (i + k) j)).
  2: { intros k _. unfold right. now replace (i + S k) with (S (i + k)) by lia. }
  rewrite (sumn_ext (w - 1) (fun k => (v (i + (w - 1))%nat (j + k)%nat + v (i + (w - 1))%nat (j + S k)%nat) * hy / 2)%num (fun k => up (i + (w - 1)) (j + k))).
  2: { intros k _. unfold up. now replace (j + S k) with (S (j + k)) by lia. }
  qring.
Qed.
(** Stokes: the circulation around a window is the sum of those around its cells *)
Lemma circulation_cells (vx vy : arr onum) w i j : 0 < w ->
  (forall a b, i <= a < i + w -> j <= b < j + w -> at_ vx a b = Some (u a b) /\ at_ vy a b = Some (v a b)) ->
  circulation vx vy hx hy w i j = Some (sumn (w - 1) (fun a => sumn (w - 1) (fun b => around (i + a) (j + b)))).
Proof.
  intros Hw H. rewrite (circulation_edges vx vy w i j Hw H). f_equal.
  set (n := w - 1).
  rewrite (sumn_ext n (fun a => sumn n (fun b => around (i + a) (j + b)))
     (fun a => (right (i + a) j - right (i + a) (j + n)) +
               ((fun c => sumn n (fun b => up (i + c) (j + b))) (S a) - (fun c => sumn n (fun b => up (i + c) (j + b))) a))%num).
  - rewrite sumn_add, sumn_sub, (sumn_telescope n (fun c => sumn n (fun b => up (i + c) (j + b)))). rewrite Nat.add_0_r. qring.
  - intros a _. rewrite (sumn_ext n (fun b => around (i + a) (j + b))
       (fun b => (up (i + S a) (j + b) - up (i + a) (j + b)) - (right (i + a) (j + S b) - right (i + a) (j + b)))%num).
    + rewrite sumn_sub, sumn_sub. rewrite (sumn_telescope n (fun b => right (i + a) (j + b))). rewrite Nat.add_0_r. qring.
    + intros b _. unfold around. replace (S (i + a)) with (i + S a) by lia. replace (S (j + b)) with (j + S b) by lia. qring.
Qed.
End Circulation.

(** ** get_stokes_vorticity *)
Lemma window_masked_spec m w i j : window_masked m w i j = true <->
  exists a b, i <= a < i + w /\ j <= b < j + w /\ at_ m a b = true.
Proof.
  unfold window_masked. rewrite existsb_exists. split.
  - intros ([p q] & Hin & E). apply in_aidx in Hin. cbn in E. exists (i + p), (j + q). repeat split; lia || exact E.
  - intros (a & b & Ha & Hb & E). exists (a - i, b - j). split; [apply in_aidx; lia|]. cbn.
    replace (i + (a - i)) with a by lia. now replace (j + (b - j)) with b by lia.
Qed.
Definition onan (a : onum) : num := match a with Some q => q | None => 0%num end.
Lemma stokes_run f hx hy w : vf_wf f -> vf_clean f -> evenly (ax (vg f)) hx -> evenly (ay (vg f)) hy ->
  0 < w -> w < length (ax (vg f)) -> w < length (ay (vg f)) ->
  exists s, vf_stokes f w = Ok s /\
    sg s = mkgrid (window_axis (ax (vg f)) w) (window_axis (ay (vg f)) w) (ux (vg f)) (uy (vg f)) /\
    uv s = unit_div (vuv f) (ux (vg f)) /\ sf_wf s /\
    forall i j, i < length (ax (vg f)) + 1 - w -> j < length (ay (vg f)) + 1 - w ->
      at_ (msk s) i j = window_masked (vmsk f) w i j /\
      (window_masked (vmsk f) w i j = true -> at_ (values s) i j = None) /\
      (window_masked (vmsk f) w i j = false ->
        at_ (values s) i j = Some (sumn (w - 1) (fun a => sumn (w - 1) (fun b =>
            around (fun i j => onan (at_ (cx f) i j)) (fun i j => onan (at_ (cy f) i j)) hx hy (i + a) (j + b)))
           * (1 / (hx * hy * (qn w * qn w))))%num).
Proof.
  intros W C Ex Ey W0 Wx Wy. pose proof Ex as (Hx & Lx & _). pose proof Ey as (Hy & Ly & _).
  pose proof (window_axis_evenly _ _ w Ex W0 Wx) as Ax. pose proof (window_axis_evenly _ _ w Ey W0 Wy) as Ay.
  destruct (window_axis_spec _ _ w Ex ltac:(lia)) as [Nx _]. destruct (window_axis_spec _ _ w Ey ltac:(lia)) as [Ny _].
  unfold vf_stokes. rewrite !ltb2 by assumption. cbn [orb guard].
  assert (Nat.eqb w 0 = false) as -> by (apply Nat.eqb_neq; lia). cbn [guard].
  rewrite (evenly_step _ _ Ex), (evenly_step _ _ Ey).
  assert (Nat.ltb (length (window_axis (ax (vg f)) w)) (length (ax (vg f)) + 1 - w) = false) as -> by (apply Nat.ltb_ge; lia).
  assert (Nat.ltb (length (window_axis (ay (vg f)) w)) (length (ay (vg f)) + 1 - w) = false) as -> by (apply Nat.ltb_ge; lia).
  cbn [orb]. rewrite andb_false_r. cbn [guard].
  rewrite sf_import_plain; try reflexivity; [|now apply (evenly_increasing _ hx)|now apply (evenly_increasing _ hy)|lia|lia].
  eexists. split; [reflexivity|]. split; [reflexivity|]. split; [reflexivity|]. split; [repeat split|].
  intros i j Hi Hj. cbn [values msk raw amap amap2 at_ d0 d1].
  assert ((Nat.ltb i (length (ax (vg f)) + 1 - w) && Nat.ltb j (length (ay (vg f)) + 1 - w))%bool = true) as ->.
  { apply andb_true_iff. split; apply Nat.ltb_lt; assumption. }
  cbn [andb]. destruct (window_masked (vmsk f) w i j) eqn:M; cbn [negb orb isnan].
  - repeat split; discriminate.
  - rewrite (circulation_cells (fun i j => onan (at_ (cx f) i j)) (fun i j => onan (at_ (cy f) i j)) hx hy (cx f) (cy f) w i j W0).
    + cbn [oscale option_map isnan]. repeat split; discriminate.
    + intros a b Ha Hb. assert (at_ (vmsk f) a b = false) as Mab.
      { destruct (at_ (vmsk f) a b) eqn:K; [|reflexivity]. rewrite <- M. symmetry. apply window_masked_spec. eauto. }
      destruct (C a b ltac:(lia) ltac:(lia)) as [C1 C2]. rewrite Mab in C1, C2. split.
      * destruct (at_ (cx f) a b); [reflexivity|]. destruct C1 as [C1 _]. discriminate (C1 eq_refl).
      * destruct (at_ (cy f) a b); [reflexivity|]. destruct C2 as [C2 _]. discriminate (C2 eq_refl).
Qed.

(** where the result is given: the centres of the windows; and what is masked *)
Lemma stokes_grid_lemma f hx hy w : vf_wf f -> vf_clean f -> evenly (ax (vg f)) hx -> evenly (ay (vg f)) hy ->
  0 < w -> w < length (ax (vg f)) -> w < length (ay (vg f)) ->
  exists s, vf_stokes f w = Ok s /\ sf_wf s /\ uv s = unit_div (vuv f) (ux (vg f)) /\
    ux (sg s) = ux (vg f) /\ uy (sg s) = uy (vg f) /\
    length (ax (sg s)) = length (ax (vg f)) + 1 - w /\ length (ay (sg s)) = length (ay (vg f)) + 1 - w /\
    (forall i, i < length (ax (sg s)) -> (2 * nths (ax (sg s)) i)%num = (nths (ax (vg f)) i + nths (ax (vg f)) (i + (w - 1)))%num) /\
    (forall j, j < length (ay (sg s)) -> (2 * nths (ay (sg s)) j)%num = (nths (ay (vg f)) j + nths (ay (vg f)) (j + (w - 1)))%num) /\
    (forall i j, i < length (ax (sg s)) -> j < length (ay (sg s)) ->
       (at_ (msk s) i j = true <-> exists a b, i <= a < i + w /\ j <= b < j + w /\ at_ (vmsk f) a b = true) /\
       (at_ (values s) i j = None <-> at_ (msk s) i j = true)).
Proof.
  intros W C Ex Ey W0 Wx Wy. destruct (stokes_run f hx hy w W C Ex Ey W0 Wx Wy) as (s & E & G & U & Ws & P).
  destruct (window_axis_spec _ _ w Ex ltac:(lia)) as [Nx Px]. destruct (window_axis_spec _ _ w Ey ltac:(lia)) as [Ny Py].
  exists s. split; [exact E|]. split; [exact Ws|]. split; [exact U|]. rewrite G. cbn [ax ay ux uy]. rewrite Nx, Ny.
  assert (forall l h i, evenly l h -> i < length l + 1 - w -> w < length l ->
     (2 * (nths l i + (qn w - 1) / 2 * h))%num = (nths l i + nths l (i + (w - 1)))%num) as Mid.
  { intros l h i (_ & _ & He) Hi Hl. rewrite (He (i + (w - 1))), (He i) by lia. unfold qn. rewrite Nat2Z.inj_add, qz_add.
    replace (Z.of_nat w) with (Z.of_nat (w - 1) + 1)%Z by lia. rewrite qz_add. qfield. discriminate. }
  repeat split; auto.
  - intros i Hi. rewrite (Px i Hi). now apply Mid.
  - intros i Hi. rewrite (Py i Hi). now apply Mid.
  - intro M. apply window_masked_spec. destruct (P i j H H0) as (<- & _). exact M.
  - intro M. apply window_masked_spec in M. destruct (P i j H H0) as (-> & _). exact M.
  - intro M. destruct (P i j H H0) as (-> & _ & P2). destruct (window_masked (vmsk f) w i j); [reflexivity|]. rewrite P2 in M by reflexivity. discriminate.
  - intro M. destruct (P i j H H0) as (P0 & P1 & _). apply P1. now rewrite <- P0.
Qed.

(** a larger window averages the cells of size 2: C102 *)
Lemma around_two (u v : nat -> nat -> num) hx hy i j :
  sumn (2 - 1) (fun a => sumn (2 - 1) (fun b => around u v hx hy (i + a) (j + b))) = around u v hx hy i j.
Proof. change (2 - 1) with 1. cbn [sumn]. rewrite !Nat.add_0_r. qring. Qed.
Lemma stokes_additive_lemma f hx hy w : vf_wf f -> vf_clean f -> evenly (ax (vg f)) hx -> evenly (ay (vg f)) hy ->
  2 <= w -> w < length (ax (vg f)) -> w < length (ay (vg f)) ->
  exists s s2, vf_stokes f w = Ok s /\ vf_stokes f 2 = Ok s2 /\
    forall i j v, i < length (ax (sg s)) -> j < length (ay (sg s)) -> at_ (values s) i j = Some v ->
      (forall a b, a < w - 1 -> b < w - 1 -> exists c, at_ (values s2) (i + a) (j + b) = Some c) /\
      forall c : nat -> nat -> num, (forall a b, a < w - 1 -> b < w - 1 -> at_ (values s2) (i + a) (j + b) = Some (c a b)) ->
        (qn w * qn w * v)%num = (qn 4 * sumn (w - 1) (fun a => sumn (w - 1) (c a)))%num.
Proof.
  intros W C Ex Ey W0 Wx Wy. destruct (stokes_run f hx hy w W C Ex Ey ltac:(lia) Wx Wy) as (s & E & G & U & Ws & P).
  destruct (stokes_run f hx hy 2 W C Ex Ey ltac:(lia) ltac:(lia) ltac:(lia)) as (s2 & E2 & G2 & U2 & Ws2 & P2).
  destruct (window_axis_spec _ _ w Ex ltac:(lia)) as [Nx _]. destruct (window_axis_spec _ _ w Ey ltac:(lia)) as [Ny _].
  exists s, s2. split; [exact E|]. split; [exact E2|]. intros i j v. rewrite G. cbn [ax ay]. rewrite Nx, Ny. intros Hi Hj Hv.
  destruct (P i j Hi Hj) as (_ & Pm & Pv). destruct (window_masked (vmsk f) w i j) eqn:M.
  { rewrite Pm in Hv by reflexivity. discriminate. }
  specialize (Pv eq_refl). rewrite Hv in Pv. injection Pv as Pv.
  assert (forall a b, a < w - 1 -> b < w - 1 -> at_ (values s2) (i + a) (j + b) =
    Some (around (fun i j => onan (at_ (cx f) i j)) (fun i j => onan (at_ (cy f) i j)) hx hy (i + a) (j + b) * (1 / (hx * hy * (qn 2 * qn 2))))%num) as Q.
  { intros a b Ha Hb. destruct (P2 (i + a) (j + b) ltac:(lia) ltac:(lia)) as (_ & _ & Pv2).
    rewrite Pv2; [now rewrite around_two|]. destruct (window_masked (vmsk f) 2 (i + a) (j + b)) eqn:K; [|reflexivity].
    exfalso. apply window_masked_spec in K. destruct K as (p & q & Hp & Hq & Mpq).
    assert (window_masked (vmsk f) w i j = true); [|congruence]. apply window_masked_spec. exists p, q. repeat split; lia || exact Mpq. }
  split; [intros a b Ha Hb; eexists; now apply Q|]. intros c Hc.
  destruct Ex as (Hx & _), Ey as (Hy & _). assert (hx <> 0%num) by now apply qgt_neq. assert (hy <> 0%num) by now apply qgt_neq.
  pose proof (qn_nz w ltac:(lia)).
  rewrite Pv. set (X := around _ _ _ _) in *.
  rewrite (sumn_ext (w - 1) (fun a => sumn (w - 1) (c a)) (fun a => (1 / (hx * hy * (qn 2 * qn 2))) * sumn (w - 1) (fun b => X (i + a)%nat (j + b)%nat))%num).
  - rewrite sumn_scale. change (qn 4) with (qz 4). change (qn 2) with (qz 2). replace (qz 4) with (2 * 2)%num by reflexivity.
    qfield. repeat split; try assumption; discriminate.
  - intros a Ha. rewrite <- sumn_scale. apply sumn_ext. intros b Hb. specialize (Q a b Ha Hb). rewrite (Hc a b Ha Hb) in Q. injection Q as ->. qring.
Qed.

(** linear fields *)
Lemma around_linear f hx hy a0 a1 a2 b0 b1 b2 i j : evenly (ax (vg f)) hx -> evenly (ay (vg f)) hy ->
  vf_is f (fun x y => a0 + a1 * x + a2 * y)%num (fun x y => b0 + b1 * x + b2 * y)%num ->
  S i < length (ax (vg f)) -> S j < length (ay (vg f)) ->
  around (fun i j => onan (at_ (cx f) i j)) (fun i j => onan (at_ (cy f) i j)) hx hy i j = ((b1 - a2) * (hx * hy))%num.
Proof.
  intros Ex Ey F Hi Hj. pose proof (proj1 (vf_is_idx f _ _) F) as F'.
  unfold around, up, right.
  destruct (F' i j ltac:(lia) ltac:(lia)) as (-> & -> & _). destruct (F' (S i) j ltac:(lia) ltac:(lia)) as (-> & -> & _).
  destruct (F' i (S j) ltac:(lia) ltac:(lia)) as (-> & -> & _). destruct (F' (S i) (S j) ltac:(lia) ltac:(lia)) as (-> & -> & _).
  cbn [onan]. destruct Ex as (_ & _ & Hx), Ey as (_ & _ & Hy). rewrite (Hx (S i)), (Hx i), (Hy (S j)), (Hy j) by lia. rewrite !qn_S.
  qfield. discriminate.
Qed.
Lemma stokes_linear_lemma f hx hy w a0 a1 a2 b0 b1 b2 : vf_wf f -> evenly (ax (vg f)) hx -> evenly (ay (vg f)) hy ->
  vf_is f (fun x y => a0 + a1 * x + a2 * y)%num (fun x y => b0 + b1 * x + b2 * y)%num ->
  2 <= w -> w < length (ax (vg f)) -> w < length (ay (vg f)) ->
  exists s, vf_stokes f w = Ok s /\ sf_is s (fun _ _ => (b1 - a2) * ((qn w - 1) / qn w) * ((qn w - 1) / qn w))%num.
Proof.
  intros W Ex Ey F W0 Wx Wy.
  destruct (stokes_run f hx hy w W (full_clean f (vf_is_full _ _ _ F)) Ex Ey ltac:(lia) Wx Wy) as (s & E & G & U & Ws & P).
  destruct (window_axis_spec _ _ w Ex ltac:(lia)) as [Nx _]. destruct (window_axis_spec _ _ w Ey ltac:(lia)) as [Ny _].
  exists s. split; [exact E|]. apply sf_is_idx. rewrite G. cbn [ax ay]. rewrite Nx, Ny. intros i j Hi Hj.
  assert (window_masked (vmsk f) w i j = false) as M.
  { destruct (window_masked (vmsk f) w i j) eqn:K; [|reflexivity]. apply window_masked_spec in K. destruct K as (a & b & Ha & Hb & K).
    pose proof (proj1 (vf_is_idx f _ _) F a b ltac:(lia) ltac:(lia)) as (_ & _ & K'). congruence. }
  destruct (P i j Hi Hj) as (Pm & _ & Pv). split; [|now rewrite Pm]. rewrite (Pv M). f_equal.
  rewrite (sumn_ext (w - 1) _ (fun _ => qn (w - 1) * ((b1 - a2) * (hx * hy)))%num).
  - rewrite sumn_const. replace (qn (w - 1)) with (qn w - 1)%num.
    + destruct Ex as (Hx & _), Ey as (Hy & _). assert (hx <> 0%num) by now apply qgt_neq. assert (hy <> 0%num) by now apply qgt_neq.
      pose proof (qn_nz w ltac:(lia)). qfield. repeat split; assumption.
    + replace w with (S (w - 1)) at 1 by lia. rewrite qn_S. qring.
  - intros a Ha. rewrite <- sumn_const. apply sumn_ext. intros b Hb. apply (around_linear f hx hy a0 a1 a2 b0 b1 b2); auto; lia.
Qed.
(** the largest window *)
Lemma stokes_whole_lemma f hx hy : evenly (ax (vg f)) hx -> evenly (ay (vg f)) hy -> vf_stokes f (length (ay (vg f))) = Err IndexErr.
Proof.
  intros Ex Ey. pose proof Ex as (Hx & Lx & _). pose proof Ey as (Hy & Ly & _). unfold vf_stokes.
  rewrite !ltb2 by assumption. cbn [orb guard].
  assert (Nat.eqb (length (ay (vg f))) 0 = false) as -> by (apply Nat.eqb_neq; lia). cbn [guard].
  destruct (window_axis_spec _ _ (length (ay (vg f))) Ey ltac:(lia)) as [Ny _].
  match goal with |- context [guard ?b _ _] => destruct b; [reflexivity|] end. cbn [guard].
  unfold sf_import. assert (Nat.ltb (length (window_axis (ay (vg f)) (length (ay (vg f))))) 2 = true) as -> by (apply Nat.ltb_lt; lia). reflexivity.
Qed.
