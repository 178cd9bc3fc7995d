(** * PropTemporal: the properties of series of fields (C33 to C42 and C77 to C85, C96).
    Statements, examples and counterexamples; the proofs are in TemporalProofs*.v.  The vocabulary is in TemporalSpec. *)
From Coq Require Import Permutation Lia.
From Verif Require Import Num Res ListLib SortLib SeqSpec Arr FieldModel ScalarFieldModel VectorFieldModel FieldSpec Concrete ProfileModel ProfileSpec PointsModel PointsSpec
  FieldProofs ScalarProofs TemporalModel TemporalSpec TemporalEx TemporalProofs TemporalProofs2 TemporalProofs3 TemporalProofs4 TemporalProofs5 TemporalProofs6 TemporalProofs7 TemporalProofs8 TemporalProofs9
  TemporalProofs10 TemporalProofs11 TemporalProofs12 TemporalProofs13 TemporalSpec2 TemporalProofs14.

(** ** C33: histories of additions and removals *)
Theorem C33_sorted_aligned {F} (ops : fops F) asort (h : list (tfop F)) :
  is_argsort asort -> tf_ok (fold_left (tfstep ops asort) h tf_new).
Proof. exact (tf_history_ok ops asort h). Qed.
Print Assumptions C33_sorted_aligned.

Theorem C33_times_kept {F} (ops : fops F) asort u (h : list (tfop F)) :
  is_argsort asort -> (0 < sc u)%num -> adds_in u h ->
  forall time f, In (time, f) (frames (fold_left (tfstep ops asort) h tf_new)) -> In (TFAdd f time u) h.
Proof. exact (tf_history_times ops asort u h). Qed.
Print Assumptions C33_times_kept.

Theorem C33_add {F} (ops : fops F) asort t f time u :
  is_argsort asort -> tf_ok t -> (0 < sc u)%num ->
  tff t = [] \/ (u = tfu t /\ o_grid ops f = tfg t) ->
  exists t', tf_add ops asort t f time u = (t', None) /\ tf_ok t' /\ tfu t' = u /\ tfg t' = o_grid ops f /\
    Permutation (frames t') ((time, f) :: frames t).
Proof. exact (tf_add_lemma ops asort t f time u). Qed.
Print Assumptions C33_add.

Theorem C33_remove {F} (t : tfield F) i :
  tf_ok t -> index_ok (length (tff t)) i ->
  exists t', tf_remove t [i] = (t', None) /\ tf_ok t' /\ tfu t' = tfu t /\ tfg t' = tfg t /\
    keeps (fun k => ~ designates (length (tff t)) i k) (frames t) (frames t').
Proof. exact (tf_remove_lemma t i). Qed.
Print Assumptions C33_remove.

Theorem C33_remove_bad_index {F} (t : tfield F) i :
  tf_ok t -> norm_ind (length (tff t)) i = None ->
  tf_remove t [i] = (t, Some IndexErr).
Proof. exact (tf_remove_out t i). Qed.
Print Assumptions C33_remove_bad_index.

Example C33_example : is_argsort argsort /\ adds_in second [TFAdd (fr (oz 1) (oz 2) (oz 3) None) (qz 3) second; TFAdd (fr (oz 5) (oz 2) (oz 3) None) (qz 1) second; TFRemove 0] /\
  (exists f, frames (fold_left (tfstep sf_ops argsort) [TFAdd (fr (oz 1) (oz 2) (oz 3) None) (qz 3) second; TFAdd (fr (oz 5) (oz 2) (oz 3) None) (qz 1) second; TFRemove 0] tf_new) = [(qz 3, f)] /\
             f = fr (oz 1) (oz 2) (oz 3) None).
Proof.
  split; [exact argsort_is|]. split; [intros f x w H; cbn in H; repeat (destruct H as [H|H]; [congruence|]); contradiction|].
  eexists. split; [|reflexivity]. reflexivity.
Qed.

(** ** C34: removal of several frames *)
Theorem C34_decreasing_partial {F} (t : tfield F) inds :
  tf_ok t -> strictly_decreasing inds ->
  (forall i, In i inds -> (0 <= i < Z.of_nat (length (tff t)))%Z) ->
  exists t', tf_remove t inds = (t', None) /\ tf_ok t' /\ tfu t' = tfu t /\
    keeps (fun k => ~ In (Z.of_nat k) inds) (frames t) (frames t').
Proof. exact (tf_remove_list t inds). Qed.
Print Assumptions C34_decreasing_partial.

(** with increasing indices another frame is removed: the frames of times 0 and 3 are removed instead of 0 and 1 *)
Theorem C34_list_refuted : exists t t' : tfield sfield, tf_ok t /\ tf_remove t [0; 1]%Z = (t', None) /\ tft t = zs [0; 1; 3; 4]%Z /\ tft t' = zs [1; 4]%Z.
Proof. exists ex_t. eexists. split; [exact ex_t_ok|]. split; [reflexivity|]. split; reflexivity. Qed.
Print Assumptions C34_list_refuted.
(** a bad index in the list raises and leaves fewer times than frames *)
Theorem C34_misaligned_refuted : exists t t' : tfield sfield, tf_ok t /\ tf_remove t [0; 7]%Z = (t', Some IndexErr) /\ ~ tf_ok t'.
Proof. exists ex_t. eexists. split; [exact ex_t_ok|]. split; [reflexivity|]. intros [L _]. vm_compute in L. discriminate. Qed.
Print Assumptions C34_misaligned_refuted.
Example C34_example : strictly_decreasing [3; 0]%Z /\ (exists t', tf_remove ex_t [3; 0]%Z = (t', None) /\ tft t' = zs [1; 3]%Z) /\
  forall i, In i [3; 0]%Z -> (0 <= i < Z.of_nat (length (tff ex_t)))%Z.
Proof.
  split.
  - intros i j a b Hij Ha Hb. destruct i as [|[|[|i]]]; try discriminate Ha; destruct j as [|[|[|j]]]; try discriminate Hb; try lia. injection Ha as <-. injection Hb as <-. lia.
  - split; [eexists; split; reflexivity|]. intros i H. cbn in H. cbn. repeat (destruct H as [<-|H]; [lia|]). contradiction.
Qed.

(** ** C35: crop *)
Theorem C35_scalar t ivx ivy ivt :
  tf_ok t -> one_grid sf_ops t -> (forall f, In f (tff t) -> sf_wf f) -> grid_ok (tfg t) ->
  ivt_ok t ivt -> iv_ok2 (tfg t) ivx ivy ->
  exists c, tf_crop sf_ops t ivx ivy ivt = Ok c /\ tf_ok c /\ one_grid sf_ops c /\ tfu c = tfu t /\
    Forall2 (fun a b => fst b = fst a /\ forall x y v m, sf_shows (snd b) x y v m <-> sf_shows (snd a) x y v m /\ FieldSpec.in_iv ivx x /\ FieldSpec.in_iv ivy y)
      (in_time ivt t) (frames c).
Proof. exact (tf_crop_sf t ivx ivy ivt). Qed.
Print Assumptions C35_scalar.

Theorem C35_vector t ivx ivy ivt :
  tf_ok t -> one_grid vf_ops t -> (forall f, In f (tff t) -> vf_wf f) -> grid_ok (tfg t) ->
  ivt_ok t ivt -> iv_ok2 (tfg t) ivx ivy ->
  exists c, tf_crop vf_ops t ivx ivy ivt = Ok c /\ tf_ok c /\ one_grid vf_ops c /\ tfu c = tfu t /\
    Forall2 (fun a b => fst b = fst a /\ forall x y vx vy m, vf_shows (snd b) x y vx vy m <-> vf_shows (snd a) x y vx vy m /\ FieldSpec.in_iv ivx x /\ FieldSpec.in_iv ivy y)
      (in_time ivt t) (frames c).
Proof. exact (tf_crop_vf t ivx ivy ivt). Qed.
Print Assumptions C35_vector.

Theorem C35_outside {F} (ops : fops F) t ivx ivy t1 t2 :
  tf_ok t -> tft t <> [] -> (t2 < nths (tft t) 0)%num \/ (last (tft t) (qz 0) < t1)%num ->
  tf_crop ops t ivx ivy (Some (t1, t2)) = Err ValueErr.
Proof. exact (tf_crop_out ops t ivx ivy t1 t2). Qed.
Print Assumptions C35_outside.

Example C35_example : ivt_ok ex_t (Some (qq 1 2, qz 3)) /\ iv_ok2 (tfg ex_t) (Some (qz 1, qz 5)) None /\ grid_ok (tfg ex_t) /\ map fst (in_time (Some (qq 1 2, qz 3)) ex_t) = zs [1; 3]%Z /\
  exists c, tf_crop sf_ops ex_t (Some (qz 1, qz 5)) None (Some (qq 1 2, qz 3)) = Ok c /\ tft c = zs [1; 3]%Z /\ ax (tfg c) = zs [1]%Z.
Proof.
  split; [split; [discriminate|split; apply qleb_le; reflexivity]|].
  split; [split; [|exact Logic.I]; split; [|split]; apply qleb_le; reflexivity|].
  split; [split; [apply g22_ok|split; discriminate]|]. split; [reflexivity|]. eexists. split; [reflexivity|]. split; reflexivity.
Qed.

(** ** C36: mean field *)
Theorem C36_scalar_partial t nmb :
  sf_series_ok t -> tff t <> [] -> (0 <= nmb)%Z ->
  exists m, tf_mean sf_ops t nmb = Ok m /\ sg m = tfg t /\ sf_wf m /\ sf_clean m /\ (exists f r, tff t = f :: r /\ uv m = uv f) /\
    forall i j, i < length (ax (tfg t)) -> j < length (ay (tfg t)) ->
      (at_ (msk m) i j = true <-> (Z.of_nat (length (availables (tff t) i j)) <= nmb)%Z) /\
      (at_ (msk m) i j = false -> average_of (availables (tff t) i j) (uv m) (at_ (values m) i j)).
Proof. exact (tf_mean_sf t nmb). Qed.
Print Assumptions C36_scalar_partial.

Theorem C36_vector_partial t nmb :
  vf_series_ok t -> tff t <> [] -> (0 <= nmb)%Z ->
  exists m, tf_mean vf_ops t nmb = Ok m /\ vg m = tfg t /\ vf_wf m /\ (exists f r, tff t = f :: r /\ vuv m = vuv f) /\
    forall i j, i < length (ax (tfg t)) -> j < length (ay (tfg t)) ->
      (at_ (vmsk m) i j = true <-> (Z.of_nat (length (vavailables cx (tff t) i j)) <= nmb)%Z) /\
      (at_ (vmsk m) i j = true -> at_ (cx m) i j = None /\ at_ (cy m) i j = None) /\
      (at_ (vmsk m) i j = false -> average_of (vavailables cx (tff t) i j) (vuv m) (at_ (cx m) i j) /\
                                   average_of (vavailables cy (tff t) i j) (vuv m) (at_ (cy m) i j)).
Proof. exact (tf_mean_vf t nmb). Qed.
Print Assumptions C36_vector_partial.

(** with the default nmb_min = 1, a cell with one available value is masked (documented: masked when fewer than
    nmb_min values); the mean of a single frame is masked everywhere *)
Theorem C36_min_values_refuted : exists t m, sf_series_ok t /\ tff t <> [] /\ tf_mean sf_ops t 1 = Ok m /\
  length (availables (tff t) 1 1) = 1 /\ at_ (msk m) 1 1 = true.
Proof.
  destruct (ok_ex (tf_mean sf_ops ex_t 1) (fun m => at_ (msk m) 1 1)) as (m & E & H); [vmr|].
  exists ex_t, m. split; [exact ex_t_series|]. split; [discriminate|]. split; [exact E|]. split; [vmr|exact H].
Qed.
Print Assumptions C36_min_values_refuted.
Example C36_example : sf_series_ok ex_t /\ vf_series_ok ex_tv /\ (exists m, tf_mean sf_ops ex_t 0 = Ok m /\ at_ (values m) 0 1 = Some (qz 5) /\ at_ (values m) 1 1 = Some (qz 7)) /\
  (exists m, tf_mean vf_ops ex_tv 1 = Ok m /\ at_ (cx m) 0 0 = Some (qz 4) /\ at_ (cy m) 1 0 = Some (qz 4)).
Proof.
  split; [exact ex_t_series|]. split; [exact ex_tv_series|]. split.
  - destruct (ok_ex (tf_mean sf_ops ex_t 0) (fun m => oseqb [at_ (values m) 0 1; at_ (values m) 1 1] [oz 5; oz 7])) as (m & E & H); [vmr|].
    apply oseqb_eq in H. injection H. eauto.
  - destruct (ok_ex (tf_mean vf_ops ex_tv 1) (fun m => oseqb [at_ (cx m) 0 0; at_ (cy m) 1 0] [oz 4; oz 4])) as (m & E & H); [vmr|].
    apply oseqb_eq in H. injection H. eauto.
Qed.

(** ** C37: reduction of the temporal resolution *)
Theorem C37_means_partial t asort n :
  is_argsort asort -> sf_series_ok t -> tf_ok t -> increasing (tft t) -> good_unit (tfu t) -> 2 <= n -> n < length (tff t) ->
  exists t', tf_reduce sf_ops asort t (Z.of_nat n) true = Ok t' /\ tf_ok t' /\ one_grid sf_ops t' /\ tfg t' = tfg t /\ tfu t' = tfu t /\
    length (frames t') = (length (frames t) - 1) / n /\
    forall k x f, nth_error (frames t') k = Some (x, f) -> (x * qn n = total (group n k (tft t)))%num /\
      forall i j, i < length (ax (tfg t)) -> j < length (ay (tfg t)) -> cell_average (group n k (tff t)) f i j.
Proof. exact (tf_reduce_sf t asort n). Qed.
Print Assumptions C37_means_partial.

Theorem C37_pick_partial {F} (ops : fops F) t asort n :
  is_argsort asort -> one_grid ops t -> tf_ok t -> increasing (tft t) -> good_unit (tfu t) -> 2 <= n -> n < length (tff t) ->
  exists t', tf_reduce ops asort t (Z.of_nat n) false = Ok t' /\ tf_ok t' /\ one_grid ops t' /\ tfg t' = tfg t /\ tfu t' = tfu t /\
    length (frames t') = (length (frames t) - 1) / n /\
    forall k, k < (length (frames t) - 1) / n -> nth_error (frames t') k = nth_error (frames t) (k * n).
Proof. exact (tf_reduce_pick ops t asort n). Qed.
Print Assumptions C37_pick_partial.

Theorem C37_all_groups_partial len n :
  2 <= n -> (len mod n <> 0) -> (len - 1) / n = len / n.
Proof. exact (groups_complete len n). Qed.
Print Assumptions C37_all_groups_partial.

(** when the number of frames is a multiple of n the last complete group is dropped *)
Theorem C37_last_group_refuted : exists t t', sf_series_ok t /\ tf_ok t /\ increasing (tft t) /\ length (tff t) = 4 /\
  tf_reduce sf_ops argsort t 2 true = Ok t' /\ length (tff t') = 1.
Proof.
  destruct (ok_ex (tf_reduce sf_ops argsort ex_t 2 true) (fun t => Nat.eqb (length (tff t)) 1)) as (t' & E & H); [vmr|]. apply Nat.eqb_eq in H.
  exists ex_t, t'. split; [exact ex_t_series|]. split; [exact ex_t_ok|]. split; [exact ex_t_inc|]. split; [reflexivity|]. split; [exact E|exact H].
Qed.
Print Assumptions C37_last_group_refuted.
(** ... and a series of n frames is refused *)
Theorem C37_one_group_refuted : exists t : tfield sfield, length (tff t) = 4 /\ tf_reduce sf_ops argsort t 4 true = Err ValueErr.
Proof. exists ex_t. split; [reflexivity|vmr]. Qed.
Print Assumptions C37_one_group_refuted.
Example C37_example : is_argsort argsort /\ good_unit (tfu ex_t) /\ 3 < length (tff ex_t) /\ 4 mod 3 <> 0 /\
  exists t', tf_reduce sf_ops argsort ex_t 3 true = Ok t' /\ map fst (frames t') = [qq 4 3] /\ map (fun f => at_ (values f) 0 0) (tff t') = [Some (qz 4)] /\ map (fun f => at_ (msk f) 0 1) (tff t') = [true].
Proof.
  split; [exact argsort_is|]. split; [reflexivity|]. split; [cbn; lia|]. split; [discriminate|].
  destruct (ok_ex (tf_reduce sf_ops argsort ex_t 3 true) (fun t => (list_eqb (map fst (frames t)) [qq 4 3] && oseqb (map (fun f => at_ (values f) 0 0) (tff t)) [Some (qz 4)] && forallb (fun f => at_ (msk f) 0 1) (tff t) && Nat.eqb (length (tff t)) 1)%bool)) as (t' & E & H); [vmr|].
  apply andb_true_iff in H. destruct H as [H H4]. apply andb_true_iff in H. destruct H as [H H3]. apply andb_true_iff in H. destruct H as [H1 H2].
  exists t'. split; [exact E|]. split; [now apply list_eqb_eq|]. split; [now apply oseqb_eq|].
  apply Nat.eqb_eq in H4. destruct (tff t') as [|f [|? ?]]; try discriminate H4. cbn in H3 |- *. rewrite andb_true_r in H3. now rewrite H3.
Qed.

(** ** C38: one grid *)
Theorem C38_guard_partial {F} (ops : fops F) asort t f time u : tff t <> [] -> ax (o_grid ops f) <> ax (tfg t) -> ay (o_grid ops f) = ay (tfg t) ->
  tf_add ops asort t f time u = (t, Some ValueErr).
Proof.
  intros NE H1 H2. unfold tf_add. destruct (tff t) eqn:E; [congruence|]. rewrite H2, list_eqb_refl, andb_true_r.
  destruct (list_eqb (ax (tfg t)) (ax (o_grid ops f))) eqn:L; [apply list_eqb_eq in L; congruence|]. reflexivity.
Qed.
Print Assumptions C38_guard_partial.
(** another y axis is accepted *)
Definition other_y : sfield := sf_of [0; 1]%Z [10; 30]%Z [[oz 1; oz 2]; [oz 3; oz 4]] [].
Definition other_both : sfield := sf_of [0; 1; 2]%Z [10; 30]%Z [[oz 1; oz 2]; [oz 3; oz 4]; [oz 5; oz 6]] [].
Theorem C38_refuted : exists t t' f, sf_series_ok t /\ tf_ok t /\ ay (sg f) <> ay (tfg t) /\ tf_add sf_ops argsort t f (qz 9) second = (t', None) /\ ~ one_grid sf_ops t'.
Proof.
  exists ex_t. eexists. exists other_y. split; [exact ex_t_series|]. split; [exact ex_t_ok|].
  split; [intro H; apply (f_equal (fun l => qeqb (nths l 1) (qz 30))) in H; vm_compute in H; discriminate|]. split; [reflexivity|].
  intro H. specialize (H other_y). cbn [o_grid sf_ops tfg] in H. apply (f_equal (fun g => qeqb (nths (ay g) 1) (qz 30))) in H; [vm_compute in H; discriminate|cbn; auto 6].
Qed.
Print Assumptions C38_refuted.
Theorem C38_shapes_refuted : exists t t' f, sf_series_ok t /\ tf_ok t /\ length (ax (sg f)) <> length (ax (tfg t)) /\ tf_add sf_ops argsort t f (qz 9) second = (t', None) /\ In f (tff t').
Proof.
  exists ex_t. eexists. exists other_both. split; [exact ex_t_series|]. split; [exact ex_t_ok|]. split; [discriminate|]. split; [reflexivity|]. cbn; auto 6.
Qed.
Print Assumptions C38_shapes_refuted.
Definition other_x : sfield := sf_of [0; 2]%Z [10; 20]%Z [[oz 1; oz 2]; [oz 3; oz 4]] [].
Example C38_example : tff ex_t <> [] /\ ax (sg other_x) <> ax (tfg ex_t) /\ ay (sg other_x) = ay (tfg ex_t).
Proof. split; [discriminate|]. split; [intro H; apply (f_equal (fun l => qeqb (nths l 1) (qz 2))) in H; vm_compute in H; discriminate|reflexivity]. Qed.

(** ** C39: unit of the times *)
(** with the unit of the series the time is stored as given *)
Theorem C39_same_unit_partial {F} (ops : fops F) asort t f time u :
  is_argsort asort -> tf_ok t -> (0 < sc u)%num ->
  tff t = [] \/ (u = tfu t /\ o_grid ops f = tfg t) ->
  exists t', tf_add ops asort t f time u = (t', None) /\ tf_ok t' /\ tfu t' = u /\ tfg t' = o_grid ops f /\
    Permutation (frames t') ((time, f) :: frames t).
Proof. exact (tf_add_lemma ops asort t f time u). Qed.
Print Assumptions C39_same_unit_partial.

(** the conversion is inverted: the frame of time 2 ms is stored at 2000 s *)
Theorem C39_refuted : exists t t' f time u, sf_series_ok t /\ tf_ok t /\ dim u = dim (tfu t) /\ good_unit u /\ tf_add sf_ops argsort t f time u = (t', None) /\
  tfu t' = tfu t /\ ~ (exists x, In (x, f) (frames t') /\ (x * sc (tfu t') = time * sc u)%num).
Proof.
  exists ex_t. eexists. exists (fr (oz 9) (oz 9) (oz 9) (oz 9)), (qz 2), millisecond. split; [exact ex_t_series|]. split; [exact ex_t_ok|]. split; [reflexivity|]. split; [reflexivity|].
  split; [reflexivity|]. split; [reflexivity|]. intros (x & I & H). cbn in I.
  repeat (destruct I as [I|I]; [apply (f_equal fst) in I; cbn [fst] in I; subst x; apply (f_equal this) in H; vm_compute in H; discriminate|]). contradiction.
Qed.
Print Assumptions C39_refuted.
Example C39_example : (0 < sc (tfu ex_t))%num /\ exists t', tf_add sf_ops argsort ex_t (fr (oz 9) (oz 9) (oz 9) (oz 9)) (qz 2) second = (t', None) /\ tft t' = zs [0; 1; 2; 3; 4]%Z.
Proof. split; [reflexivity|]. eexists. split; [reflexivity|]. vm_compute. repeat f_equal; try qc. Qed.

(** ** C40: product and quotient by a number *)
(** the frames are multiplied but all get time 0 *)
Theorem C40_values_partial {F} (ops : fops F) asort t c g :
  is_argsort asort -> tff t <> [] -> (forall f, In f (tff t) -> o_grid ops (o_muln ops f c) = g) ->
  exists t', tf_mul_num ops asort t c = Ok t' /\ tf_ok t' /\ Permutation (frames t') (map (fun f => (0%num, o_muln ops f c)) (tff t)).
Proof. exact (tf_mul_num_lemma ops asort t c g). Qed.
Print Assumptions C40_values_partial.

Theorem C40_times_lost {F} (ops : fops F) asort t c g :
  is_argsort asort -> tff t <> [] -> (forall f, In f (tff t) -> o_grid ops (o_muln ops f c) = g) ->
  exists t', tf_mul_num ops asort t c = Ok t' /\ tfu t' = one_unit /\ (forall x, In x (tft t') -> x = 0%num) /\ length (tft t') = length (tff t).
Proof. exact (tf_mul_times ops asort t c g). Qed.
Print Assumptions C40_times_lost.

Theorem C40_refuted : exists t t', sf_series_ok t /\ tf_ok t /\ tf_mul_num sf_ops argsort t (qz 2) = Ok t' /\ tft t' <> tft t /\ tfu t' <> tfu t.
Proof.
  destruct (ok_ex (tf_mul_num sf_ops argsort ex_t (qz 2)) (fun t => (negb (list_eqb (tft t) (tft ex_t)) && dim_eqb (dim (tfu t)) [])%bool)) as (t' & E & H); [vmr|].
  apply andb_true_iff in H. destruct H as [H1 H2]. exists ex_t, t'. split; [exact ex_t_series|]. split; [exact ex_t_ok|]. split; [exact E|].
  split; [intro H; rewrite H, list_eqb_refl in H1; discriminate H1|intro H; rewrite H in H2; discriminate H2].
Qed.
Print Assumptions C40_refuted.
Theorem C40_division_refuted {F} (t : tfield F) c : tf_div_num t c = Err TypeErr \/ tf_div_num t c = Err IndexErr.
Proof. unfold tf_div_num. destruct (tff t); auto. Qed.
Print Assumptions C40_division_refuted.
Example C40_example : is_argsort argsort /\ tff ex_t <> [] /\ forall f, In f (tff ex_t) -> sg (sf_mul_num f (qz 2)) = g22.
Proof. split; [exact argsort_is|]. split; [discriminate|]. each_frame_tac; reflexivity. Qed.

(** ** C41: interpolation in time *)
Theorem C41_stored {F} (ops : fops F) t time f i :
  tf_ok t -> increasing (tft t) -> tfa t = true ->
  nth_error (frames t) i = Some (time, f) -> tf_interp ops t time = Ok f.
Proof. exact (tf_interp_at ops t time f i). Qed.
Print Assumptions C41_stored.

Theorem C41_outside {F} (ops : fops F) t time :
  tft t <> [] -> (time < nths (tft t) 0)%num \/ (last (tft t) (qz 0) < time)%num -> tf_interp ops t time = Err GenericErr.
Proof. exact (tf_interp_out ops t time). Qed.
Print Assumptions C41_outside.

Theorem C41_scalar t time t1 t2 f1 f2 i :
  sf_series_ok t -> tf_ok t -> increasing (tft t) ->
  nth_error (frames t) i = Some (t1, f1) -> nth_error (frames t) (S i) = Some (t2, f2) -> (t1 < time)%num -> (time < t2)%num ->
  exists f, tf_interp sf_ops t time = Ok f /\ sg f = tfg t /\ sf_wf f /\
    forall a b, a < length (ax (tfg t)) -> b < length (ay (tfg t)) -> cell_between t1 t2 time f1 f2 f a b.
Proof. exact (tf_interp_sf t time t1 t2 f1 f2 i). Qed.
Print Assumptions C41_scalar.

Theorem C41_vector t time t1 t2 f1 f2 i :
  vf_series_ok t -> tf_ok t -> increasing (tft t) ->
  nth_error (frames t) i = Some (t1, f1) -> nth_error (frames t) (S i) = Some (t2, f2) -> (t1 < time)%num -> (time < t2)%num ->
  exists f, tf_interp vf_ops t time = Ok f /\ vg f = tfg t /\ vf_wf f /\
    forall a b, a < length (ax (tfg t)) -> b < length (ay (tfg t)) -> vcell_between cx t1 t2 time f1 f2 f a b /\ vcell_between cy t1 t2 time f1 f2 f a b.
Proof. exact (tf_interp_vf t time t1 t2 f1 f2 i). Qed.
Print Assumptions C41_vector.

(** a stored time whose frames are a python list (after an augmentation of the resolution) raises *)
Theorem C41_list_refuted : exists t t', sf_series_ok t /\ tf_ok t /\ tf_augment sf_ops t 2 = Ok t' /\ tf_interp sf_ops t' (nths (tft t') 0) = Err TypeErr.
Proof.
  destruct (ok_ex (tf_augment sf_ops ex_t 2) (fun t => match tf_interp sf_ops t (nths (tft t) 0) with Err TypeErr => true | _ => false end)) as (t' & E & H); [vmr|].
  exists ex_t, t'. split; [exact ex_t_series|]. split; [exact ex_t_ok|]. split; [exact E|]. destruct (tf_interp sf_ops t' _) as [|[]]; try discriminate H. reflexivity.
Qed.
Print Assumptions C41_list_refuted.
Example C41_example : increasing (tft ex_t) /\ tfa ex_t = true /\ (exists f, tf_interp sf_ops ex_t (qz 2) = Ok f /\ at_ (values f) 0 0 = Some (qq 11 2) /\ at_ (msk f) 0 1 = true).
Proof. split; [exact ex_t_inc|]. split; [reflexivity|].
  destruct (ok_ex (tf_interp sf_ops ex_t (qz 2)) (fun f => (oeqb (at_ (values f) 0 0) (Some (qq 11 2)) && at_ (msk f) 0 1)%bool)) as (f & E & H); [vmr|].
  apply andb_true_iff in H. destruct H as [H1 H2]. exists f. split; [exact E|]. split; [now apply oeqb_eq|exact H2].
Qed.

(** ** C42: recurrence map *)
Theorem C42_recurrence {F} (ops : fops F) vals pc u root t p bw :
  increasing (tft t) -> 2 <= length (tft t) -> length (tff t) = length (tft t) ->
  exists f, tf_recurrence ops vals pc u root t p bw = Ok f /\ ax (sg f) = tft t /\ ay (sg f) = tft t /\ ux (sg f) = tfu t /\ uy (sg f) = tfu t /\ uv f = u /\ sf_wf f /\
    forall i j fi fj, nth_error (tff t) i = Some fi -> nth_error (tff t) j = Some fj ->
      (i = j -> at_ (values f) i j = Some 0%num /\ at_ (msk f) i j = false) /\
      (i <> j -> (exists b, bw = Some b /\ (b < Z.abs (Z.of_nat i - Z.of_nat j))%Z) -> at_ (values f) i j = None /\ at_ (msk f) i j = true) /\
      (i <> j -> ~ (exists b, bw = Some b /\ (b < Z.abs (Z.of_nat i - Z.of_nat j))%Z) ->
        (forall a b, no_nan (vals fi) a -> no_nan (vals fj) b -> length a = length b ->
           at_ (values f) i j = Some (root (power_sum p a b) / qn (length (ax (tfg t)) * length (ay (tfg t)) * pc))%num /\ at_ (msk f) i j = false) /\
        (forall k, nth_error (vals fi) k = Some None \/ nth_error (vals fj) k = Some None -> length (vals fi) = length (vals fj) ->
           at_ (values f) i j = None /\ at_ (msk f) i j = true)).
Proof. exact (tf_recurrence_lemma ops vals pc u root t p bw). Qed.
Print Assumptions C42_recurrence.

Example C42_example : 2 <= length (tft ex_t) /\ exists f, tf_recurrence sf_ops sf_vals 1 metre (fun x => x) ex_t 1 (Some 2%Z) = Ok f /\
  at_ (values f) 0 0 = Some 0%num /\ at_ (msk f) 0 3 = true /\ at_ (msk f) 0 1 = true.
Proof.
  split; [cbn; lia|].
  destruct (ok_ex (tf_recurrence sf_ops sf_vals 1 metre (fun x => x) ex_t 1 (Some 2%Z)) (fun f => (oeqb (at_ (values f) 0 0) (Some 0%num) && at_ (msk f) 0 3 && at_ (msk f) 0 1)%bool)) as (f & E & H); [vmr|].
  apply andb_true_iff in H. destruct H as [H H3]. apply andb_true_iff in H. destruct H as [H1 H2]. exists f. split; [exact E|]. split; [now apply oeqb_eq|now split].
Qed.
Example C42_example_value : exists t f, tf_ok t /\ tf_recurrence sf_ops sf_vals 1 metre (fun x => x) t 1 None = Ok f /\ at_ (values f) 1 0 = Some (qq 10 4) /\ at_ (values f) 0 1 = Some (qq 10 4) /\
  (forall h, In h (tff t) -> exists a, no_nan (sf_vals h) a).
Proof.
  set (t := mktf g22 [fr (oz 1) (oz 2) (oz 3) (oz 4); fr (oz 2) (oz 0) (oz 6) (oz 0)] true (zs [0; 1]%Z) second).
  destruct (ok_ex (tf_recurrence sf_ops sf_vals 1 metre (fun x => x) t 1 None) (fun f => oseqb [at_ (values f) 1 0; at_ (values f) 0 1] [Some (qq 10 4); Some (qq 10 4)])) as (f & E & H); [vmr|].
  apply oseqb_eq in H. injection H as H1 H2. exists t, f.
  split; [split; [reflexivity|apply increasing_nondecreasing; incr]|]. split; [exact E|]. split; [exact H1|]. split; [exact H2|].
  each_frame_tac; [exists (zs [1; 2; 3; 4]%Z)|exists (zs [2; 0; 6; 0]%Z)]; reflexivity.
Qed.

(** ** C77: rotation, extension and origin act on every frame *)
Theorem C77_rotate_scalar t angle :
  tf_ok t -> one_grid sf_ops t -> grid_ok2 (tfg t) -> (angle mod 90 = 0)%Z ->
  exists t', tf_rotate sf_ops t angle = Ok t' /\ tf_ok t' /\ one_grid sf_ops t' /\ tfu t' = tfu t /\
    each_frame (fun a b => sf_rotate a angle = Ok b) t t'.
Proof. exact (tf_rotate_sf t angle). Qed.
Print Assumptions C77_rotate_scalar.

Theorem C77_rotate_vector t angle :
  tf_ok t -> one_grid vf_ops t -> grid_ok2 (tfg t) -> (angle mod 90 = 0)%Z ->
  exists t', tf_rotate vf_ops t angle = Ok t' /\ tf_ok t' /\ one_grid vf_ops t' /\ tfu t' = tfu t /\
    each_frame (fun a b => vf_rotate a angle = Ok b) t t'.
Proof. exact (tf_rotate_vf t angle). Qed.
Print Assumptions C77_rotate_vector.

Theorem C77_rotate_bad {F} (ops : fops F) t angle :
  (angle mod 90 <> 0)%Z -> tf_rotate ops t angle = Err ValueErr.
Proof. exact (tf_rotate_bad ops t angle). Qed.
Print Assumptions C77_rotate_bad.

Theorem C77_extend_scalar t nl nr nu nd :
  tf_ok t -> one_grid sf_ops t -> grid_ok2 (tfg t) -> (forall f, In f (tff t) -> sf_wf f /\ sf_clean f) ->
  exists t', tf_extend sf_ops t nl nr nu nd = Ok t' /\ tf_ok t' /\ one_grid sf_ops t' /\ tfu t' = tfu t /\
    each_frame (fun a b => sf_extend a nl nr nu nd None true = Ok b) t t'.
Proof. exact (tf_extend_sf t nl nr nu nd). Qed.
Print Assumptions C77_extend_scalar.

Theorem C77_extend_vector t nl nr nu nd :
  tf_ok t -> one_grid vf_ops t -> grid_ok2 (tfg t) ->
  exists t', tf_extend vf_ops t nl nr nu nd = Ok t' /\ tf_ok t' /\ one_grid vf_ops t' /\ tfu t' = tfu t /\
    each_frame (fun a b => vf_extend a nl nr nu nd = Ok b) t t'.
Proof. exact (tf_extend_vf t nl nr nu nd). Qed.
Print Assumptions C77_extend_vector.

Theorem C77_origin_scalar t x y :
  tf_ok t -> one_grid sf_ops t ->
  let t' := tf_set_origin sf_ops t x y in
  tf_ok t' /\ one_grid sf_ops t' /\ tfu t' = tfu t /\ each_frame (fun a b => b = sf_set_origin a x y) t t'.
Proof. exact (tf_set_origin_sf t x y). Qed.
Print Assumptions C77_origin_scalar.

Theorem C77_origin_vector t x y :
  tf_ok t -> one_grid vf_ops t ->
  let t' := tf_set_origin vf_ops t x y in
  tf_ok t' /\ one_grid vf_ops t' /\ tfu t' = tfu t /\
  each_frame (fun a b => b = mkvf (grid_set_origin (vg a) x y) (cx a) (cy a) (vmsk a) (vuv a)) t t'.
Proof. exact (tf_set_origin_vf t x y). Qed.
Print Assumptions C77_origin_vector.

(** reduce_spatial_resolution returns a series whose axes do not fit its frames *)
Definition fr4 : sfield := sf_of [0; 1; 2; 3]%Z [0; 1; 2; 3]%Z (repeat [oz 1; oz 2; oz 3; oz 4] 4) [].
Definition ex_t4 : tfield sfield := mktf (sg fr4) [fr4; fr4] true (zs [0; 1]%Z) second.
Theorem C77_reduce_spatial_refuted : exists t t' u, one_grid sf_ops t /\ tf_reduce_spatial sf_ops sf_reduce t 2 = Ok (t', u) /\ ~ one_grid sf_ops t'.
Proof.
  destruct (ok_ex (tf_reduce_spatial sf_ops sf_reduce ex_t4 2) (fun r => match tff (fst r) with f :: _ => negb (Nat.eqb (length (ax (sg f))) (length (ax (tfg (fst r))))) | [] => false end)) as ([t' u] & E & H); [vmr|].
  exists ex_t4, t', u. split; [each_frame_tac; reflexivity|]. split; [exact E|]. cbn [fst] in H.
  destruct (tff t') as [|f r] eqn:Ef; [discriminate H|]. intro OG. assert (G : sg f = tfg t') by (apply OG; rewrite Ef; now left). rewrite G, Nat.eqb_refl in H. discriminate H.
Qed.
Print Assumptions C77_reduce_spatial_refuted.
Example C77_example : one_grid sf_ops ex_t /\ one_grid vf_ops ex_tv /\ grid_ok2 (tfg ex_t) /\ (-90 mod 90 = 0)%Z /\ (exists t', tf_rotate sf_ops ex_t (-90) = Ok t' /\ ax (tfg t') = zs [10; 20]%Z) /\
  (exists t', tf_extend sf_ops ex_t 1 0 0 2 = Ok t' /\ ax (tfg t') = zs [-1; 0; 1]%Z) /\ (exists t', tf_set_origin sf_ops ex_t (Some (qz 1)) None = t' /\ ax (tfg t') = zs [-1; 0]%Z).
Proof.
  split; [apply ex_t_series|]. split; [apply ex_tv_series|]. split; [exact g22_ok|]. split; [reflexivity|].
  split; [|split].
  - destruct (ok_ex (tf_rotate sf_ops ex_t (-90)) (fun t => list_eqb (ax (tfg t)) (zs [10; 20]%Z))) as (t' & E & H); [vmr|]. apply list_eqb_eq in H. eauto.
  - destruct (ok_ex (tf_extend sf_ops ex_t 1 0 0 2) (fun t => list_eqb (ax (tfg t)) (zs [-1; 0; 1]%Z))) as (t' & E & H); [vmr|]. apply list_eqb_eq in H. eauto.
  - eexists. split; [reflexivity|]. apply list_eqb_eq. vmr.
Qed.

(** ** C78: scale *)
Theorem C78_scalar_partial t sx sy sv st :
  tf_ok t -> one_grid sf_ops t -> (0 <= sfact sx)%num -> (0 <= sfact sy)%num -> (0 <= sfact st)%num ->
  let t' := tf_scale sf_ops t sx sy sv st in
  tf_ok t' /\ one_grid sf_ops t' /\ tfu t' = match st with SUnum _ w => unit_mul (tfu t) w | _ => tfu t end /\
  Forall2 (fun a b => (fst b = fst a * sfact st)%num /\ snd b = sf_scale (snd a) sx sy sv) (frames t) (frames t').
Proof. exact (tf_scale_sf t sx sy sv st). Qed.
Print Assumptions C78_scalar_partial.

Theorem C78_vector_partial t sx sy sv st :
  tf_ok t -> one_grid vf_ops t -> (0 <= sfact sx)%num -> (0 <= sfact sy)%num -> (0 <= sfact st)%num ->
  let t' := tf_scale vf_ops t sx sy sv st in
  tf_ok t' /\ one_grid vf_ops t' /\ tfu t' = match st with SUnum _ w => unit_mul (tfu t) w | _ => tfu t end /\
  Forall2 (fun a b => (fst b = fst a * sfact st)%num /\ snd b = vf_scale (snd a) sx sy sv) (frames t) (frames t').
Proof. exact (tf_scale_vf t sx sy sv st). Qed.
Print Assumptions C78_vector_partial.

(** a negative factor leaves decreasing times *)
Theorem C78_negative_refuted : exists t t', sf_series_ok t /\ tf_ok t /\ tf_scale sf_ops t SNone SNone SNone (SNum (qz (-1))) = t' /\ ~ tf_ok t'.
Proof.
  exists ex_t. eexists. split; [exact ex_t_series|]. split; [exact ex_t_ok|]. split; [reflexivity|].
  intros [_ N]. specialize (N 0 1 ltac:(lia) ltac:(cbn; lia)). apply qleb_le in N. vm_compute in N. discriminate.
Qed.
Print Assumptions C78_negative_refuted.
(** ... and with a negative factor on x the axis is put back in order but not the values of the frames: the value
    that was at x = 1 is shown at x = 0 *)
Theorem C78_negative_axis_refuted : exists t t' f f', sf_series_ok t /\ tf_ok t /\ tf_scale sf_ops t (SNum (qz (-1))) SNone SNone SNone = t' /\
  nth_error (tff t) 0 = Some f /\ nth_error (tff t') 0 = Some f' /\ sf_shows f (qz 0) (qz 10) (oz 1) false /\ sf_shows f' (qz 0) (qz 10) (oz 3) false.
Proof.
  exists ex_t. eexists. exists (fr (oz 1) (oz 2) (oz 3) None). eexists. split; [exact ex_t_series|]. split; [exact ex_t_ok|]. split; [reflexivity|].
  split; [reflexivity|]. split; [reflexivity|]. split.
  - exists 0, 0. repeat split.
  - exists 1, 0. split; [cbn; f_equal; qc|]. split; [reflexivity|]. split; reflexivity.
Qed.
Print Assumptions C78_negative_axis_refuted.
Example C78_example : (0 <= sfact (SNum (qz 2)))%num /\ (0 <= sfact SNone)%num /\ tft (tf_scale sf_ops ex_t (SNum (qz 2)) SNone (SNum (qz 3)) (SUnum (qz 2) second)) = zs [0; 2; 6; 8]%Z.
Proof. split; [apply qleb_le; reflexivity|]. split; [apply qleb_le; reflexivity|]. apply list_eqb_eq. vmr. Qed.

(** ** C79: fluctuations *)
Theorem C79_fluctuations asort t nmb :
  is_argsort asort -> sf_series_ok t -> tf_ok t -> increasing (tft t) -> good_unit (tfu t) -> tff t <> [] -> (0 <= nmb)%Z ->
  exists m t', tf_mean sf_ops t nmb = Ok m /\ tf_fluct sf_ops asort t nmb = Ok t' /\ tf_ok t' /\ tfg t' = tfg t /\ tfu t' = tfu t /\
    each_frame (fun f d => minus_mean f m d) t t' /\
    (forall i j, i < length (ax (tfg t)) -> j < length (ay (tfg t)) -> total (availables (tff t') i j) = 0%num).
Proof. exact (tf_fluct_sf asort t nmb). Qed.
Print Assumptions C79_fluctuations.

Theorem C79_vector asort t nmb :
  is_argsort asort -> vf_series_ok t -> tf_ok t -> increasing (tft t) -> good_unit (tfu t) -> tff t <> [] -> (0 <= nmb)%Z ->
  exists m t', tf_mean vf_ops t nmb = Ok m /\ tf_fluct vf_ops asort t nmb = Ok t' /\ tf_ok t' /\ tfg t' = tfg t /\ tfu t' = tfu t /\
    each_frame (fun f d => vminus_mean f m d) t t' /\
    (forall i j, i < length (ax (tfg t)) -> j < length (ay (tfg t)) ->
       total (vavailables cx (tff t') i j) = 0%num /\ total (vavailables cy (tff t') i j) = 0%num).
Proof. exact (tf_fluct_vf asort t nmb). Qed.
Print Assumptions C79_vector.

Example C79_example : is_argsort argsort /\ good_unit (tfu ex_t) /\ exists t', tf_fluct sf_ops argsort ex_t 1 = Ok t' /\ map (fun f => at_ (values f) 0 1) (tff t') = [oz (-3); None; oz 3; oz 0].
Proof.
  split; [exact argsort_is|]. split; [reflexivity|].
  destruct (ok_ex (tf_fluct sf_ops argsort ex_t 1) (fun t => oseqb (map (fun f => at_ (values f) 0 1) (tff t)) [oz (-3); None; oz 3; oz 0])) as (t' & E & H); [vmr|].
  apply oseqb_eq in H. eauto.
Qed.

Example C79_vector_example : vf_series_ok ex_tv /\ exists t', tf_fluct vf_ops argsort ex_tv 1 = Ok t' /\ map (fun f => at_ (cx f) 0 0) (tff t') = [oz (-3); oz 1; oz 2].
Proof.
  split; [exact ex_tv_series|].
  destruct (ok_ex (tf_fluct vf_ops argsort ex_tv 1) (fun t => oseqb (map (fun f => at_ (cx f) 0 0) (tff t)) [oz (-3); oz 1; oz 2])) as (t' & E & H); [vmr|].
  apply oseqb_eq in H. eauto.
Qed.

(** ** C80: augmentation of the temporal resolution *)
Theorem C80_scalar t fact :
  sf_series_ok t -> tf_ok t -> increasing (tft t) -> tfa t = true -> tft t <> [] -> 2 <= fact ->
  exists t', tf_augment sf_ops t (Z.of_nat fact) = Ok t' /\ tf_ok t' /\ one_grid sf_ops t' /\ tfg t' = tfg t /\ tfu t' = tfu t /\
    length (frames t') = (length (frames t) - 1) * fact + 1 /\
    (forall i, i < length (frames t) -> nth_error (frames t') (i * fact) = nth_error (frames t) i) /\
    (forall i k x f, S i < length (frames t) -> k < fact -> nth_error (frames t') (i * fact + k) = Some (x, f) ->
       ((x - nths (tft t) i) * qn fact = qn k * (nths (tft t) (S i) - nths (tft t) i))%num /\ tf_interp sf_ops t x = Ok f).
Proof. exact (tf_augment_sf t fact). Qed.
Print Assumptions C80_scalar.

Theorem C80_vector t fact :
  vf_series_ok t -> tf_ok t -> increasing (tft t) -> tfa t = true -> tft t <> [] -> 2 <= fact ->
  exists t', tf_augment vf_ops t (Z.of_nat fact) = Ok t' /\ tf_ok t' /\ one_grid vf_ops t' /\ tfg t' = tfg t /\ tfu t' = tfu t /\
    length (frames t') = (length (frames t) - 1) * fact + 1 /\
    (forall i, i < length (frames t) -> nth_error (frames t') (i * fact) = nth_error (frames t) i) /\
    (forall i k x f, S i < length (frames t) -> k < fact -> nth_error (frames t') (i * fact + k) = Some (x, f) ->
       ((x - nths (tft t) i) * qn fact = qn k * (nths (tft t) (S i) - nths (tft t) i))%num /\ tf_interp vf_ops t x = Ok f).
Proof. exact (tf_augment_vf t fact). Qed.
Print Assumptions C80_vector.

Example C80_example : tft ex_t <> [] /\ exists t', tf_augment sf_ops ex_t 2 = Ok t' /\ tft t' = [qz 0; qq 1 2; qz 1; qz 2; qz 3; qq 7 2; qz 4].
Proof.
  split; [discriminate|]. destruct (ok_ex (tf_augment sf_ops ex_t 2) (fun t => list_eqb (tft t) [qz 0; qq 1 2; qz 1; qz 2; qz 3; qq 7 2; qz 4])) as (t' & E & H); [vmr|].
  apply list_eqb_eq in H. eauto.
Qed.

(** ** C81: time profile at a position *)
Theorem C81_time_profile {F} (ops : fops F) comp u t x y wt :
  tf_ok t -> grid_sorted (tfg t) -> on_axis (ax (tfg t)) x -> on_axis (ay (tfg t)) y ->
  match wt with Some (a, b) => (a < b)%num | None => True end ->
  exists i j p, nearest_node (ax (tfg t)) x i /\ nearest_node (ay (tfg t)) y j /\
    tf_time_profile ops comp u t x y wt = Ok p /\ pux p = tfu t /\ puy p = u /\
    samples p = map (time_sample ops comp i j) (in_time wt t).
Proof. exact (tf_time_profile_lemma ops comp u t x y wt). Qed.
Print Assumptions C81_time_profile.

Example C81_example : on_axis (ax (tfg ex_t)) (qq 2 5) /\ on_axis (ay (tfg ex_t)) (qz 20) /\
  exists p, tf_time_profile sf_ops values metre ex_t (qq 2 5) (qz 20) (Some (qz 1, qz 4)) = Ok p /\ samples p = [(qz 1, None, true); (qz 3, oz 8, false); (qz 4, oz 5, false)].
Proof.
  split; [split; [discriminate|split; apply qleb_le; reflexivity]|]. split; [split; [discriminate|split; apply qleb_le; reflexivity]|].
  eexists. split; [reflexivity|]. reflexivity.
Qed.

(** ** C82: time profile along dated points *)
Theorem C82_along_partial {F} (ops : fops F) comp u t p :
  tf_ok t -> increasing (tft t) -> grid_sorted (tfg t) -> length (pv p) = length (xy p) -> increasing (pv p) ->
  (forall time, In time (pv p) -> In time (tft t)) ->
  (forall x y, In (x, y) (xy p) -> on_axis (ax (tfg t)) x /\ on_axis (ay (tfg t)) y) ->
  exists r, tf_time_profile_along ops comp u t p None = Ok r /\ pux r = tfu t /\ puy r = u /\
    Forall2 (fun q s => exists f i j, In (snd q, f) (frames t) /\ nearest_node (ax (tfg t)) (fst (fst q)) i /\ nearest_node (ay (tfg t)) (snd (fst q)) j /\
                        s = time_sample ops comp i j (snd q, f)) (combine (xy p) (pv p)) (samples r).
Proof. exact (tf_time_profile_along_lemma ops comp u t p). Qed.
Print Assumptions C82_along_partial.

(** with a window of times, the value of a time is read at the position of another time *)
Definition ex_path : points := mkpts [(qz 0, qz 10); (qz 1, qz 10); (qz 1, qz 20)] (zs [0; 1; 3]%Z) metre metre second.
Theorem C82_window_refuted : exists t p r f, sf_series_ok t /\ tf_ok t /\ increasing (pv p) /\ (forall time, In time (pv p) -> In time (tft t)) /\
  tf_time_profile_along sf_ops values metre t p (Some (qz 1, qz 4)) = Ok r /\
  In (qz 1, f) (frames t) /\ In (qz 1, qz 10, qz 1) (combine (xy p) (pv p)) /\ at_ (values f) 1 0 = oz 4 /\
  In (qz 1, oz 5, false) (samples r).
Proof.
  exists ex_t, ex_path. eexists. exists (fr (oz 5) None (oz 4) None). split; [exact ex_t_series|]. split; [exact ex_t_ok|]. split; [incr|].
  split; [intros x H; cbn in *; intuition|]. split; [reflexivity|]. split; [cbn; auto|]. split; [cbn; auto|]. split; [reflexivity|]. cbn. auto.
Qed.
Print Assumptions C82_window_refuted.
(** points that are not in the order of their times are also mixed up *)
Theorem C82_order_refuted : exists t p r f, sf_series_ok t /\ tf_ok t /\ (forall time, In time (pv p) -> In time (tft t)) /\
  tf_time_profile_along sf_ops values metre t p None = Ok r /\
  In (qz 1, f) (frames t) /\ In (qz 1, qz 10, qz 1) (combine (xy p) (pv p)) /\ at_ (values f) 1 0 = oz 4 /\
  In (qz 1, oz 5, false) (samples r).
Proof.
  exists ex_t, (mkpts [(qz 1, qz 10); (qz 0, qz 10)] (zs [1; 0]%Z) metre metre second). eexists. exists (fr (oz 5) None (oz 4) None). split; [exact ex_t_series|]. split; [exact ex_t_ok|].
  split; [intros x H; cbn in *; intuition|]. split; [reflexivity|]. split; [cbn; auto|]. split; [cbn; auto|]. split; [reflexivity|]. cbn. auto.
Qed.
Print Assumptions C82_order_refuted.
Example C82_example : length (pv ex_path) = length (xy ex_path) /\ increasing (pv ex_path) /\ (forall time, In time (pv ex_path) -> In time (tft ex_t)) /\
  exists r, tf_time_profile_along sf_ops values metre ex_t ex_path None = Ok r /\ samples r = [(qz 0, oz 1, false); (qz 1, oz 4, false); (qz 3, oz 7, false)].
Proof. split; [reflexivity|]. split; [incr|]. split; [intros x H; cbn in *; intuition|]. eexists. split; [reflexivity|]. reflexivity. Qed.

(** ** C83: extremal fields *)
Theorem C83_min_partial t nmb u :
  sf_series_ok t -> (forall f, In f (tff t) -> uv f = u) -> tff t <> [] ->
  exists s, tsf_min t nmb = Ok s /\ sg s = tfg t /\ uv s = u /\
    forall i j, i < length (ax (tfg t)) -> j < length (ay (tfg t)) ->
      (at_ (msk s) i j = true <-> (Z.of_nat (length (availables (tff t) i j)) <= nmb)%Z) /\
      ((exists f r, tff t = f :: r /\ at_ (msk f) i j = false) -> at_ (msk s) i j = false ->
         exists w, at_ (values s) i j = Some w /\ (exists h, In h (tff t) /\ at_ (values h) i j = Some w) /\
           forall h x, In h (tff t) -> at_ (values h) i j = Some x -> (w <= x)%num).
Proof. exact (tsf_min_lemma t nmb u). Qed.
Print Assumptions C83_min_partial.

Theorem C83_max_partial t nmb u :
  sf_series_ok t -> (forall f, In f (tff t) -> uv f = u) -> tff t <> [] ->
  exists s, tsf_max t nmb = Ok s /\ sg s = tfg t /\ uv s = u /\
    forall i j, i < length (ax (tfg t)) -> j < length (ay (tfg t)) ->
      (at_ (msk s) i j = true <-> (Z.of_nat (length (availables (tff t) i j)) <= nmb)%Z) /\
      ((exists f r, tff t = f :: r /\ at_ (msk f) i j = false) -> at_ (msk s) i j = false ->
         exists w, at_ (values s) i j = Some w /\ (exists h, In h (tff t) /\ at_ (values h) i j = Some w) /\
           forall h x, In h (tff t) -> at_ (values h) i j = Some x -> (x <= w)%num).
Proof. exact (tsf_max_lemma t nmb u). Qed.
Print Assumptions C83_max_partial.

(** a cell that the first frame masks stays NaN, although other frames have values there and it is not masked *)
Theorem C83_first_frame_refuted : exists t s, sf_series_ok t /\ tsf_min t 0 = Ok s /\ availables (tff t) 1 1 <> [] /\ at_ (msk s) 1 1 = false /\ at_ (values s) 1 1 = None.
Proof.
  destruct (ok_ex (tsf_min ex_t 0) (fun s => (negb (at_ (msk s) 1 1) && oeqb (at_ (values s) 1 1) None)%bool)) as (s & E & H); [vmr|].
  apply andb_true_iff in H. destruct H as [H1 H2]. apply negb_true_iff in H1. apply oeqb_eq in H2.
  exists ex_t, s. split; [exact ex_t_series|]. split; [exact E|]. split; [intro H; apply (f_equal (@length num)) in H; vm_compute in H; discriminate H|]. split; assumption.
Qed.
Print Assumptions C83_first_frame_refuted.
Example C83_example : (forall f, In f (tff ex_t) -> uv f = metre) /\ (exists f r, tff ex_t = f :: r /\ at_ (msk f) 0 1 = false) /\
  exists s s', tsf_min ex_t 1 = Ok s /\ at_ (values s) 1 0 = oz (-4) /\ tsf_max ex_t 1 = Ok s' /\ at_ (values s') 0 1 = oz 8.
Proof. split; [each_frame_tac; reflexivity|]. split; [eexists; eexists; split; reflexivity|].
  destruct (ok_ex (tsf_min ex_t 1) (fun s => oeqb (at_ (values s) 1 0) (oz (-4)))) as (s & E & H); [vmr|].
  destruct (ok_ex (tsf_max ex_t 1) (fun s => oeqb (at_ (values s) 0 1) (oz 8))) as (s' & E' & H'); [vmr|].
  apply oeqb_eq in H, H'. exists s, s'. auto.
Qed.

(** ** C84: sum of two series *)
Theorem C84_same_times_partial asort t s :
  sf_series_ok t -> tf_ok t -> sf_series_ok s -> tf_ok s -> tft s = tft t -> tfg s = tfg t ->
  (forall f h, In f (tff t) -> In h (tff s) -> dim (uv f) = dim (uv h)) ->
  exists t', tf_plus sf_ops asort t s = Ok t' /\ tf_ok t' /\ one_grid sf_ops t' /\ tfu t' = tfu t /\ tft t' = tft t /\
    Forall2 (fun p c => sf_add (fst p) (snd p) = Ok c) (combine (tff t) (tff s)) (tff t').
Proof. exact (tf_plus_same_sf asort t s). Qed.
Print Assumptions C84_same_times_partial.

(** other times: the frames of the second series are all added at time 0 *)
Theorem C84_other_times_refuted : exists t s t', sf_series_ok t /\ tf_ok t /\ sf_series_ok s /\ tf_ok s /\ tfu s = tfu t /\
  tf_plus sf_ops argsort t s = Ok t' /\ In (qz 7) (tft s) /\ ~ In (qz 7) (tft t').
Proof.
  exists (mktf (tfg ex_t) (tff ex_t) true (tft ex_t) one_unit), (mktf (tfg ex_t) [fr (oz 1) (oz 2) (oz 3) None] true (zs [7]%Z) one_unit). eexists.
  split; [exact ex_t_series|]. split; [exact ex_t_ok|]. split.
  { split; [exact g22_ok|]. split; [each_frame_tac; reflexivity|]. split.
    - each_frame_tac; (split; [repeat split|split; [apply clean_b_ok; reflexivity|reflexivity]]).
    - intros f h I. revert f I h. each_frame_tac; each_frame_tac; reflexivity. }
  split; [split; [reflexivity|apply increasing_nondecreasing; incr]|]. split; [reflexivity|]. split; [reflexivity|]. split; [cbn; auto|].
  intro I. cbn in I. repeat (destruct I as [I|I]; [apply (f_equal this) in I; vm_compute in I; discriminate|]). contradiction.
Qed.
Print Assumptions C84_other_times_refuted.
Example C84_example : tft ex_t = tft ex_t /\ exists t', tf_plus sf_ops argsort ex_t ex_t = Ok t' /\ map (fun f => at_ (values f) 0 1) (tff t') = [oz 4; None; oz 16; oz 10].
Proof.
  split; [reflexivity|]. destruct (ok_ex (tf_plus sf_ops argsort ex_t ex_t) (fun t => oseqb (map (fun f => at_ (values f) 0 1) (tff t)) [oz 4; None; oz 16; oz 10])) as (t' & E & H); [vmr|].
  apply oseqb_eq in H. eauto.
Qed.

(** ** C85: units of a series *)
Theorem C85_axes_scalar t a new :
  tf_ok t -> one_grid sf_ops t -> a = AxX \/ a = AxY ->
  is_ok (conv (match a with AxX => ux (tfg t) | _ => uy (tfg t) end) new) = true ->
  exists t', tf_change_unit sf_ops t (TAx a) new = Ok t' /\ tf_ok t' /\ one_grid sf_ops t' /\ tfu t' = tfu t /\
    grid_change_unit (tfg t) a new = Ok (tfg t') /\ each_frame (fun f f' => sf_change_unit f a new = Ok f') t t'.
Proof. exact (tf_change_unit_sf t a new). Qed.
Print Assumptions C85_axes_scalar.

Theorem C85_axes_vector t a new :
  tf_ok t -> one_grid vf_ops t -> a = AxX \/ a = AxY ->
  is_ok (conv (match a with AxX => ux (tfg t) | _ => uy (tfg t) end) new) = true ->
  exists t', tf_change_unit vf_ops t (TAx a) new = Ok t' /\ tf_ok t' /\ one_grid vf_ops t' /\ tfu t' = tfu t /\
    grid_change_unit (tfg t) a new = Ok (tfg t') /\ each_frame (fun f f' => vf_change_unit f a new = Ok f') t t'.
Proof. exact (tf_change_unit_vf t a new). Qed.
Print Assumptions C85_axes_vector.

Theorem C85_values_scalar t new :
  tf_ok t -> one_grid sf_ops t -> (forall f, In f (tff t) -> is_ok (conv (uv f) new) = true) ->
  exists t', tf_change_unit sf_ops t (TAx AxValues) new = Ok t' /\ tf_ok t' /\ one_grid sf_ops t' /\ tfu t' = tfu t /\ tfg t' = tfg t /\
    each_frame (fun f f' => sf_change_unit f AxValues new = Ok f') t t'.
Proof. exact (tf_change_unit_values_sf t new). Qed.
Print Assumptions C85_values_scalar.

Theorem C85_values_vector t new :
  tf_ok t -> one_grid vf_ops t -> (forall f, In f (tff t) -> is_ok (conv (vuv f) new) = true) ->
  exists t', tf_change_unit vf_ops t (TAx AxValues) new = Ok t' /\ tf_ok t' /\ one_grid vf_ops t' /\ tfu t' = tfu t /\ tfg t' = tfg t /\
    each_frame (fun f f' => vf_change_unit f AxValues new = Ok f') t t'.
Proof. exact (tf_change_unit_values_vf t new). Qed.
Print Assumptions C85_values_vector.

Theorem C85_time {F} (ops : fops F) t new :
  tf_ok t -> one_grid ops t -> good_unit (tfu t) -> good_unit new -> dim (tfu t) = dim new ->
  exists t', tf_change_unit ops t TTime new = Ok t' /\ tf_ok t' /\ one_grid ops t' /\ tfg t' = tfg t /\ tfu t' = new /\
    Forall2 (fun a b => snd b = snd a /\ (fst b * sc new = fst a * sc (tfu t))%num) (frames t) (frames t').
Proof. exact (tf_change_unit_time ops t new). Qed.
Print Assumptions C85_time.

(** the unit_times setter ignores a unit given as a string *)
Theorem C85_setter_refuted {F} (t : tfield F) u : u <> tfu t -> tfu (tf_set_unit t u true) <> u.
Proof. intro H. cbn. congruence. Qed.
Print Assumptions C85_setter_refuted.
Example C85_example : is_ok (conv (ux (tfg ex_t)) millimetre) = true /\ (forall f, In f (tff ex_t) -> is_ok (conv (uv f) millimetre) = true) /\ dim (tfu ex_t) = dim millisecond /\ millisecond <> tfu ex_t /\
  exists t', tf_change_unit sf_ops ex_t TTime millisecond = Ok t' /\ nths (tft t') 1 = qz 1000.
Proof. split; [reflexivity|]. split; [each_frame_tac; reflexivity|]. split; [reflexivity|]. split; [intro H; apply (f_equal (fun u => qeqb (sc u) 1%num)) in H; vm_compute in H; discriminate|]. eexists. split; [reflexivity|]. qc. Qed.

(** ** C96: the cumulated mask *)
Theorem C96_mask_cum {F} (ops : fops F) (t : tfield F) :
  has_shape (tf_mask_cum ops t) (length (ax (tfg t))) (length (ay (tfg t))) /\
  forall i j, at_ (tf_mask_cum ops t) i j = true <-> forall f, In f (tff t) -> at_ (o_mask ops f) i j = true.
Proof. exact (mask_cum_lemma ops t). Qed.
Print Assumptions C96_mask_cum.

Theorem C96_mean_mask t m :
  sf_series_ok t -> tff t <> [] -> tf_mean sf_ops t 0 = Ok m ->
  aeq (tf_mask_cum sf_ops t) (msk m).
Proof. exact (mask_cum_mean_lemma t m). Qed.
Print Assumptions C96_mean_mask.

Example C96_example : sf_series_ok ex_t /\ tff ex_t <> [] /\ (exists m, tf_mean sf_ops ex_t 0 = Ok m) /\ at_ (tf_mask_cum sf_ops ex_t) 0 1 = false.
Proof.
  split; [apply ex_t_series|]. split; [discriminate|]. split; [|vm_compute; reflexivity].
  destruct (tf_mean_sf ex_t 0 ex_t_series) as (m & E & _); [discriminate|lia|exists m; exact E].
Qed.
