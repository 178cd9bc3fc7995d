(** * PropSeries2: the properties C142 to C148: background, masked border, weird fields, filling in time and injected profiles of series of fields.
    Statements only; the proofs are in Series2Proofs*.v.  The vocabulary is in Series2Spec, TemporalSpec and Prof2Spec. *)
From Coq Require Import Lia QArith Qcanon List.
From Verif Require Import Num Res ListLib SortLib Arr FieldModel ScalarFieldModel VectorFieldModel FieldSpec Concrete ProfileModel ProfileSpec SeqSpec PointsSpec TemporalModel TemporalSpec TemporalEx
  Prof2Model Prof2Spec Prof2Proofs4 Series2Model Series2Spec Series2Proofs2 Series2Proofs3 Series2Proofs4 Series2Proofs5 Series2Proofs6.

Tactic Notation "frame_by" tactic3(t) := each_frame_tac; t.

(** ** C142 *)
Theorem C142_choice_partial t noise :
  grid_ok2 (tfg t) -> (forall f, In f (tff t) -> sf_wf f /\ sg f = tfg t) -> tff t <> [] ->
  exists b, tsf_background t noise = Ok b /\ sg b = tfg t /\ uv b = one_unit /\ sf_wf b /\ sf_clean b /\
    forall i j l, i < length (ax (tfg t)) -> j < length (ay (tfg t)) -> pixel_values t i j l ->
      exists keep, convex keep /\ filter keep l <> [] /\
        ((at_ (msk b) i j = true /\ equidistant (filter keep l)) \/
         (at_ (msk b) i j = false /\ at_ (values b) i j = Some (average (filter keep l)) /\
          ((0 < noise)%num /\ (variance (filter keep l) < noise * noise)%num \/ 10 * length (filter keep l) <= length (tff t)))).
Proof. exact (background_choice t noise). Qed.
Print Assumptions C142_choice_partial.

Theorem C142_usual_partial t noise :
  grid_ok2 (tfg t) -> (forall f, In f (tff t) -> sf_wf f /\ sg f = tfg t) -> (0 < noise)%num ->
  exists b, tsf_background t noise = Ok b /\ sg b = tfg t /\
    forall i j l c, i < length (ax (tfg t)) -> j < length (ay (tfg t)) -> pixel_values t i j l -> length l < 2 * times_shown c l -> (exists v, In v l /\ v <> c) ->
      at_ (msk b) i j = false /\ exists v, at_ (values b) i j = Some v /\ (c - noise < v < c + noise)%num.
Proof. exact (background_usual t noise). Qed.
Print Assumptions C142_usual_partial.

Theorem C142_still_partial t noise :
  grid_ok2 (tfg t) -> (forall f, In f (tff t) -> sf_wf f /\ sg f = tfg t) ->
  exists b, tsf_background t noise = Ok b /\
    forall i j l c, i < length (ax (tfg t)) -> j < length (ay (tfg t)) -> pixel_values t i j l -> (forall v, In v l -> v = c) ->
      at_ (msk b) i j = true /\ at_ (values b) i j = None.
Proof. exact (background_still t noise). Qed.
Print Assumptions C142_still_partial.

(** a pixel that never changes is masked in the background *)
Definition ex_still : tfield sfield := mktf g22 [fr (oz 1) (oz 2) (oz 3) (oz 0); fr (oz 1) (oz 2) (oz 30) (oz 0); fr (oz 1) (oz 2) (oz 3) (oz 2)] true (zs [0; 1; 3]%Z) second.
Theorem C142_refuted : exists t noise b i j c, sf_series_ok t /\ (0 < noise)%num /\ i < length (ax (tfg t)) /\ j < length (ay (tfg t)) /\
  (forall f, In f (tff t) -> at_ (msk f) i j = false /\ at_ (values f) i j = Some c) /\ tsf_background t noise = Ok b /\ at_ (msk b) i j = true.
Proof.
  destruct (ok_ex (tsf_background ex_still (qz 10)) (fun b => at_ (msk b) 0 0)) as (b & E & H); [vmr|].
  exists ex_still, (qz 10), b, 0, 0, (qz 1). split.
  - split; [exact g22_ok|]. split; [frame_by reflexivity|]. split.
    + frame_by (split; [repeat split|split; [apply clean_b_ok; reflexivity|reflexivity]]).
    + intros f h I. revert f I h. frame_by each_frame_tac; reflexivity.
  - split; [reflexivity|]. split; [cbn; lia|]. split; [cbn; lia|]. split; [|now split].
    frame_by (split; reflexivity).
Qed.
Print Assumptions C142_refuted.
Example C142_example : grid_ok2 (tfg ex_still) /\ (forall f, In f (tff ex_still) -> sf_wf f /\ sg f = tfg ex_still) /\ pixel_values ex_still 1 0 [qz 3; qz 30; qz 3] /\
  3 < 2 * times_shown (qz 3) [qz 3; qz 30; qz 3] /\ (exists v, In v [qz 3; qz 30; qz 3] /\ v <> qz 3).
Proof.
  split; [exact g22_ok|]. split; [frame_by (split; [repeat split|reflexivity])|]. split; [repeat constructor|]. split; [vm_compute; lia|].
  exists (qz 30). split; [right; left; reflexivity|]. intro H. apply (f_equal this) in H. vm_compute in H. discriminate.
Qed.

(** ** C143 *)
Theorem C143_replaced t bg noise c :
  (forall f, In f (tff t) -> sf_wf f /\ o_grid sf_ops f = sg bg) -> sf_wf bg ->
  exists t', tsf_subtract t bg noise (Some c) = Ok t' /\ tft t' = tft t /\ tfu t' = tfu t /\ tfg t' = tfg t /\
    Forall2 (fun f f' => sg f' = sg f /\ uv f' = uv f /\ sf_wf f' /\ forall i j, i < length (ax (sg f)) -> j < length (ay (sg f)) ->
      (forall v b, at_ (values f) i j = Some v -> at_ (values bg) i j = Some b -> (b - noise < v < b + noise)%num -> at_ (values f') i j = Some c /\ at_ (msk f') i j = false) /\
      ((forall v b, at_ (values f) i j = Some v -> at_ (values bg) i j = Some b -> ~ (b - noise < v < b + noise)%num) -> at_ (values f') i j = at_ (values f) i j) /\
      (at_ (msk f) i j = true -> at_ (msk f') i j = true)) (tff t) (tff t').
Proof. exact (subtract_lemma t bg noise c). Qed.
Print Assumptions C143_replaced.

Theorem C143_default t bg noise :
  sf_wf bg -> sf_clean bg -> shown_values bg <> [] -> tsf_subtract t bg noise None = tsf_subtract t bg noise (Some (average (shown_values bg))).
Proof. exact (subtract_default t bg noise). Qed.
Print Assumptions C143_default.

Example C143_example : sf_wf (fr (oz 1) (oz 2) (oz 3) None) /\ sf_clean (fr (oz 1) (oz 2) (oz 3) None) /\ shown_values (fr (oz 1) (oz 2) (oz 3) None) = [qz 1; qz 2; qz 3] /\
  (forall f, In f (tff ex_t) -> sf_wf f /\ o_grid sf_ops f = sg (fr (oz 1) (oz 2) (oz 3) None)).
Proof. split; [repeat split|]. split; [apply clean_b_ok; reflexivity|]. split; [reflexivity|]. frame_by (split; [repeat split|reflexivity]). Qed.

(** ** C144 *)
Theorem C144_scalar_partial t :
  (forall f, In f (tff t) -> sf_wf f /\ o_grid sf_ops f = tfg t) -> (exists i j, i < length (ax (tfg t)) /\ j < length (ay (tfg t)) /\ always_masked sf_ops t i j) ->
  (exists i j, 0 < i < length (ax (tfg t)) /\ j < length (ay (tfg t)) /\ ~ always_masked sf_ops t i j) ->
  (exists i j, i < length (ax (tfg t)) /\ 0 < j < length (ay (tfg t)) /\ ~ always_masked sf_ops t i j) ->
  exists t' x0 y0 n m, tf_crop_masked sf_ops t false = Ok (Some t') /\ series_part sf_part x0 y0 n m t t' /\ 0 < n /\ 0 < m /\
    (forall i j, i < length (ax (tfg t)) -> j < length (ay (tfg t)) -> ~ always_masked sf_ops t i j -> x0 <= i < x0 + n /\ y0 <= j < y0 + m) /\
    (exists j, j < m /\ ~ always_masked sf_ops t' 0 j) /\ (exists j, j < m /\ ~ always_masked sf_ops t' (n - 1) j) /\
    (exists i, i < n /\ ~ always_masked sf_ops t' i 0) /\ (exists i, i < n /\ ~ always_masked sf_ops t' i (m - 1)).
Proof. exact (sf_soft t). Qed.
Print Assumptions C144_scalar_partial.

Theorem C144_vector_partial t :
  (forall f, In f (tff t) -> vf_wf f /\ o_grid vf_ops f = tfg t) -> (exists i j, i < length (ax (tfg t)) /\ j < length (ay (tfg t)) /\ always_masked vf_ops t i j) ->
  (exists i j, 0 < i < length (ax (tfg t)) /\ j < length (ay (tfg t)) /\ ~ always_masked vf_ops t i j) ->
  (exists i j, i < length (ax (tfg t)) /\ 0 < j < length (ay (tfg t)) /\ ~ always_masked vf_ops t i j) ->
  exists t' x0 y0 n m, tf_crop_masked vf_ops t false = Ok (Some t') /\ series_part vf_part x0 y0 n m t t' /\ 0 < n /\ 0 < m /\
    (forall i j, i < length (ax (tfg t)) -> j < length (ay (tfg t)) -> ~ always_masked vf_ops t i j -> x0 <= i < x0 + n /\ y0 <= j < y0 + m) /\
    (exists j, j < m /\ ~ always_masked vf_ops t' 0 j) /\ (exists j, j < m /\ ~ always_masked vf_ops t' (n - 1) j) /\
    (exists i, i < n /\ ~ always_masked vf_ops t' i 0) /\ (exists i, i < n /\ ~ always_masked vf_ops t' i (m - 1)).
Proof. exact (vf_soft t). Qed.
Print Assumptions C144_vector_partial.

Theorem C144_nothing_partial {F} (ops : fops F) t :
  (forall i j, i < length (ax (tfg t)) -> j < length (ay (tfg t)) -> ~ always_masked ops t i j) ->
  tf_crop_masked ops t false = Ok None /\ tf_crop_masked ops t true = Ok None.
Proof. exact (crop_nothing ops t). Qed.
Print Assumptions C144_nothing_partial.

(** nothing to crop: no series is returned *)
Theorem C144_refuted : exists t, sf_series_ok t /\ tf_ok t /\ (forall i j, i < length (ax (tfg t)) -> j < length (ay (tfg t)) -> ~ always_masked sf_ops t i j) /\ tf_crop_masked sf_ops t false = Ok None.
Proof.
  exists ex_t. split; [exact ex_t_series|]. split; [exact ex_t_ok|].
  assert (N : forall i j, i < length (ax (tfg ex_t)) -> j < length (ay (tfg ex_t)) -> ~ always_masked sf_ops ex_t i j).
  { intros i j Hi Hj A. specialize (A (fr (oz 6) (oz 8) (oz 5) (oz 7)) (or_intror (or_intror (or_introl eq_refl)))). cbn in Hi, Hj.
    destruct i as [|[|i]]; destruct j as [|[|j]]; try lia; discriminate A. }
  split; [exact N|]. now apply crop_nothing.
Qed.
Print Assumptions C144_refuted.
(** all the shown cells are in the first column: the cropping raises *)
Definition ex_first : tfield sfield := mktf g22 [fr (oz 1) (oz 2) None None; fr (oz 5) (oz 3) None None] true (zs [0; 1]%Z) second.
Theorem C144_first_refuted : exists t, sf_series_ok t /\ tf_ok t /\ (forall i j f, In f (tff t) -> i < length (ax (tfg t)) -> j < length (ay (tfg t)) -> at_ (msk f) i j = false <-> i = 0) /\
  tf_crop_masked sf_ops t false = Err ValueErr.
Proof.
  exists ex_first. split.
  - split; [exact g22_ok|]. split; [frame_by reflexivity|]. split.
    + frame_by (split; [repeat split|split; [apply clean_b_ok; reflexivity|reflexivity]]).
    + intros f h I. revert f I h. frame_by each_frame_tac; reflexivity.
  - split; [split; [reflexivity|apply increasing_nondecreasing; incr]|]. split; [|vm_compute; reflexivity].
    intros i j f I Hi Hj. cbn in I, Hi, Hj. destruct I as [<-|[<-|[]]]; destruct i as [|[|i]]; destruct j as [|[|j]]; try lia; cbn; split; intro H; try discriminate H; reflexivity.
Qed.
Print Assumptions C144_first_refuted.
Definition ex_side : tfield sfield := mktf g22 [fr None None (oz 1) (oz 2); fr None None (oz 5) (oz 3)] true (zs [0; 1]%Z) second.
Example C144_example : (forall f, In f (tff ex_side) -> sf_wf f /\ o_grid sf_ops f = tfg ex_side) /\ always_masked sf_ops ex_side 0 0 /\ ~ always_masked sf_ops ex_side 1 1.
Proof.
  split; [frame_by (split; [repeat split|reflexivity])|]. split; [frame_by reflexivity|].
  intro A. specialize (A _ (or_introl eq_refl)). discriminate A.
Qed.

(** ** C145 *)
Theorem C145_scalar_partial t :
  (forall f, In f (tff t) -> sf_wf f /\ o_grid sf_ops f = tfg t) -> tf_crop_masked sf_ops t true <> Err OutOfFuel /\
  forall t', tf_crop_masked sf_ops t true = Ok (Some t') -> exists x0 y0 n m, series_part sf_part x0 y0 n m t t' /\
      (forall i, i < length (ax (tfg t)) -> i < x0 \/ x0 + n <= i -> exists j, j < length (ay (tfg t)) /\ always_masked sf_ops t i j) /\
      (forall j, j < length (ay (tfg t)) -> j < y0 \/ y0 + m <= j -> exists i, i < length (ax (tfg t)) /\ always_masked sf_ops t i j) /\ 0 < n /\ 0 < m /\
    forall i j, i < n -> j < m -> i = 0 \/ i = n - 1 \/ j = 0 \/ j = m - 1 -> ~ always_masked sf_ops t' i j.
Proof. exact (sf_hard t). Qed.
Print Assumptions C145_scalar_partial.

Theorem C145_vector_partial t :
  (forall f, In f (tff t) -> vf_wf f /\ o_grid vf_ops f = tfg t) -> tf_crop_masked vf_ops t true <> Err OutOfFuel /\
  forall t', tf_crop_masked vf_ops t true = Ok (Some t') -> exists x0 y0 n m, series_part vf_part x0 y0 n m t t' /\
      (forall i, i < length (ax (tfg t)) -> i < x0 \/ x0 + n <= i -> exists j, j < length (ay (tfg t)) /\ always_masked vf_ops t i j) /\
      (forall j, j < length (ay (tfg t)) -> j < y0 \/ y0 + m <= j -> exists i, i < length (ax (tfg t)) /\ always_masked vf_ops t i j) /\ 0 < n /\ 0 < m /\
    forall i j, i < n -> j < m -> i = 0 \/ i = n - 1 \/ j = 0 \/ j = m - 1 -> ~ always_masked vf_ops t' i j.
Proof. exact (vf_hard t). Qed.
Print Assumptions C145_vector_partial.

(** three shown cells out of four: the cropping raises *)
Definition ex_corner : tfield sfield := mktf g22 [fr (oz 1) (oz 2) (oz 3) None; fr (oz 5) (oz 3) (oz 4) None] true (zs [0; 1]%Z) second.
Theorem C145_refuted : exists t, sf_series_ok t /\ tf_ok t /\ (exists i j, i < length (ax (tfg t)) /\ j < length (ay (tfg t)) /\ ~ always_masked sf_ops t i j) /\ tf_crop_masked sf_ops t true = Err ValueErr.
Proof.
  exists ex_corner. split.
  - split; [exact g22_ok|]. split; [frame_by reflexivity|]. split.
    + frame_by (split; [repeat split|split; [apply clean_b_ok; reflexivity|reflexivity]]).
    + intros f h I. revert f I h. frame_by each_frame_tac; reflexivity.
  - split; [split; [reflexivity|apply increasing_nondecreasing; incr]|]. split; [|vm_compute; reflexivity].
    exists 0, 0. split; [cbn; lia|]. split; [cbn; lia|]. intro A. specialize (A _ (or_introl eq_refl)). discriminate A.
Qed.
Print Assumptions C145_refuted.
Definition ex_hole : tfield sfield :=
  mktf (mkgrid (zs [0; 1; 3]%Z) (zs [10; 20]%Z) metre metre) [sf_of [0; 1; 3]%Z [10; 20]%Z [[None; oz 2]; [oz 1; oz 4]; [oz 5; oz 6]] [[true; false]; [false; false]; [false; false]]] true (zs [0]%Z) second.
Example C145_example : (forall f, In f (tff ex_hole) -> sf_wf f /\ o_grid sf_ops f = tfg ex_hole) /\ exists t', tf_crop_masked sf_ops ex_hole true = Ok (Some t') /\ ax (tfg t') = zs [1; 3]%Z.
Proof.
  split; [frame_by (split; [repeat split|reflexivity])|].
  destruct (ok_ex (tf_crop_masked sf_ops ex_hole true) (fun r => match r with Some t' => oseqb (map Some (ax (tfg t'))) (map Some (zs [1; 3]%Z)) | None => false end)) as (r & E & H); [vmr|].
  destruct r as [t'|]; [|discriminate]. exists t'. split; [exact E|]. apply oseqb_eq in H. revert H. generalize (ax (tfg t')) as a. intros a. generalize (zs [1; 3]%Z) as b. clear. revert a.
  induction a as [|x a IH]; intros [|y b] H; try discriminate H; [reflexivity|]. injection H as -> H. f_equal. now apply IH.
Qed.

(** ** C146 *)
Theorem C146_interpolate_partial root coef t :
  vf_series_ok t -> (0 <= coef)%num ->
  (forall k, weird root coef t k -> exists e, surrounded (weird root coef t) (length (tff t)) k e) ->
  exists t', remove_weird root t coef WInterpolate = Ok t' /\ tft t' = tft t /\ tfu t' = tfu t /\ tfg t' = tfg t /\ length (tff t') = length (tff t) /\
    forall k, (~ weird root coef t k -> nth_error (tff t') k = nth_error (tff t) k) /\
      (forall e a b, weird root coef t k -> surrounded (weird root coef t) (length (tff t)) k e -> nth_error (tff t) (k + e) = Some a -> nth_error (tff t) (k - e) = Some b ->
         exists f, nth_error (tff t') k = Some f /\ middle a b f).
Proof. exact (weird_interpolate root coef t). Qed.
Print Assumptions C146_interpolate_partial.

Theorem C146_remove_partial root coef t k :
  vf_series_ok t -> tf_ok t -> (0 <= coef)%num -> (forall i, weird root coef t i <-> i = k) ->
  exists t', remove_weird root t coef WRemove = Ok t' /\ tfu t' = tfu t /\ tfg t' = tfg t /\ keeps (fun i => i <> k) (frames t) (frames t').
Proof. exact (weird_remove root coef t k). Qed.
Print Assumptions C146_remove_partial.

Theorem C146_none_partial root coef t w :
  w = WInterpolate \/ w = WRemove -> vf_series_ok t -> (0 <= coef)%num -> (forall i, ~ weird root coef t i) -> remove_weird root t coef w = Ok t.
Proof. exact (weird_none root coef t w). Qed.
Print Assumptions C146_none_partial.

(** frames made of one vector (a, 0) in a corner; 0 and 1 are their own square roots *)
Definition vcorner (a b : Z) : vfield := vf_of [0; 1]%Z [10; 20]%Z [[oz a; oz 0]; [oz 0; oz b]] [[oz 0; oz 0]; [oz 0; oz 0]] [[false; false]; [false; false]].
Definition wt (l : list (Z * Z)) : tfield vfield := mktf g22 (map (fun p => vcorner (fst p) (snd p)) l) true (map (fun k => qz (Z.of_nat k)) (seq 0 (length l))) second.
Definition same (x : num) : num := x.
Definition is_root (root : num -> num) (t : tfield vfield) : Prop := forall f s, In f (tff t) -> In s (norms same f) -> (root s * root s = s)%num /\ (0 <= root s)%num.
Definition rootb (t : tfield vfield) : bool := forallb (fun f => forallb (fun s => (qeqb (s * s)%num s && qleb (qz 0) s)%bool) (norms same f)) (tff t).
Lemma rootb_ok t : rootb t = true -> is_root same t.
Proof.
  intros H f s I J. unfold rootb in H. rewrite forallb_forall in H. specialize (H f I). rewrite forallb_forall in H. specialize (H s J). apply andb_true_iff in H. destruct H as [A B].
  split; [now apply qeqb_eq|now apply qleb_le].
Qed.
Lemma wt_series l : vf_series_ok (wt l).
Proof.
  split; [exact g22_ok|]. split; [|split].
  - intros f I. cbn in I. apply in_map_iff in I. destruct I as (p & <- & _). reflexivity.
  - intros f I. cbn in I. apply in_map_iff in I. destruct I as (p & <- & _). split; [repeat split|]. split; [apply vclean_b_ok; reflexivity|reflexivity].
  - intros f h I J. cbn in I, J. apply in_map_iff in I, J. destruct I as (p & <- & _). destruct J as (q & <- & _). reflexivity.
Qed.
(** two weird frames: one of them is left, and a frame that is not weird is removed *)
Theorem C146_remove_refuted : exists root t coef t' k n, vf_series_ok t /\ is_root root t /\ (0 < coef)%num /\ remove_weird root t coef WRemove = Ok t' /\
  weird root coef t k /\ nth_error (tft t) k = Some (qz (Z.of_nat k)) /\ In (qz (Z.of_nat k)) (tft t') /\
  ~ weird root coef t n /\ nth_error (tft t) n = Some (qz (Z.of_nat n)) /\ ~ In (qz (Z.of_nat n)) (tft t').
Proof.
  pose (t := wt [(0, 0); (1, 0); (0, 0); (1, 0); (0, 0); (0, 0); (0, 0)]%Z).
  destruct (ok_ex (remove_weird same t (qz 1) WRemove) (fun r => oseqb (map Some (tft r)) (map Some (zs [0; 2; 3; 5; 6]%Z)))) as (t' & E & H); [vmr|].
  apply oseqb_eq in H. exists same, t, (qz 1), t', 3, 4. split; [apply wt_series|]. split; [apply rootb_ok; vmr|]. split; [reflexivity|]. split; [exact E|].
  split; [apply weirdb_iff; vmr|]. split; [reflexivity|].
  assert (K : forall x, In x (tft t') <-> In (Some x) (map Some (zs [0; 2; 3; 5; 6]%Z))).
  { intro x. rewrite <- H, in_map_iff. split; [intro I; exists x; split; [reflexivity|exact I]|]. intros (y & Q & I). injection Q as Q. rewrite <- Q. exact I. }
  split; [apply K; right; right; left; reflexivity|]. split; [apply weirdb_not; vmr|]. split; [reflexivity|].
  rewrite K. intro I. cbn in I. repeat (destruct I as [I|I]; [apply (f_equal (fun o => match o with Some v => this v | None => 0%Q end)) in I; vm_compute in I; discriminate|]). contradiction.
Qed.
Print Assumptions C146_remove_refuted.
(** the last frame is weird: the interpolation raises *)
Theorem C146_last_refuted : exists root t coef k, vf_series_ok t /\ is_root root t /\ (0 < coef)%num /\ (forall i, weird root coef t i <-> i = k) /\ S k = length (tff t) /\ remove_weird root t coef WInterpolate = Err IndexErr.
Proof.
  exists same, (wt [(0, 0); (0, 0); (0, 0); (0, 0); (1, 0)]%Z), (qz 1), 4. split; [apply wt_series|]. split; [apply rootb_ok; vmr|]. split; [reflexivity|]. split; [|split; [reflexivity|vmr]].
  intro i. rewrite <- weirdb_iff. do 5 (destruct i as [|i]; [split; [intro H; vm_compute in H; first [discriminate H|reflexivity]|intro H; first [discriminate H|vmr]]|]). split; [|lia].
  intro H. unfold weirdb in H. cbn in H. destruct i; discriminate H.
Qed.
Print Assumptions C146_last_refuted.
(** the first frame is weird: it is replaced by half of the sum of the second frame and of the last one *)
Theorem C146_first_refuted : exists root t coef t' f0 f1 fn, vf_series_ok t /\ is_root root t /\ (0 < coef)%num /\ (forall i, weird root coef t i <-> i = 0) /\
  remove_weird root t coef WInterpolate = Ok t' /\ nth_error (tff t') 0 = Some f0 /\ nth_error (tff t) 1 = Some f1 /\ nth_error (tff t) (length (tff t) - 1) = Some fn /\
  at_ (cx f1) 0 0 = Some (qz 1) /\ at_ (cx fn) 0 0 = Some (qz 0) /\ at_ (cx f0) 0 0 = Some (qq 1 2).
Proof.
  pose (t := wt [(1, 1); (1, 0); (1, 0); (1, 0); (0, 1)]%Z).
  destruct (ok_ex (remove_weird same t (qz 1) WInterpolate) (fun r => match nth_error (tff r) 0 with Some f => oeqb (at_ (cx f) 0 0) (Some (qq 1 2)) | None => false end)) as (t' & E & H); [vmr|].
  destruct (nth_error (tff t') 0) as [f0|] eqn:E0; [|discriminate]. apply oeqb_eq in H. exists same, t, (qz 1), t', f0, (vcorner 1 0), (vcorner 0 1).
  split; [apply wt_series|]. split; [apply rootb_ok; vmr|]. split; [reflexivity|]. split; [|do 5 (split; [first [exact E|exact E0|reflexivity]|]); split; [reflexivity|exact H]].
  intro i. rewrite <- weirdb_iff. do 5 (destruct i as [|i]; [split; [intro X; vm_compute in X; first [discriminate X|reflexivity]|intro X; first [discriminate X|vmr]]|]). split; [|lia].
  intro X. unfold weirdb in X. cbn in X. destruct i; discriminate X.
Qed.
Print Assumptions C146_first_refuted.
(** all the vectors of all the frames have the same norm, and a frame with masked vectors is weird *)
Definition vmasked : vfield := vf_of [0; 1]%Z [10; 20]%Z [[oz 1; None]; [None; None]] [[oz 0; None]; [None; None]] [[false; true]; [true; true]].
Definition vfull : vfield := vf_of [0; 1]%Z [10; 20]%Z [[oz 1; oz 1]; [oz 1; oz 1]] [[oz 0; oz 0]; [oz 0; oz 0]] [[false; false]; [false; false]].
Definition ex_masked : tfield vfield := mktf g22 [vfull; vfull; vmasked; vfull; vfull] true (zs [0; 1; 2; 3; 4]%Z) second.
Theorem C146_masked_refuted : exists root t coef t' k, vf_series_ok t /\ is_root root t /\ (0 < coef)%num /\ (forall f v, In f (tff t) -> In v (norms root f) -> v = qz 1) /\
  remove_weird root t coef WRemove = Ok t' /\ In k (tft t) /\ ~ In k (tft t').
Proof.
  destruct (ok_ex (remove_weird same ex_masked (qz 1) WRemove) (fun r => oseqb (map Some (tft r)) (map Some (zs [0; 1; 3; 4]%Z)))) as (t' & E & H); [vmr|].
  apply oseqb_eq in H. exists same, ex_masked, (qz 1), t', (qz 2). split.
  { split; [exact g22_ok|]. split; [frame_by reflexivity|]. split.
    - frame_by (split; [repeat split|split; [apply vclean_b_ok; reflexivity|reflexivity]]).
    - intros f h I. revert f I h. frame_by each_frame_tac; reflexivity. }
  split; [apply rootb_ok; vmr|]. split; [reflexivity|]. split.
  { assert (A : forallb (fun f => forallb (fun v => qeqb v (qz 1)) (norms same f)) (tff ex_masked) = true) by vmr. intros f v I J. rewrite forallb_forall in A. specialize (A f I). rewrite forallb_forall in A.
    apply qeqb_eq, (A v J). }
  split; [exact E|]. split; [right; right; left; reflexivity|]. intro I. apply (in_map Some) in I. rewrite H in I. cbn in I.
  repeat (destruct I as [I|I]; [apply (f_equal (fun o => match o with Some v => this v | None => 0%Q end)) in I; vm_compute in I; discriminate|]). contradiction.
Qed.
Print Assumptions C146_masked_refuted.
Example C146_example : vf_series_ok (wt [(0, 0); (0, 0); (1, 0); (0, 0); (0, 0)]%Z) /\ weird same (qz 1) (wt [(0, 0); (0, 0); (1, 0); (0, 0); (0, 0)]%Z) 2 /\
  surrounded (weird same (qz 1) (wt [(0, 0); (0, 0); (1, 0); (0, 0); (0, 0)]%Z)) 5 2 1.
Proof.
  split; [apply wt_series|]. split; [apply weirdb_iff; vmr|]. split; [lia|]. split; [lia|]. split; [apply weirdb_not; vmr|]. split; [apply weirdb_not; vmr|]. intros x X. lia.
Qed.

(** ** C147 *)
Theorem C147_linear_partial t :
  length (tft t) = length (tff t) -> increasing (tft t) -> (forall f, In f (tff t) -> vg f = tfg t /\ vf_wf f /\ TemporalSpec.vf_clean f) ->
  (exists i j f, i < length (ax (tfg t)) /\ j < length (ay (tfg t)) /\ In f (tff t) /\ at_ (vmsk f) i j = true /\ 3 <= length (cell_points cx t i j)) ->
  exists t' t0, tvf_fill_time t TLinear = Ok (t', t0) /\ tft t' = tft t /\ tfu t' = tfu t /\ tfg t' = tfg t /\ length (tff t') = length (tff t) /\
    forall k f x, nth_error (tff t) k = Some f -> nth_error (tft t) k = Some x -> exists f', nth_error (tff t') k = Some f' /\ vg f' = vg f /\ vuv f' = vuv f /\ vf_wf f' /\
      forall i j, i < length (ax (tfg t)) -> j < length (ay (tfg t)) -> filled_in_time t x i j f f'.
Proof. exact (fill_time_lemma t). Qed.
Print Assumptions C147_linear_partial.

Definition vhole (a : onum) : vfield := vf_of [0; 1]%Z [10; 20]%Z [[oz 1; a]; [oz 3; oz 4]] [[oz 0; a]; [oz 5; oz 2]] [[false; isnan a]; [false; false]].
Definition ht (l : list onum) : tfield vfield := mktf g22 (map vhole l) true (map (fun k => qz (Z.of_nat k)) (seq 0 (length l))) second.
Lemma ht_series l : vf_series_ok (ht l).
Proof.
  split; [exact g22_ok|]. split; [|split].
  - intros f I. cbn in I. apply in_map_iff in I. destruct I as (p & <- & _). reflexivity.
  - intros f I. cbn in I. apply in_map_iff in I. destruct I as (p & <- & _). split; [repeat split|]. split; [apply vclean_b_ok; destruct p; reflexivity|reflexivity].
  - intros f h I J. cbn in I, J. apply in_map_iff in I, J. destruct I as (p & <- & _). destruct J as (q & <- & _). reflexivity.
Qed.
(** a cell shown in two frames only is not filled, and nothing is to be filled: NameError *)
Theorem C147_few_refuted : exists t i j f x, vf_series_ok t /\ increasing (tft t) /\ In (x, f) (frames t) /\ at_ (vmsk f) i j = true /\ between x (cell_points cx t i j) /\ tvf_fill_time t TLinear = Err UnboundErr.
Proof.
  exists (ht [oz 1; None; oz 3]), 0, 1, (vhole None), (qz 1). split; [apply ht_series|]. split; [incr|]. split; [right; left; reflexivity|]. split; [reflexivity|]. split; [|vmr].
  exists (qz 0, qz 1), (qz 2, qz 3). split; [left; reflexivity|]. split; [right; left; reflexivity|]. cbn. split; discriminate.
Qed.
Print Assumptions C147_few_refuted.
(** nothing is masked: NameError *)
Theorem C147_nothing_refuted : exists t, vf_series_ok t /\ increasing (tft t) /\ (forall f i j, In f (tff t) -> i < 2 -> j < 2 -> at_ (vmsk f) i j = false) /\ tvf_fill_time t TLinear = Err UnboundErr.
Proof.
  exists (ht [oz 1; oz 2; oz 3; oz 4]). split; [apply ht_series|]. split; [incr|]. split; [|vmr].
  intros f i j I Hi Hj. cbn in I. destruct i as [|[|i]]; [..|lia]; destruct j as [|[|j]]; try lia; repeat (destruct I as [<-|I]; [reflexivity|]); contradiction.
Qed.
Print Assumptions C147_nothing_refuted.
(** the series itself is changed although another one is asked for *)
Theorem C147_inplace_refuted : exists t t' t0 i j k f f0, vf_series_ok t /\ increasing (tft t) /\ tvf_fill_time t TLinear = Ok (t', t0) /\ nth_error (tff t) k = Some f /\ nth_error (tff t0) k = Some f0 /\
  at_ (vmsk f) i j = true /\ at_ (vmsk f0) i j = false.
Proof.
  pose (t := ht [oz 1; None; oz 3; oz 4]).
  destruct (ok_ex (tvf_fill_time t TLinear) (fun r => match nth_error (tff (snd r)) 1 with Some f => negb (at_ (vmsk f) 0 1) | None => false end)) as ([t' t0] & E & H); [vmr|].
  cbn [snd] in H. destruct (nth_error (tff t0) 1) as [f0|] eqn:E0; [|discriminate]. exists t, t', t0, 0, 1, 1, (vhole None), f0.
  split; [apply ht_series|]. split; [incr|]. split; [exact E|]. split; [reflexivity|]. split; [exact E0|]. split; [reflexivity|]. now apply negb_true_iff.
Qed.
Print Assumptions C147_inplace_refuted.
(** a series of scalar fields is never filled in time *)
Theorem C147_scalar_refuted : forall t k, exists e, tsf_fill_time t k = Err e.
Proof. intros t k. unfold tsf_fill_time, guard. destruct (Nat.ltb (length (tff t)) 3); [eauto|]. destruct (to_fill sf_ops t); eauto. Qed.
Print Assumptions C147_scalar_refuted.
Example C147_example : let t := ht [oz 1; None; oz 3; oz 4] in length (tft t) = length (tff t) /\ increasing (tft t) /\ (forall f, In f (tff t) -> vg f = tfg t /\ vf_wf f /\ TemporalSpec.vf_clean f) /\
  length (cell_points cx t 0 1) = 3 /\ between (qz 1) (cell_points cx t 0 1).
Proof.
  cbv zeta. split; [reflexivity|]. split; [incr|]. split.
  - destruct (ht_series [oz 1; None; oz 3; oz 4]) as (_ & G & W & _). intros f I. split; [exact (G f I)|]. destruct (W f I) as (A & B & _). now split.
  - split; [reflexivity|]. exists (qz 0, qz 1), (qz 2, qz 3). split; [left; reflexivity|]. split; [right; left; reflexivity|]. cbn. split; discriminate.
Qed.

(** ** C148 *)
Theorem C148_injected t i j p u :
  tf_ok t -> i < length (ax (tfg t)) -> j < length (ay (tfg t)) -> (forall f, In f (tff t) -> sg f = tfg t /\ sf_wf f) -> prof_ok p -> length (px p) = length (tff t) ->
  exists t', inject_sf t i j p = Ok t' /\ tft t' = tft t /\ tfu t' = tfu t /\ tfg t' = tfg t /\ length (tff t') = length (tff t) /\
    (forall k f v, nth_error (tff t) k = Some f -> nth_error (yv p) k = Some v -> exists f', nth_error (tff t') k = Some f' /\ sg f' = sg f /\ uv f' = uv f /\ sf_wf f' /\
       (at_ (msk f) i j = false -> at_ (values f') i j = v) /\ (at_ (msk f) i j = true -> at_ (values f') i j = None) /\
       (forall a b, at_ (msk f') a b = at_ (msk f) a b /\ ((a, b) <> (i, j) -> at_ (values f') a b = at_ (values f) a b))) /\
    ((forall f, In f (tff t) -> at_ (msk f) i j = false) -> exists q, cell_profile sf_ops values u t' i j = Ok q /\ px q = tft t /\ yv q = yv p).
Proof. exact (inject_lemma t i j p u). Qed.
Print Assumptions C148_injected.

Example C148_example : let p := mkprof (zs [0; 1; 3; 4]%Z) [oz 9; oz 8; oz 7; oz 6] [false; false; false; false] second metre in
  tf_ok ex_t /\ (forall f, In f (tff ex_t) -> sg f = tfg ex_t /\ sf_wf f) /\ prof_ok p /\ length (px p) = length (tff ex_t) /\ (forall f, In f (tff ex_t) -> at_ (msk f) 1 0 = false).
Proof.
  cbv zeta. split; [exact ex_t_ok|]. split; [frame_by (split; [reflexivity|repeat split])|]. split; [repeat split; apply increasing_nondecreasing; incr|]. split; [reflexivity|]. frame_by reflexivity.
Qed.
