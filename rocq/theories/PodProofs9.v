(** * PodProofs9: a decomposition restricted to some modes *)
From Coq Require Import Sorted Permutation Lia.
From Verif Require Import Num Res ListLib SortLib Arr FieldModel ScalarFieldModel VectorFieldModel ProfileModel FieldSpec SeqSpec
  ProfileSpec ProfileProofs ProfileProofs2 PointsModel PointsSpec FieldProofs2 TemporalModel TemporalSpec TemporalProofs2 GradModel
  PodModel PodSpec PodProofs PodProofs2 PodProofs3 PodProofs4 PodProofs5 PodProofs6.

Lemma forall2_mapM {A B} (f : A -> res B) l r : Forall2 (fun a b => f a = Ok b) l r -> mapM f l = Ok r.
Proof. induction 1 as [|a b l r H _ IH]; [reflexivity|]. cbn [mapM]. rewrite H. cbn [bind]. rewrite IH. reflexivity. Qed.
Lemma seq_nth_error a n k : k < n -> nth_error (seq a n) k = Some (a + k).
Proof. intro H. rewrite (nth_error_nth' _ 0) by (rewrite seq_length; lia). f_equal. apply seq_nth. lia. Qed.
Lemma sub_mapM {B} (f g : nat -> res B) N evo ps : mapM f (seq 0 N) = Ok evo -> (forall k, In k ps -> k < N) ->
  (forall n k, nth_error ps n = Some k -> g n = f k) -> exists evo', mapM g (seq 0 (length ps)) = Ok evo' /\ taken ps evo evo'.
Proof.
  intros E B1 G. apply mapM_forall2 in E.
  assert (K : forall k, k < N -> exists b, nth_error evo k = Some b /\ f k = Ok b).
  { intros k Hk. destruct (forall2_nth_l _ _ _ E k k) as (b & Hb & Hf); [|eauto]. rewrite seq_nth_error by exact Hk. reflexivity. }
  assert (Q : forall a l, (forall n k, nth_error l n = Some k -> g (a + n) = f k) -> (forall k, In k l -> k < N) ->
    exists evo', mapM g (seq a (length l)) = Ok evo' /\ taken l evo evo').
  { intros a l. revert a. induction l as [|k l IH]; intros a Gl Bl; [exists []; split; [reflexivity|constructor]|].
    destruct (IH (S a)) as (r & Er & Tr). { intros n j Hn. rewrite <- (Gl (S n) j Hn). f_equal. lia. } { intros j Hj. apply Bl. now right. }
    destruct (K k (Bl k (or_introl eq_refl))) as (b & Hb & Hf). exists (b :: r). split; [|constructor; auto].
    cbn [length seq mapM]. pose proof (Gl 0 k eq_refl) as G0. rewrite Nat.add_0_r in G0. rewrite G0, Hf. cbn [bind]. rewrite Er. reflexivity. }
  now apply (Q 0).
Qed.
Lemma sub_mapM_direct {B} (f : nat -> res B) N evo ps : mapM f (seq 0 N) = Ok evo -> (forall k, In k ps -> k < N) -> exists evo', mapM f ps = Ok evo' /\ taken ps evo evo'.
Proof.
  intros E B1. destruct (sub_mapM f (fun n => f (nth n ps 0)) N evo ps E B1) as (r & Er & T). { intros n k Hn. f_equal. now apply nth_error_nth. }
  exists r. split; [|exact T]. rewrite <- Er. clear. assert (G : forall (l : list nat) d, mapM f l = mapM (fun n => f (nth (n - d) l 0)) (seq d (length l))).
  { induction l as [|k l IH]; intro d; [reflexivity|]. cbn [length seq mapM]. rewrite Nat.sub_diag. cbn [nth]. rewrite (IH (S d)). f_equal. f_equal.
    assert (X : mapM (fun n => f (nth (n - S d) l 0)) (seq (S d) (length l)) = mapM (fun n => f (nth (n - d) (k :: l) 0)) (seq (S d) (length l))); [|rewrite X; reflexivity].
    apply mapM_ext_in. intros n Hn. apply in_seq in Hn. replace (n - d) with (S (n - S d)) by lia. reflexivity. }
  rewrite (G ps 0). apply mapM_ext_in. intros n _. now rewrite Nat.sub_0_r.
Qed.
Lemma filter_of_nat N ps : filter (fun i => (i <? Z.of_nat N)%Z) (map Z.of_nat ps) = map Z.of_nat (filter (fun k => Nat.ltb k N) ps).
Proof.
  induction ps as [|k ps IH]; [reflexivity|]. cbn [map filter]. rewrite IH. destruct (Z.ltb_spec (Z.of_nat k) (Z.of_nat N)), (Nat.ltb_spec k N); try lia; reflexivity.
Qed.
Lemma up_filter f ps : going_up ps -> going_up (filter f ps).
Proof.
  induction 1 as [|k l H IH F]; [constructor|]. cbn [filter]. destruct (f k); [|exact IH]. constructor; [exact IH|]. apply Forall_forall. intros x Hx. apply filter_In in Hx. destruct Hx as (Hx & _). rewrite Forall_forall in F. now apply F.
Qed.
Lemma up_incr ps : going_up ps -> increasing (map qz (map Z.of_nat ps)).
Proof.
  induction 1 as [|k l H IH F]; [intros i j Hi Hj; cbn in Hj; lia|]. cbn [map]. apply increasing_cons. split; [exact IH|]. intros z Iz. apply in_map_iff in Iz. destruct Iz as (a & <- & Ia). apply in_map_iff in Ia. destruct Ia as (b & <- & Ib).
  apply qz_lt. rewrite Forall_forall in F. specialize (F b Ib). lia.
Qed.
Lemma designate_nats N ps : (forall k, In k ps -> k < N) -> Forall2 (designates N) (map Z.of_nat ps) ps.
Proof. induction ps as [|k ps IH]; intro H; [constructor|]. cbn [map]. constructor; [split; [apply H; now left|now left]|]. apply IH. intros; apply H; now right. Qed.

Lemma modal_subset {F} (M : mops F) asort nearest linear cubic (solve : solver) root (t : tfield F) w places mf :
  (forall snaps, length (s_vals (solve snaps)) <= length (tff t) /\ forall r, In r (s_vects (solve snaps)) -> length r = length (s_vals (solve snaps))) ->
  modal_pod M asort nearest linear cubic solve root t WAll = Ok mf ->
  match w with WAll => places = seq 0 (length (tff t)) | WInt n => places = seq 0 (Z.to_nat n) | WArr l => l = map Z.of_nat places end ->
  going_up places -> (forall k, In k places -> k <= length (tff t)) -> (exists k, In k places /\ k < length (mf_modes mf)) ->
  exists mf' ev ev', modal_pod M asort nearest linear cubic solve root t w = Ok mf' /\
    mf_mean mf' = mf_mean mf /\ mf_times mf' = mf_times mf /\ mf_g mf' = mf_g mf /\
    (let kept := filter (fun k => Nat.ltb k (length (mf_modes mf))) places in
     taken kept (mf_modes mf) (mf_modes mf') /\ mf_nmb mf' = map Z.of_nat kept /\ taken kept (mf_evo mf) (mf_evo mf') /\
     mf_eigvals mf = Some ev /\ mf_eigvals mf' = Some ev' /\ taken kept (px ev) (px ev') /\ taken kept (yv ev) (yv ev')).
Proof.
  intros SH E HW UP BD (k0 & Ik0 & Lk0).
  assert (DW : dwanted t w = Ok (map Z.of_nat places)).
  { destruct w as [|n|l]; cbn [dwanted].
    - subst places. unfold arange0. rewrite Nat2Z.id. reflexivity.
    - subst places. reflexivity.
    - subst l. destruct places as [|a ps]; [destruct Ik0|]. cbn [map].
      assert (existsb (fun i => (i <? 0)%Z) (Z.of_nat a :: map Z.of_nat ps) = false) as ->.
      { apply not_true_iff_false. intro H. apply existsb_exists in H. destruct H as (x & Ix & Hx). apply Z.ltb_lt in Hx. change (In x (map Z.of_nat (a :: ps))) in Ix. apply in_map_iff in Ix. destruct Ix as (y & <- & _). lia. }
      assert ((Z.of_nat (length (tff t)) <? zmax (Z.of_nat a :: map Z.of_nat ps))%Z = false) as ->; [|reflexivity].
      apply Z.ltb_ge. apply zmax_le; [discriminate|]. intros i Ii. change (In i (map Z.of_nat (a :: ps))) in Ii. apply in_map_iff in Ii. destruct Ii as (y & <- & Iy). specialize (BD y Iy). lia. }
  unfold modal_pod in E |- *. rewrite DW. cbn [dwanted bind] in E |- *.
  destruct (tf_crop_border (m_ops M) t) as [t1|] eqn:E1; [|discriminate E]. cbn [bind] in E |- *.
  destruct (tf_fill_in M nearest linear cubic t1) as [t2|] eqn:E2; [|discriminate E]. cbn [bind] in E |- *.
  destruct (tf_mean (m_ops M) t2 1) as [mean|] eqn:E3; [|discriminate E]. cbn [bind] in E |- *.
  destruct (tf_fluct (m_ops M) asort t2 1) as [fl|] eqn:E4; [|discriminate E]. cbn [bind] in E |- *.
  destruct (py_get (tff fl) 0) as [d|] eqn:Ed; [|discriminate E]. cbn [bind] in E |- *.
  set (sol := solve (map (m_comps M) (tff fl))) in *. destruct (SH (map (m_comps M) (tff fl))) as (LN & LR). fold sol in LN, LR.
  set (N := length (s_vals sol)) in *. rewrite (filter_arange N _ LN) in E. rewrite filter_of_nat.
  set (ps := filter (fun k => Nat.ltb k N) places).
  assert (PB : forall k, In k ps -> k < N) by (intros k Ik; apply filter_In in Ik; destruct Ik as (_ & H); now apply Nat.ltb_lt).
  assert (UPP : going_up ps) by now apply up_filter.
  assert (EV1 : mapM (fun row => mapM (py_get row) (arange0 (Z.of_nat N))) (s_vects sol) = Ok (s_vects sol)).
  { rewrite (mapM_ext_in _ (fun row => Ok row)); [rewrite mapM_ok, map_id; reflexivity|]. intros row Ir. rewrite get_first by (rewrite (LR row Ir); lia). f_equal. apply firstn_all2. rewrite (LR row Ir). lia. }
  rewrite EV1 in E. cbn [bind] in E. rewrite get_first in E by lia. rewrite (firstn_all2 (s_vals sol)) in E by (fold N; lia). cbn [bind] in E.
  assert (LA : length (map qz (arange0 (Z.of_nat N))) = N) by (unfold arange0; now rewrite !map_length, seq_length, Nat2Z.id).
  destruct (prof_new_plain (map qz (arange0 (Z.of_nat N))) (s_vals sol) (tfu fl) one_unit (nondec_qz N)) as (ev & Eev & Oev & Xev & Yev & _); [fold N; congruence|].
  rewrite Eev in E. cbn [bind] in E. assert (Lar : length (arange0 (Z.of_nat N)) = N) by (now rewrite map_length in LA). rewrite Lar in E.
  (* the restricted one *)
  destruct (mapM_forall2_ex (fun row => mapM (py_get row) (map Z.of_nat ps)) (fun row r => mapM (py_get row) (map Z.of_nat ps) = Ok r /\ taken ps row r) (s_vects sol)) as (vects' & Ev' & Fv').
  { intros row Ir. destruct (py_get_all row (map Z.of_nat ps) ps) as (r & Er & Tr). { rewrite (LR row Ir). now apply designate_nats. } eauto. }
  rewrite Ev'. cbn [bind]. destruct (py_get_all (s_vals sol) (map Z.of_nat ps) ps (designate_nats N ps PB)) as (vals' & Evals & Tvals). rewrite Evals. cbn [bind].
  pose proof (taken_length _ _ _ Tvals) as Lvals.
  destruct (prof_new_plain (map qz (map Z.of_nat ps)) vals' (tfu fl) one_unit (increasing_nondecreasing _ (up_incr ps UPP))) as (ev' & Eev' & Oev' & Xev' & Yev' & _); [rewrite !map_length; congruence|].
  rewrite Eev'. cbn [bind]. rewrite map_length.
  set (ef := fun n => let* col := mapM (fun row => py_get row (Z.of_nat n)) (s_vects sol) in let* e := py_get (yv ev) (Z.of_nat n) in
     prof_new (tft fl) (map (fun v => option_map (fun e => v * root e)%num e) col) None (tfu fl) (m_unit M d)) in E.
  destruct (mapM ef (seq 0 N)) as [evo|] eqn:Eevo; [|discriminate E]. cbn [bind] in E.
  set (ef' := fun n => let* col := mapM (fun row => py_get row (Z.of_nat n)) vects' in let* e := py_get (yv ev') (Z.of_nat n) in
     prof_new (tft fl) (map (fun v => option_map (fun e => v * root e)%num e) col) None (tfu fl) (m_unit M d)).
  destruct (sub_mapM ef ef' N evo ps Eevo PB) as (evo' & Eevo' & Tevo).
  { intros n k Hn. assert (Hnl : n < length ps) by (apply nth_error_Some; congruence). assert (HkN : k < N) by (apply PB; eapply nth_error_In; eauto). unfold ef, ef'.
    assert (GN : forall {A} (l : list A) i a, nth_error l i = Some a -> py_get l (Z.of_nat i) = Ok a).
    { intros A l i a H. destruct (py_get_ok l (Z.of_nat i) i) as (b & Hb & Gb); [split; [apply nth_error_Some; congruence|now left]|]. congruence. }
    assert (mapM (fun row => py_get row (Z.of_nat n)) vects' = mapM (fun row => py_get row (Z.of_nat k)) (s_vects sol)) as ->.
    { clear -Fv' Hn GN LR HkN. revert LR. induction Fv' as [|row r a b (_ & T) _ IH]; intro LR; [reflexivity|]. cbn [mapM].
      destruct (nth_error_ex row k) as (x & Hx). { rewrite (LR row (or_introl eq_refl)). exact HkN. }
      destruct (nth_error_ex r n) as (y & Hy). { rewrite (taken_length _ _ _ T). apply nth_error_Some. congruence. }
      pose proof (taken_nth _ _ _ n y k T Hn Hy) as Hxy. rewrite (GN _ r n y Hy), (GN _ row k y Hxy). rewrite IH; [reflexivity|]. intros; apply LR; now right. }
    assert (py_get (yv ev') (Z.of_nat n) = py_get (yv ev) (Z.of_nat k)) as ->; [|reflexivity].
    rewrite Yev, Yev'. destruct (nth_error_ex vals' n) as (y & Hy); [lia|]. pose proof (taken_nth _ _ _ n y k Tvals Hn Hy) as Hk.
    rewrite (GN _ _ n (Some y)), (GN _ _ k (Some y)); [reflexivity|..]; rewrite nth_error_map; [now rewrite Hk|now rewrite Hy]. }
  rewrite Eevo'. cbn [bind].
  set (im := fun n => m_import M (tfg fl) (s_mode sol n) (tf_mask_cum (m_ops M) fl) (m_unit M d)).
  assert (IM : forall l, mapM (fun cs => m_import M (tfg fl) cs (tf_mask_cum (m_ops M) fl) (m_unit M d)) (map (fun i => s_mode sol (Z.to_nat i)) (map Z.of_nat l)) = mapM im l).
  { induction l as [|n l IH]; [reflexivity|]. cbn [map mapM]. rewrite IH, Nat2Z.id. reflexivity. }
  rewrite IM. unfold arange0 in E. rewrite Nat2Z.id, IM in E.
  destruct (mapM im (seq 0 N)) as [fm|] eqn:Efm; [|discriminate E]. cbn [bind] in E.
  destruct (sub_mapM_direct im N fm ps Efm PB) as (fm' & Efm' & Tfm). rewrite Efm'. cbn [bind].
  assert (Lfm : length fm = N) by (apply mapM_forall2 in Efm; rewrite <- (Forall2_len _ _ _ Efm), seq_length; reflexivity).
  assert (Levo : length evo = N) by (apply mapM_forall2 in Eevo; rewrite <- (Forall2_len _ _ _ Eevo), seq_length; reflexivity).
  unfold mf_new in E |- *. destruct fm as [|f0 fr]; [discriminate E|]. destruct evo as [|p0 er]; [discriminate E|].
  cbn [option_map len_is] in E |- *.
  destruct (negb (Nat.eqb (length (map Z.of_nat (seq 0 N))) (length (f0 :: fr)))); [discriminate E|]. cbn [guard] in E.
  destruct (negb (Nat.eqb (length (p0 :: er)) (length (f0 :: fr)))); [discriminate E|]. cbn [guard] in E.
  destruct (negb (Nat.eqb (length (px ev)) (length (f0 :: fr)))); [discriminate E|]. cbn [guard] in E.
  destruct (negb (Nat.eqb (length (s_vects sol)) (length (px p0)) && forallb (fun r => Nat.eqb (length r) (length (f0 :: fr))) (s_vects sol))) eqn:EV; [discriminate E|]. cbn [guard andb negb] in E.
  injection E as <-. cbn [mf_modes] in Lk0. rewrite Lfm in Lk0.
  assert (NP : ps <> []). { intro Z. assert (In k0 ps) by (apply filter_In; split; [exact Ik0|now apply Nat.ltb_lt]). rewrite Z in H. destruct H. }
  pose proof (taken_length _ _ _ Tfm) as Lf'. pose proof (taken_length _ _ _ Tevo) as Le'.
  destruct fm' as [|f0' fr']; [exfalso; apply NP; apply length_zero_iff_nil; symmetry; exact Lf'|]. destruct evo' as [|p0' er']; [exfalso; apply NP; apply length_zero_iff_nil; symmetry; exact Le'|].
  assert (PX : px p0' = px p0 /\ pux p0' = pux p0).
  { assert (PN : forall col u w p, prof_new (tft fl) col None u w = Ok p -> px p = gather (qz 0) (argsort (tft fl)) (tft fl) /\ pux p = u).
    { intros col u w0 p H. unfold prof_new in H. destruct (negb (Nat.eqb (length (tft fl)) (length col))); [discriminate H|]. cbn [guard] in H. destruct (Nat.ltb _ _); [discriminate H|]. cbn [guard] in H. injection H as <-. auto. }
    assert (PE : forall n p, ef n = Ok p -> px p = gather (qz 0) (argsort (tft fl)) (tft fl) /\ pux p = tfu fl).
    { intros n p H. unfold ef in H. destruct (mapM (fun row => py_get row (Z.of_nat n)) (s_vects sol)); [|discriminate H]. cbn [bind] in H. destruct (py_get (yv ev) (Z.of_nat n)); [|discriminate H]. cbn [bind] in H. eapply PN; eauto. }
    apply mapM_forall2 in Eevo. destruct (forall2_nth _ _ _ Eevo 0 p0 eq_refl) as (n0 & _ & Hn0).
    assert (P0' : exists n, ef n = Ok p0').
    { assert (I0 : In p0' (p0 :: er)) by (eapply taken_incl; [exact Tevo|now left]). apply In_nth_error in I0. destruct I0 as (q & Hq). destruct (forall2_nth _ _ _ Eevo q p0' Hq) as (n & _ & Hn). eauto. }
    destruct P0' as (n1 & Hn1). destruct (PE _ _ Hn0) as (A1 & A2). destruct (PE _ _ Hn1) as (B1 & B2).
split; congruence. }
  destruct PX as (PX & PU). rewrite map_length, Lf', Le', Nat.eqb_refl. cbn [negb guard]. rewrite Xev', !map_length, Nat.eqb_refl. cbn [negb guard].
  assert (negb (Nat.eqb (length vects') (length (px p0')) && forallb (fun r => Nat.eqb (length r) (length ps)) vects') = false) as ->.
  { apply negb_false_iff in EV. apply andb_true_iff in EV. destruct EV as (EV & _). apply negb_false_iff, andb_true_iff. split.
    - rewrite PX, <- (Forall2_len _ _ _ Fv'). exact EV.
    - apply forallb_forall. intros r Ir. apply In_nth_error in Ir. destruct Ir as (q & Hq). destruct (forall2_nth _ _ _ Fv' q r Hq) as (row & _ & _ & T). apply Nat.eqb_eq. exact (taken_length _ _ _ T). }
  cbn [guard andb negb]. eexists; exists ev, ev'. split; [reflexivity|]. cbn [mf_mean mf_times mf_g mf_modes mf_nmb mf_evo mf_eigvals]. rewrite Lfm. fold ps.
  split; [reflexivity|]. split; [exact PX|]. split; [reflexivity|]. split; [exact Tfm|]. split; [reflexivity|]. split; [exact Tevo|]. split; [reflexivity|]. split; [reflexivity|].
  rewrite Xev, Xev', Yev, Yev'. split; [|now apply taken_map]. apply taken_map. unfold arange0. rewrite Nat2Z.id. apply taken_map. clear -PB. induction ps as [|k l IH]; [constructor|]. constructor; [apply seq_nth_error; apply PB; now left|]. apply IH. intros; apply PB; now right.
Qed.
Lemma modal_nothing {F} (M : mops F) asort nearest linear cubic (solve : solver) root (t : tfield F) :
  (forall snaps, s_vals (solve snaps) = []) -> exists e, modal_pod M asort nearest linear cubic solve root t WAll = Err e.
Proof.
  intro SH. assert (Z : filter (fun i => (i <? Z.of_nat 0)%Z) (arange0 (Z.of_nat (length (tff t)))) = []).
  { unfold arange0. induction (seq 0 (Z.to_nat (Z.of_nat (length (tff t))))) as [|k r IH]; [reflexivity|]. cbn [map filter]. destruct (Z.ltb_spec (Z.of_nat k) (Z.of_nat 0)); [lia|exact IH]. }
  unfold modal_pod. cbn [dwanted bind].
  destruct (tf_crop_border (m_ops M) t) as [t1|]; [cbn [bind]|eexists; reflexivity].
  destruct (tf_fill_in M nearest linear cubic t1) as [t2|]; [cbn [bind]|eexists; reflexivity].
  destruct (tf_mean (m_ops M) t2 1) as [mean|]; [cbn [bind]|eexists; reflexivity].
  destruct (tf_fluct (m_ops M) asort t2 1) as [fl|]; [cbn [bind]|eexists; reflexivity].
  destruct (py_get (tff fl) 0) as [d|]; [cbn [bind]|eexists; reflexivity].
  rewrite SH. cbn [length]. rewrite Z. cbn [map length seq mapM].
  destruct (mapM (fun row : list num => Ok []) (s_vects (solve (map (m_comps M) (tff fl))))) as [vs|]; [cbn [bind]|eexists; reflexivity].
  destruct (prof_new [] [] None (tfu fl) one_unit); [cbn [bind]|eexists; reflexivity]. eexists; reflexivity.
Qed.
