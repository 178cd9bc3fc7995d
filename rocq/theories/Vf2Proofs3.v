(** * Vf2Proofs3: equality of scalar fields, and cropping of the masked borders of vector fields. *)
From Coq Require Import Lia.
From Verif Require Import Num Res ListLib Arr FieldModel ScalarFieldModel VectorFieldModel PointsModel TemporalModel AsciiModel SpatialModel FieldSpec FieldProofs FieldProofs2 ScalarProofs FieldProofs3
  TurbProofs GradSpec GradProofs GradProofs2 SpatialSpec Vf2Model Vf2Spec Vf2Proofs Vf2Proofs2.
From Verif Require CritProofs6.

(** ** equality of scalar fields *)
Lemma nearly_close a b : nearly a b = true <-> close_to a b.
Proof. unfold nearly, close_to. apply qleb_le. Qed.
Lemma allclose_axes l k : length l = length k -> exists b, allclose nearly l k = Ok b /\ (b = true <-> Forall2 close_to l k).
Proof.
  intro E. unfold allclose. rewrite bcast_same by exact E. cbn [bind]. eexists. split; [reflexivity|].
  revert k E. induction l as [|a l IH]; intros [|b k] E; try discriminate; cbn; [split; auto|].
  rewrite andb_true_iff, nearly_close, IH by (cbn in E; lia). split; [intros [? ?]; auto|inversion 1; auto].
Qed.
Lemma allclose_cells (u v : nat * nat -> onum) l : exists b, allclose onearly (map u l) (map v l) = Ok b /\
  (b = true <-> forall c, In c l -> exists p q, u c = Some p /\ v c = Some q /\ close_to p q).
Proof.
  unfold allclose. rewrite bcast_same by (now rewrite !map_length). cbn [bind]. eexists. split; [reflexivity|].
  induction l as [|c l IH]; cbn; [split; [intros _ c []|reflexivity]|]. rewrite andb_true_iff, IH. split.
  - intros [A B] d [<-|H]; [|auto]. destruct (u c) as [p|], (v c) as [q|]; cbn in A; try discriminate. exists p, q. rewrite <- nearly_close. auto.
  - intro H. split; [|auto]. destruct (H c (or_introl eq_refl)) as (p & q & -> & -> & C). cbn. now apply nearly_close.
Qed.
Lemma sf_eq_lemma f h : length (ax (sg f)) = length (ax (sg h)) -> length (ay (sg f)) = length (ay (sg h)) ->
  exists b, sf_eq f h = Ok b /\ (b = true <-> sf_near f h).
Proof.
  intros EX EY. unfold sf_eq. destruct (allclose_axes _ _ EX) as (bx & -> & BX). cbn [bind].
  destruct bx; cbn [negb]; [|eexists; split; [reflexivity|]; split; [discriminate|]; intros (H & _); apply BX in H; discriminate].
  destruct (allclose_axes _ _ EY) as (by_ & -> & BY). cbn [bind].
  destruct by_; cbn [negb]; [|eexists; split; [reflexivity|]; split; [discriminate|]; intros (_ & H & _); apply BY in H; discriminate].
  rewrite EX, EY, !Nat.eqb_refl. cbn [andb negb guard].
  destruct (forallb _ (aidx (length (ax (sg h))) (length (ay (sg h))))) eqn:M; cbn [negb].
  2:{ eexists. split; [reflexivity|]. split; [discriminate|]. intros (_ & _ & _ & _ & _ & H). exfalso. apply not_true_iff_false in M. apply M.
      apply forallb_forall. intros [i j] I. apply in_aidx in I. cbn [fst snd]. destruct (H i j) as [-> _]; [unfold cell_in; lia|]. apply Bool.eqb_reflx. }
  assert (MS : forall i j, cell_in f i j -> at_ (msk f) i j = at_ (msk h) i j).
  { intros i j [Hi Hj]. rewrite forallb_forall in M. apply Bool.eqb_prop. apply (M (i, j)). apply in_aidx. lia. }
  assert (SV : shown_values h = map (fun p => at_ (values h) (fst p) (snd p)) (filter (fun p => negb (at_ (msk f) (fst p) (snd p))) (aidx (length (ax (sg f))) (length (ay (sg f)))))).
  { unfold shown_values. f_equal. rewrite EX, EY. apply filter_ext_in. intros [i j] I. apply in_aidx in I. cbn [fst snd]. rewrite MS; [reflexivity|unfold cell_in; lia]. }
  rewrite SV. unfold shown_values at 1.
  destruct (allclose_cells (fun p => at_ (values f) (fst p) (snd p)) (fun p => at_ (values h) (fst p) (snd p)) (filter (fun p => negb (at_ (msk f) (fst p) (snd p))) (aidx (length (ax (sg f))) (length (ay (sg f)))))) as (bv & -> & BV).
  cbn [bind].
  assert (BV' : bv = true <-> forall i j, cell_in f i j -> at_ (msk f) i j = false -> exists v w, at_ (values f) i j = Some v /\ at_ (values h) i j = Some w /\ close_to v w).
  { rewrite BV. split.
    - intros H i j [Hi Hj] Q. apply (H (i, j)). apply filter_In. split; [apply in_aidx; auto|cbn; now rewrite Q].
    - intros H [i j] I. apply filter_In in I. destruct I as [I Q]. apply in_aidx in I. cbn [fst snd] in *. apply H; [exact I|now apply negb_true_iff]. }
  destruct bv; cbn [negb].
  - eexists. split; [reflexivity|]. rewrite !andb_true_iff. split.
    + intros [[U1 U2] U3]. apply unit_eqb_eq in U1, U2, U3. split; [now apply BX|]. split; [now apply BY|]. repeat (split; [assumption|]).
      intros i j C. split; [auto|]. apply (proj1 BV' eq_refl). exact C.
    + intros (_ & _ & -> & -> & -> & _). rewrite !CritProofs6.unit_eqb_refl. auto.
  - eexists. split; [reflexivity|]. split; [discriminate|]. intros (_ & _ & _ & _ & _ & H). apply BV'. intros i j C. apply H. exact C.
Qed.
Lemma close_refl a : close_to a a.
Proof. unfold close_to. replace (a - a)%num with 0%num by qring. rewrite qabs_0. pose proof (qabs_nonneg a). assert (0 <= qq 1 100000 * qabs a)%num by (apply qmul_nonneg; [discriminate|assumption]). assert (0 <= qq 1 100000000)%num by discriminate. qlra. Qed.
Lemma sf_eq_reflexive f : sf_wf f -> sf_clean f -> sf_eq f f = Ok true.
Proof.
  intros W C. destruct (sf_eq_lemma f f eq_refl eq_refl) as (b & -> & B). f_equal. apply B.
  assert (F : forall l, Forall2 close_to l l) by (induction l; constructor; auto using close_refl).
  do 5 (split; [auto|]). intros i j [Hi Hj]. split; [reflexivity|]. intro M.
  destruct (C (nths (ax (sg f)) i) (nths (ay (sg f)) j) (at_ (values f) i j) (at_ (msk f) i j)) as [C1 _].
  { exists i, j. split; [now apply nths_nth_error|]. split; [now apply nths_nth_error|auto]. }
  rewrite M in C1. destruct (at_ (values f) i j) as [v|]; [|specialize (C1 eq_refl); discriminate]. exists v, v. auto using close_refl.
Qed.
(** axes of different lengths *)
Lemma sf_eq_sizes f h : length (ax (sg f)) <> length (ax (sg h)) -> 2 <= length (ax (sg f)) -> 2 <= length (ax (sg h)) -> sf_eq f h = Err ValueErr.
Proof.
  intros N L1 L2. unfold sf_eq, allclose, bcast. apply Nat.eqb_neq in N. rewrite N.
  destruct (ax (sg f)) as [|a [|b l]], (ax (sg h)) as [|c [|d k]]; cbn in L1, L2; try lia. reflexivity.
Qed.

(** ** cropping *)
Lemma vpart_refl f : vf_part f f.
Proof. exists 0, 0. repeat split. Qed.
Lemma vpart_trans f g h : vf_part f g -> vf_part g h -> vf_part f h.
Proof.
  intros (x0 & y0 & A & B & C) (x1 & y1 & A' & B' & C').
  assert (LX : forall i, i < length (ax (vg h)) -> x1 + i < length (ax (vg g))).
  { intros i Hi. apply nth_error_Some. rewrite <- A' by exact Hi. now apply nth_error_Some. }
  assert (LY : forall i, i < length (ay (vg h)) -> y1 + i < length (ay (vg g))).
  { intros i Hi. apply nth_error_Some. rewrite <- B' by exact Hi. now apply nth_error_Some. }
  exists (x0 + x1), (y0 + y1). split; [|split].
  - intros i Hi. rewrite A', A by auto. f_equal. lia.
  - intros i Hi. rewrite B', B by auto. f_equal. lia.
  - intros i j Hi Hj. destruct (C' i j Hi Hj) as (-> & -> & ->). destruct (C (x1 + i) (y1 + j)) as (-> & -> & ->); auto. rewrite !Nat.add_assoc. auto.
Qed.
Lemma vf_crop_ind_part f ivx ivy f' : vf_crop_ind f ivx ivy = Ok f' -> vf_wf f -> vf_part f f' /\ vf_wf f' /\ vuv f' = vuv f /\ ux (vg f') = ux (vg f) /\ uy (vg f') = uy (vg f).
Proof.
  intros H ([R0 R1] & [S0 S1] & [M0 M1]). unfold vf_crop_ind, grid_crop_ind in H.
  destruct (crop_window_ind (ax (vg f)) ivx) as [[x0 x1]|] eqn:Ex; [|discriminate].
  destruct (crop_window_ind (ay (vg f)) ivy) as [[y0 y1]|] eqn:Ey; [|discriminate].
  cbn [bind] in H. injection H as <-. unfold vf_crop_to, grid_crop_to. split; [|split; [|auto]].
  - exists x0, y0. cbn [vg ax ay]. rewrite !slice_length. repeat split.
    + intros i Hi. apply nth_error_slice. lia.
    + intros i Hi. apply nth_error_slice. lia.
  - unfold vf_wf, has_shape. cbn [vg ax ay cx cy vmsk aslice d0 d1]. rewrite !slice_length, R0, R1, S0, S1, M0, M1. auto 10.
Qed.

(** the mask and the grid decide: the vector field follows the scalar field of its first component *)
Definition follows (f : vfield) (s : sfield) : Prop := vg f = sg s /\ vmsk f = msk s.
Definition ok_follows (r : res vfield) (q : res sfield) : Prop :=
  match r, q with Ok f, Ok s => follows f s | Err e, Err e' => e = e' | _, _ => False end.
Lemma follow_crop f s ivx ivy : follows f s -> ok_follows (vf_crop_ind f ivx ivy) (sf_crop_ind s ivx ivy).
Proof.
  intros [G M]. unfold vf_crop_ind, sf_crop_ind. rewrite G. destruct (grid_crop_ind (sg s) ivx ivy) as [[[[x0 x1] [y0 y1]] g]|e]; cbn; [|reflexivity].
  split; cbn; [reflexivity|now rewrite M].
Qed.
Lemma follow_soft f s : follows f s -> ok_follows (vf_soft f) (soft_crop s).
Proof.
  intros F. pose proof F as [G M]. unfold vf_soft, soft_crop, row_ok, col_ok. cbn [vproj msk]. rewrite M.
  destruct (first_ok _ (d0 (msk s))); [|reflexivity]. destruct (last_ok _ (d0 (msk s))); [|reflexivity].
  destruct (first_ok _ (d1 (msk s))); [|reflexivity]. destruct (last_ok _ (d1 (msk s))); [|reflexivity]. now apply follow_crop.
Qed.
Definition own (t : vfield) : nat := length (ay (vg t)).
Lemma follow_step f s : follows f s -> ok_follows (vf_hard_step own f) (hard_step s).
Proof.
  intros F. pose proof F as [G M]. unfold vf_hard_step, hard_step, bd_row, bd_col, own. cbn [vproj msk]. rewrite M, G.
  destruct (argmax4 _ _ _ _) as [|[|[|]]]; now apply follow_crop.
Qed.
Lemma follow_loop n f s : follows f s -> ok_follows (vf_hard_loop own n f) (hard_loop n s).
Proof.
  revert f s. induction n as [|n IH]; intros f s F; cbn; pose proof F as [G M]; unfold any_masked at 1 2; cbn [vproj msk]; rewrite M;
    destruct (existsb _ (flatten (msk s))) eqn:Q; try reflexivity; try exact F.
  pose proof (follow_step f s F) as H. destruct (vf_hard_step own f) as [f'|e], (hard_step s) as [s'|e']; cbn in *; try contradiction; [auto|congruence].
Qed.
(** the number of columns read by the third case does not matter *)
Lemma crop_far f a : vf_wf f -> 0 < length (ay (vg f)) -> length (ay (vg f)) <= a ->
  vf_crop_ind f None (Some (1%Z, Z.of_nat a)) = vf_crop_ind f None (Some (1%Z, Z.of_nat (length (ay (vg f))))).
Proof.
  intros ([R0 R1] & [S0 S1] & [M0 M1]) P L. unfold vf_crop_ind, grid_crop_ind. destruct (crop_window_ind (ax (vg f)) None) as [[x0 x1]|]; [|reflexivity]. cbn [bind].
  unfold crop_window_ind.
  assert (((Z.of_nat a <? 1)%Z = false) /\ (Z.of_nat (length (ay (vg f))) <? 1)%Z = false) as [-> ->] by (split; apply Z.ltb_ge; lia).
  assert (((Z.of_nat a =? 0)%Z = false) /\ (Z.of_nat (length (ay (vg f))) =? 0)%Z = false) as [-> ->] by (split; apply Z.eqb_neq; lia).
  cbn [guard orb Z.ltb Z.compare]. cbn [bind]. rewrite !Nat2Z.id. unfold grid_crop_to, vf_crop_to. do 2 f_equal.
  - f_equal. unfold slice. rewrite !firstn_all2; [reflexivity| |]; rewrite skipn_length; change (Z.to_nat 1) with 1; lia.
  - unfold aslice. rewrite R1, (Nat.min_r (a + 1)), (Nat.min_r (length (ay (vg f)) + 1)) by lia. reflexivity.
  - unfold aslice. rewrite S1, (Nat.min_r (a + 1)), (Nat.min_r (length (ay (vg f)) + 1)) by lia. reflexivity.
  - unfold aslice. rewrite M1, (Nat.min_r (a + 1)), (Nat.min_r (length (ay (vg f)) + 1)) by lia. reflexivity.
Qed.
Lemma part_len f f' : vf_part f f' -> vf_wf f -> length (ay (vg f')) <= length (ay (vg f)).
Proof.
  intros (x0 & y0 & A & B & C) _. destruct (length (ay (vg f'))) as [|n] eqn:E; [lia|].
  assert (y0 + n < length (ay (vg f))); [|lia]. apply nth_error_Some. rewrite <- B by lia. apply nth_error_Some. lia.
Qed.
Lemma loop_far ly n f : vf_wf f -> (forall t, length (ay (vg t)) <= length (ay (vg f)) -> length (ay (vg t)) <= ly t) -> vf_hard_loop ly n f = vf_hard_loop own n f.
Proof.
  revert f. induction n as [|n IH]; intros f W L; cbn; destruct (any_masked (vproj f)) eqn:A; try reflexivity.
  assert (vf_hard_step ly f = vf_hard_step own f) as ->.
  { unfold vf_hard_step. destruct (argmax4 _ _ _ _) as [|[|[|]]]; try reflexivity. unfold own. apply crop_far; [exact W| |apply L; lia].
    destruct W as (_ & _ & [M0 M1]). apply any_masked_iff in A. destruct A as (i & j & Hi & Hj & _). cbn in Hj. lia. }
  destruct (vf_hard_step own f) as [f'|e] eqn:E; cbn; [|reflexivity].
  assert (P : vf_part f f' /\ vf_wf f').
  { unfold vf_hard_step in E. destruct (argmax4 _ _ _ _) as [|[|[|]]]; apply vf_crop_ind_part in E; tauto. }
  destruct P as [P W']. apply IH; [exact W'|]. intros t Ht. apply L. pose proof (part_len _ _ P W). lia.
Qed.
Lemma soft_part f f' : vf_soft f = Ok f' -> vf_wf f -> vf_part f f' /\ vf_wf f'.
Proof.
  unfold vf_soft. destruct (first_ok _ (d0 _)); [|discriminate]. destruct (last_ok _ (d0 _)); [|discriminate].
  destruct (first_ok _ (d1 _)); [|discriminate]. destruct (last_ok _ (d1 _)); [|discriminate]. intros H W. apply vf_crop_ind_part in H; tauto.
Qed.
Lemma loop_part n f f' : vf_hard_loop own n f = Ok f' -> vf_wf f -> vf_part f f' /\ vf_wf f'.
Proof.
  revert f. induction n as [|n IH]; intros f; cbn; destruct (any_masked (vproj f)); try discriminate; try (intros E W; injection E as <-; split; [apply vpart_refl|exact W]).
  destruct (vf_hard_step own f) as [g|e] eqn:E; cbn; [|discriminate]. intros H W.
  assert (P : vf_part f g /\ vf_wf g).
  { unfold vf_hard_step in E. destruct (argmax4 _ _ _ _) as [|[|[|]]]; apply vf_crop_ind_part in E; tauto. }
  destruct P as [P W']. destruct (IH g H W') as [P' W'']. split; [eapply vpart_trans; eauto|exact W''].
Qed.
(** in place or not, the same field *)
Lemma vf_crop_inplace f hard : vf_wf f -> vf_crop_masked_border f hard true = vf_crop_masked_border f hard false.
Proof.
  intro W. unfold vf_crop_masked_border. destruct (any_masked (vproj f)); [|reflexivity]. destruct hard; [|reflexivity].
  destruct (vf_soft f) as [f1|e] eqn:E; [|reflexivity]. cbn [bind]. destruct (soft_part f f1 E W) as [P W1].
  rewrite (loop_far (fun _ => length (ay (vg f)))); [reflexivity|exact W1|]. intros t Ht. pose proof (part_len _ _ P W). lia.
Qed.
Definition ok_ofollows (r : res (option vfield)) (q : res (option sfield)) : Prop :=
  match r, q with Ok (Some f), Ok (Some s) => follows f s | Ok None, Ok None => True | Err e, Err e' => e = e' | _, _ => False end.
Lemma follow_border f hard inplace : vf_wf f -> ok_ofollows (vf_crop_masked_border f hard inplace) (crop_masked_border (vproj f) hard).
Proof.
  intro W. assert (vf_crop_masked_border f hard inplace = vf_crop_masked_border f hard true) as -> by (destruct inplace; [reflexivity|symmetry; now apply vf_crop_inplace]).
  unfold vf_crop_masked_border, crop_masked_border. destruct (any_masked (vproj f)); [|exact I].
  assert (F : follows f (vproj f)) by (split; reflexivity). pose proof (follow_soft _ _ F) as S.
  destruct (vf_soft f) as [f1|e], (soft_crop (vproj f)) as [s1|e']; cbn in S; try contradiction; [|subst; destruct hard; reflexivity].
  destruct hard; cbn [bind]; [|exact S]. pose proof S as [G _]. rewrite G.
  pose proof (follow_loop (length (ax (sg s1)) + length (ay (sg s1))) _ _ S) as H. unfold own in H.
  destruct (vf_hard_loop _ _ f1) as [f2|e], (hard_loop _ s1) as [s2|e']; cbn in *; try contradiction; auto.
Qed.
Lemma border_part f hard inplace f' : vf_wf f -> vf_crop_masked_border f hard inplace = Ok (Some f') -> vf_part f f' /\ vf_wf f'.
Proof.
  intros W. assert (vf_crop_masked_border f hard inplace = vf_crop_masked_border f hard true) as -> by (destruct inplace; [reflexivity|symmetry; now apply vf_crop_inplace]).
  unfold vf_crop_masked_border. destruct (any_masked (vproj f)); [|discriminate].
  destruct (vf_soft f) as [f1|e] eqn:E; [|destruct hard; discriminate]. destruct (soft_part f f1 E W) as [P1 W1]. destruct hard; cbn [bind].
  - change (fun t : vfield => length (ay (vg t))) with own. destruct (vf_hard_loop own (length (ax (vg f1)) + length (ay (vg f1))) f1) as [f2|e] eqn:H; cbn; [|discriminate]. intro Q. injection Q as <-.
    destruct (loop_part _ _ _ H W1) as [P2 W2]. split; [eapply vpart_trans; eauto|exact W2].
  - intro Q. injection Q as <-. auto.
Qed.
Lemma vproj_wf f : vf_wf f -> sf_wf (vproj f).
Proof. intros (X & _ & M). split; assumption. Qed.
Lemma vf_soft_api f inplace : vf_wf f ->
  (exists i j, vcell_in f i j /\ at_ (vmsk f) i j = true) ->
  (exists i j, 0 < i /\ vcell_in f i j /\ at_ (vmsk f) i j = false) ->
  (exists i j, 0 < j /\ vcell_in f i j /\ at_ (vmsk f) i j = false) ->
  exists f', vf_crop_masked_border f false inplace = Ok (Some f') /\ vf_part f f' /\ vf_wf f' /\
    (grid_sorted (vg f) -> forall x y v w, vf_shows f x y v w false -> vf_shows f' x y v w false) /\
    (let n := length (ax (vg f')) in let m := length (ay (vg f')) in
     0 < n /\ 0 < m /\
     (exists j, j < m /\ at_ (vmsk f') 0 j = false) /\ (exists j, j < m /\ at_ (vmsk f') (n - 1) j = false) /\
     (exists i, i < n /\ at_ (vmsk f') i 0 = false) /\ (exists i, i < n /\ at_ (vmsk f') i (m - 1) = false)).
Proof.
  intros W H1 H2 H3. destruct (soft_crop_api (vproj f) (vproj_wf f W) H1 H2 H3) as (s & E & _ & _ & K & B).
  pose proof (follow_border f false inplace W) as F. rewrite E in F.
  destruct (vf_crop_masked_border f false inplace) as [[f'|]|e] eqn:Q; cbn in F; try contradiction. destruct F as [G M].
  destruct (border_part f false inplace f' W Q) as [P W']. exists f'. split; [reflexivity|]. split; [exact P|]. split; [exact W'|]. split.
  - intros S x y v w SH. pose proof SH as (i & j & I1 & I2 & I3 & I4 & I5).
    destruct (K S x y (at_ (values (vproj f)) i j)) as (i' & j' & J1 & J2 & _ & J4).
    { exists i, j. repeat split; assumption. }
    rewrite <- G in J1, J2. rewrite <- M in J4. destruct P as (x0 & y0 & A & B' & C).
    pose proof (nth_error_Some_lt _ _ _ J1) as L1. pose proof (nth_error_Some_lt _ _ _ J2) as L2.
    destruct (C i' j' L1 L2) as (C1 & C2 & _). rewrite A in J1 by exact L1. rewrite B' in J2 by exact L2.
    destruct (shows_at f x y v w false _ _ S SH J1 J2) as (D1 & D2 & _).
    exists i', j'. rewrite A, B', C1, C2 by assumption. auto.
  - rewrite G, M. exact B.
Qed.
Lemma vf_hard_api f inplace : vf_wf f ->
  vf_crop_masked_border f true inplace <> Err OutOfFuel /\
  forall f', vf_crop_masked_border f true inplace = Ok (Some f') ->
    vf_part f f' /\ vf_wf f' /\ forall i j, vcell_in f' i j -> at_ (vmsk f') i j = false.
Proof.
  intro W. destruct (hard_crop_lemma (vproj f) (vproj_wf f W)) as [N H]. pose proof (follow_border f true inplace W) as F. split.
  - intro E. rewrite E in F. destruct (crop_masked_border (vproj f) true) as [[|]|e]; cbn in F; try contradiction. congruence.
  - intros f' E. destruct (border_part f true inplace f' W E) as [P W']. split; [exact P|]. split; [exact W'|]. rewrite E in F.
    destruct (crop_masked_border (vproj f) true) as [[s|]|e]; cbn in F; try contradiction. destruct F as [G M].
    destruct (H s eq_refl) as (_ & _ & K). intros i j [Hi Hj]. rewrite M. apply K; congruence.
Qed.
