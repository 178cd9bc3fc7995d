(** * PropJac: eigenvalues and eigenvectors of the velocity gradient, Kenwright's fields (C294 to C300). *)
From Coq Require Import Reals Lra Qreals.
From Verif Require Import Num Res ListLib Arr FieldModel ScalarFieldModel VectorFieldModel PointsModel FieldSpec FieldProofs FieldProofs2
  GradModel GradSpec GradProofs GradProofs2 GradProofs3 GradProofs4 GradProofs5 GradProofs6 Concrete TemporalEx CritModel
  CriterionModel CriterionSpec CriterionProofs CriterionProofs2 CriterionProofs5 CriterionProofs6 JacModel JacSpec JacProofs.
#[local] Open Scope R_scope.

(** what the results hold, for the fields and the arrays *)
Lemma fields_ok eig u f hx hy : vf_wf f -> vf_clean f -> evenly (ax (vg f)) hx -> evenly (ay (vg f)) hy ->
  exists v mk, eig_fields eig u f = Ok (v, mk, u) /\ d0 v = length (ax (vg f)) /\ d1 v = length (ay (vg f)) /\
  forall i j, (i < length (ax (vg f)))%nat -> (j < length (ay (vg f)))%nat ->
    (at_ mk i j = true <-> rests_on_masked f i j) /\ (at_ v i j = None <-> rests_on_masked f i j) /\
    (~ rests_on_masked f i j -> exists a b c d, jacobian f i j a b c d) /\
    (forall a b c d, ~ rests_on_masked f i j -> jacobian f i j a b c d -> at_ v i j = Some (eig_cell eig a b c d)).
Proof.
  intros W C Ex Ey. destruct (arrays_ok f hx hy W C Ex Ey eig) as (v & mk & E & D0 & D1 & P). unfold eig_fields. rewrite E. cbn [bind]. eexists _, mk. split; [reflexivity|].
  cbn [d0 d1 at_]. split; [exact D0|]. split; [exact D1|]. intros i j Hi Hj. destruct (P i j Hi Hj) as (M & _ & X & V). split; [exact M|]. split; [|split; [exact X|]].
  - rewrite <- M. destruct (at_ mk i j); split; congruence.
  - intros a b c d NR J. destruct (at_ mk i j) eqn:Em; [exfalso; apply NR; apply M; reflexivity|]. f_equal. exact (V a b c d NR J).
Qed.

(** C294: at each cell whose derivatives are known, the two values are the eigenvalues of the velocity gradient, the first one having the
    greatest real part; they are real when the gradient has real eigenvalues. *)
Theorem C294_eigenvalues eig u f hx hy : vf_wf f -> vf_clean f -> evenly (ax (vg f)) hx -> evenly (ay (vg f)) hy -> eig_right_on eig f ->
  exists v mk, eig_fields eig u f = Ok (v, mk, u) /\
  forall i j, (i < length (ax (vg f)))%nat -> (j < length (ay (vg f)))%nat -> ~ rests_on_masked f i j ->
    exists e a b c d, at_ v i j = Some e /\ jacobian f i j a b c d /\ roots a b c d (val1 e) (val2 e) /\ fst (val2 e) <= fst (val1 e) /\
      (0 <= (a - d) ^ 2 + 4 * (b * c) -> snd (val1 e) = 0 /\ snd (val2 e) = 0).
Proof.
  intros W C Ex Ey RI. destruct (fields_ok eig u f hx hy W C Ex Ey) as (v & mk & E & _ & _ & P). exists v, mk. split; [exact E|]. intros i j Hi Hj NR.
  destruct (P i j Hi Hj) as (_ & _ & X & V). destruct (X NR) as (a & b & c & d & J). exists (eig_cell eig a b c d), a, b, c, d. split; [exact (V _ _ _ _ NR J)|]. split; [exact J|].
  destruct (cell_values eig a b c d (RI i j a b c d Hi Hj J)) as (R & L & _). split; [exact R|]. split; [exact L|]. exact (real_disc _ _ _ _ _ _ R).
Qed.
Print Assumptions C294_eigenvalues.
(** the arrays given with raw=True hold the same values *)
Theorem C294_raw eig u f hx hy : vf_wf f -> vf_clean f -> evenly (ax (vg f)) hx -> evenly (ay (vg f)) hy ->
  exists r v mk, eig_raw eig f = Ok r /\ eig_fields eig u f = Ok (v, mk, u) /\
    forall i j, (i < length (ax (vg f)))%nat -> (j < length (ay (vg f)))%nat ->
      (rests_on_masked f i j -> at_ r i j = zero_cell /\ at_ v i j = None) /\ (~ rests_on_masked f i j -> at_ v i j = Some (at_ r i j)).
Proof.
  intros W C Ex Ey. destruct (arrays_ok f hx hy W C Ex Ey eig) as (r & mk & E & D0 & D1 & P). unfold eig_raw, eig_fields. rewrite E. cbn [bind]. eexists r, _, mk. split; [reflexivity|]. split; [reflexivity|].
  cbn [at_]. intros i j Hi Hj. destruct (P i j Hi Hj) as (M & Z & _ & _). split.
  - intros R. split; [exact (Z R)|]. rewrite (proj2 M R). reflexivity.
  - intros NR. destruct (at_ mk i j); [exfalso; apply NR; apply M; reflexivity|reflexivity].
Qed.
Print Assumptions C294_raw.

(** an eig that is right at diagonal matrices, and one at the rotation *)
Definition eig_diag : eig_t := fun a _ _ d => ((real a, real d), ((real 1, real 0), (real 0, real 1))).
Lemma eig_diag_right a d : eig_right eig_diag a 0 0 d.
Proof.
  unfold eig_right, eig_diag, roots, ceigen, cnorm2, cadd, cmul, real. cbn [fst snd]. repeat split; try (f_equal; ring); ring.
Qed.
Definition h2 : R := sqrt (1 / 2).
Lemma h2_sq : h2 * h2 = 1 / 2. Proof. unfold h2. apply sqrt_def. lra. Qed.
Definition eig_turn : eig_t := fun _ _ _ _ => (((0, 1), (0, -1)), (((h2, 0), (0, - h2)), ((h2, 0), (0, h2)))).
Lemma eig_turn_right : eig_right eig_turn 0 (-1) 1 0.
Proof.
  unfold eig_right, eig_turn, roots, ceigen, cnorm2, cadd, cmul, real. cbn [fst snd]. pose proof h2_sq.
  split; [split; f_equal; ring|]. split; [split; f_equal; ring|]. split; [split; f_equal; ring|]. split; [lra|]. split; [lra|]. intros Z. exfalso. lra.
Qed.
Definition ex_strain : vfield := lin_vf 3 3 1%num 1%num 0%num 2%num 0%num 0%num 0%num (- (1))%num.
Definition ex_turn : vfield := lin_vf 3 3 1%num 1%num 0%num 0%num (- (1))%num 0%num 1%num 0%num.
Lemma lin_facts hx hy a0 a1 a2 b0 b1 b2 : (0 < hx)%num -> (0 < hy)%num -> let f := lin_vf 3 3 hx hy a0 a1 a2 b0 b1 b2 in
  vf_wf f /\ vf_clean f /\ evenly (ax (vg f)) hx /\ evenly (ay (vg f)) hy /\
  (forall i j, (i < 3)%nat -> (j < 3)%nat -> jacobian f i j (toR a1) (toR a2) (toR b1) (toR b2)) /\ forall i j, ~ rests_on_masked f i j.
Proof.
  intros Hx Hy f. destruct (lin_vf_ok 3 3 hx hy a0 a1 a2 b0 b1 b2 ltac:(lia) ltac:(lia) Hx Hy) as (W & Ex & Ey & F). fold f in W, Ex, Ey, F.
  split; [exact W|]. split; [exact (full_clean _ (vf_is_full _ _ _ F))|]. split; [exact Ex|]. split; [exact Ey|]. split.
  - intros i j Hi Hj. assert (L : length (ax (vg f)) = 3%nat /\ length (ay (vg f)) = 3%nat) by (split; apply ramp_length). destruct L as [Lx Ly].
    apply (jacobian_linear f hx hy a0 a1 a2 b0 b1 b2 i j W Ex Ey F); [rewrite Lx|rewrite Ly]; assumption.
  - intros i j [(k & _ & H)|(k & _ & H)]; discriminate H.
Qed.
Example C294_example : vf_wf ex_strain /\ vf_clean ex_strain /\ evenly (ax (vg ex_strain)) 1%num /\ evenly (ay (vg ex_strain)) 1%num /\ eig_right_on eig_diag ex_strain /\
  ~ rests_on_masked ex_strain 1 1.
Proof.
  destruct (lin_facts 1%num 1%num 0%num 2%num 0%num 0%num 0%num (- (1))%num eq_refl eq_refl) as (W & C & Ex & Ey & J & N). fold ex_strain in *.
  split; [exact W|]. split; [exact C|]. split; [exact Ex|]. split; [exact Ey|]. split; [|apply N]. intros i j a b c d Hi Hj H.
  destruct (grads_known ex_strain _ _ W C Ex Ey i j Hi Hj (N i j)) as (a' & b' & c' & d' & _ & _ & U). destruct (U _ _ _ _ H) as (-> & -> & -> & ->).
  destruct (U _ _ _ _ (J i j Hi Hj)) as (_ & <- & <- & _). rewrite toR_0. apply eig_diag_right.
Qed.

(** C295: the two vectors are eigenvectors of the velocity gradient.  Refuted: where the flow rotates, only the real parts are kept. *)
Theorem C295_vectors_refuted eig u : eig_right eig 0 (-1) 1 0 -> exists f v mk, vf_wf f /\ vf_clean f /\ eig_fields eig u f = Ok (v, mk, u) /\
  forall i j, (i < 3)%nat -> (j < 3)%nat -> jacobian f i j 0 (-1) 1 0 /\ exists e, at_ v i j = Some e /\
    forall l, ~ is_eigenvector 0 (-1) 1 0 l (vec1 e) /\ ~ is_eigenvector 0 (-1) 1 0 l (vec2 e).
Proof.
  intros RI. destruct (lin_facts 1%num 1%num 0%num 0%num (- (1))%num 0%num 1%num 0%num eq_refl eq_refl) as (W & C & Ex & Ey & J & N). fold ex_turn in *.
  destruct (fields_ok eig u ex_turn _ _ W C Ex Ey) as (v & mk & E & _ & _ & P). exists ex_turn, v, mk. split; [exact W|]. split; [exact C|]. split; [exact E|]. intros i j Hi Hj.
  specialize (J i j Hi Hj). rewrite toR_opp, toR_0, toR_1 in J. replace (- (1)) with (-1) in J by lra. split; [exact J|]. exists (eig_cell eig 0 (-1) 1 0). split; [exact (proj2 (proj2 (proj2 (P i j Hi Hj))) _ _ _ _ (N i j) J)|].
  intros l. assert (T : forall w, ~ is_eigenvector 0 (-1) 1 0 l w).
  { intros w [E1 N1]. apply (no_direction 0 (-1) 1 0 l w); [lra| |exact E1]. intros ->. cbn in N1. lra. }
  split; apply T.
Qed.
Print Assumptions C295_vectors_refuted.
Example C295_example : eig_right eig_turn 0 (-1) 1 0. Proof. exact eig_turn_right. Qed.
(** what holds: eigenvectors of norm 1 where the eigenvalues are real *)
Theorem C295_vectors_partial eig u f hx hy : vf_wf f -> vf_clean f -> evenly (ax (vg f)) hx -> evenly (ay (vg f)) hy -> eig_right_on eig f ->
  exists v mk, eig_fields eig u f = Ok (v, mk, u) /\
  forall i j a b c d, (i < length (ax (vg f)))%nat -> (j < length (ay (vg f)))%nat -> ~ rests_on_masked f i j -> jacobian f i j a b c d ->
    0 <= (a - d) ^ 2 + 4 * (b * c) -> exists e, at_ v i j = Some e /\ is_eigenvector a b c d (fst (val1 e)) (vec1 e) /\ is_eigenvector a b c d (fst (val2 e)) (vec2 e).
Proof.
  intros W C Ex Ey RI. destruct (fields_ok eig u f hx hy W C Ex Ey) as (v & mk & E & _ & _ & P). exists v, mk. split; [exact E|]. intros i j a b c d Hi Hj NR J D.
  destruct (P i j Hi Hj) as (_ & _ & _ & V). exists (eig_cell eig a b c d). split; [exact (V _ _ _ _ NR J)|]. pose proof (RI i j a b c d Hi Hj J) as RR.
  destruct (cell_values eig a b c d RR) as (R & _). destruct (real_disc _ _ _ _ _ _ R D) as [Z1 Z2]. exact (cell_vectors eig a b c d RR Z1 Z2).
Qed.
Print Assumptions C295_vectors_partial.

(** C296: the eigenvalues have the unit of the derivatives of the field.  Refuted: no unit. *)
Theorem C296_unit_refuted eig : exists f v mk u, vf_wf f /\ vf_clean f /\ eig_fields eig no_unit f = Ok (v, mk, u) /\ dim_eqb (dim u) (dim (unit_div (vuv f) (ux (vg f)))) = false.
Proof.
  set (f := mkvf (vg ex_turn) (cx ex_turn) (cy ex_turn) (vmsk ex_turn) (unit_div metre second)).
  destruct (lin_facts 1%num 1%num 0%num 0%num (- (1))%num 0%num 1%num 0%num eq_refl eq_refl) as (W & C & Ex & Ey & _ & _). fold ex_turn in *.
  destruct (fields_ok eig no_unit f _ _ (W : vf_wf f) (C : vf_clean f) Ex Ey) as (v & mk & E & _). exists f, v, mk, no_unit. split; [exact W|]. split; [exact C|]. split; [exact E|]. vm_compute. reflexivity.
Qed.
Print Assumptions C296_unit_refuted.

(** C297: the results are masked exactly at the cells whose derivatives rest on a masked vector. *)
Theorem C297_mask eig u f hx hy : vf_wf f -> vf_clean f -> evenly (ax (vg f)) hx -> evenly (ay (vg f)) hy ->
  exists v mk, eig_fields eig u f = Ok (v, mk, u) /\ d0 v = length (ax (vg f)) /\ d1 v = length (ay (vg f)) /\
  forall i j, (i < length (ax (vg f)))%nat -> (j < length (ay (vg f)))%nat ->
    (at_ mk i j = true <-> rests_on_masked f i j) /\ (at_ v i j = None <-> rests_on_masked f i j).
Proof.
  intros W C Ex Ey. destruct (fields_ok eig u f hx hy W C Ex Ey) as (v & mk & E & D0 & D1 & P). exists v, mk. split; [exact E|]. split; [exact D0|]. split; [exact D1|].
  intros i j Hi Hj. destruct (P i j Hi Hj) as (A & B & _). split; assumption.
Qed.
Print Assumptions C297_mask.
Example C297_example : rests_on_masked masked_vf 2 1 /\ vf_wf masked_vf /\ vf_clean masked_vf /\ ~ rests_on_masked masked_vf 3 3.
Proof.
  destruct qcrit_mask_refuted as (W & C & _). split; [left; exists 1%nat; split; [split; [cbn; lia|right; left; reflexivity]|reflexivity]|]. split; [exact W|]. split; [exact C|].
  intros [(k & [_ S] & H)|(k & [_ S] & H)]; cbn in S, H; [rewrite andb_false_r in H; discriminate H|discriminate H].
Qed.

(** C298: in a linear field, eigenvalues and eigenvectors are those of its matrix, at all cells. *)
Theorem C298_linear eig u f hx hy a0 a1 a2 b0 b1 b2 : vf_wf f -> evenly (ax (vg f)) hx -> evenly (ay (vg f)) hy ->
  vf_is f (fun x y => a0 + a1 * x + a2 * y)%num (fun x y => b0 + b1 * x + b2 * y)%num -> eig_right eig (toR a1) (toR a2) (toR b1) (toR b2) ->
  exists v mk e, eig_fields eig u f = Ok (v, mk, u) /\ roots (toR a1) (toR a2) (toR b1) (toR b2) (val1 e) (val2 e) /\ fst (val2 e) <= fst (val1 e) /\
    forall i j, (i < length (ax (vg f)))%nat -> (j < length (ay (vg f)))%nat -> at_ v i j = Some e /\ at_ mk i j = false.
Proof.
  intros W Ex Ey F RI. pose proof (full_clean _ (vf_is_full _ _ _ F)) as C. destruct (fields_ok eig u f hx hy W C Ex Ey) as (v & mk & E & _ & _ & P).
  exists v, mk, (eig_cell eig (toR a1) (toR a2) (toR b1) (toR b2)). split; [exact E|]. destruct (cell_values eig _ _ _ _ RI) as (R & L & _). split; [exact R|]. split; [exact L|].
  intros i j Hi Hj. destruct (P i j Hi Hj) as (M & _ & _ & V). assert (NR : ~ rests_on_masked f i j).
  { pose proof (vf_is_full _ _ _ F) as FU. intros [(k & S & H)|(k & S & H)]; [destruct (FU k j (stencil_lt _ _ _ S) Hj) as [Z _]|destruct (FU i k Hi (stencil_lt _ _ _ S)) as [Z _]]; congruence. }
  split; [exact (V _ _ _ _ NR (jacobian_linear f hx hy _ _ _ _ _ _ i j W Ex Ey F Hi Hj))|]. destruct (at_ mk i j); [exfalso; apply NR; apply M; reflexivity|reflexivity].
Qed.
Print Assumptions C298_linear.
Example C298_example : eig_right eig_diag (toR 2%num) (toR 0%num) (toR 0%num) (toR (- (1))%num).
Proof. rewrite toR_0. apply eig_diag_right. Qed.

(** C299: one of Kenwright's two fields is null at a cell exactly when the velocity is parallel to its derivative along itself (J V).
    Refuted where the flow rotates: the real part of an eigenvector is not a direction kept by the gradient. *)
Theorem C299_lines_refuted u : exists eig f k1 k2 i j V, eig_right eig 0 (-1) 1 0 /\ vf_wf f /\ vf_clean f /\ jacobian f i j 0 (-1) 1 0 /\
  kenwright eig u f = Ok (k1, k2) /\ at_ k1 i j = Some 0 /\ ovec (at_ (cx f) i j) (at_ (cy f) i j) = Some V /\ ~ parallel (0 * fst V + -1 * snd V, 1 * fst V + 0 * snd V) V.
Proof.
  destruct (lin_facts 1%num 1%num 0%num 0%num (- (1))%num 0%num 1%num 0%num eq_refl eq_refl) as (W & C & Ex & Ey & J & N). fold ex_turn in *.
  destruct (fields_ok eig_turn u ex_turn _ _ W C Ex Ey) as (v & mk & E & _ & _ & P). unfold kenwright.
  exists eig_turn, ex_turn. rewrite E. cbn [bind fst]. eexists _, _, 0%nat, 1%nat, (-1, 0).
  assert (Hi : (0 < 3)%nat) by lia. assert (Hj : (1 < 3)%nat) by lia. specialize (J 0%nat 1%nat Hi Hj). rewrite toR_opp, toR_0, toR_1 in J. replace (- (1)) with (-1) in J by lra.
  assert (V : ovec (at_ (cx ex_turn) 0 1) (at_ (cy ex_turn) 0 1) = Some (-1, 0)).
  { assert (A : at_ (cx ex_turn) 0 1 = Some (qz (-1)%Z)) by (cbn [ex_turn lin_vf cx at_]; f_equal; qc). assert (B : at_ (cy ex_turn) 0 1 = Some (qz 0)) by (cbn [ex_turn lin_vf cy at_]; f_equal; qc).
    rewrite A, B. unfold ovec. rewrite !toR_qz. reflexivity. }
  split; [exact eig_turn_right|]. split; [exact W|]. split; [exact C|]. split; [exact J|]. split; [reflexivity|]. cbn [at_].
  destruct (P 0%nat 1%nat Hi Hj) as (_ & _ & _ & VV). rewrite (VV _ _ _ _ (N _ _) J), V. split.
  - cbn [option_map cross_at]. unfold eig_cell, eig_turn, cgreater. cbn [fst snd]. destruct (Rlt_dec 0 0) as [L|_]; [lra|]. destruct (Rlt_dec 1 (-1)) as [L|_]; [lra|].
    cbn [vec1 real_vec fst snd]. f_equal. ring.
  - split; [reflexivity|]. unfold parallel. cbn [fst snd]. lra.
Qed.
Print Assumptions C299_lines_refuted.
(** what holds: at cells with two distinct real eigenvalues *)
Theorem C299_lines_partial eig u f hx hy : vf_wf f -> vf_clean f -> evenly (ax (vg f)) hx -> evenly (ay (vg f)) hy -> eig_right_on eig f ->
  exists k1 k2, kenwright eig u f = Ok (k1, k2) /\
  forall i j a b c d V, (i < length (ax (vg f)))%nat -> (j < length (ay (vg f)))%nat -> ~ rests_on_masked f i j -> jacobian f i j a b c d ->
    ovec (at_ (cx f) i j) (at_ (cy f) i j) = Some V -> 0 < (a - d) ^ 2 + 4 * (b * c) ->
    (at_ k1 i j = Some 0 \/ at_ k2 i j = Some 0 <-> parallel (a * fst V + b * snd V, c * fst V + d * snd V) V).
Proof.
  intros W C Ex Ey RI. destruct (fields_ok eig u f hx hy W C Ex Ey) as (v & mk & E & _ & _ & P). unfold kenwright. rewrite E. cbn [bind fst]. eexists _, _. split; [reflexivity|].
  intros i j a b c d V Hi Hj NR J EV D. cbn [at_]. destruct (P i j Hi Hj) as (_ & _ & _ & VV). rewrite (VV _ _ _ _ NR J), EV. cbn [option_map cross_at].
  pose proof (RI i j a b c d Hi Hj J) as RR. destruct (cell_values eig a b c d RR) as (R & _). destruct (real_disc _ _ _ _ _ _ R ltac:(lra)) as [Z1 Z2].
  destruct (cell_vectors eig a b c d RR Z1 Z2) as [E1 E2]. set (e := eig_cell eig a b c d) in *.
  assert (NE : fst (val1 e) <> fst (val2 e)).
  { intros EQ. destruct R as [R1 R2]. unfold cadd, cmul, real in R1, R2. rewrite Z1, Z2, EQ in R1, R2. injection R1 as R1 _. injection R2 as R2 _. nra. }
  rewrite <- (kenwright_line a b c d _ _ (vec1 e) (vec2 e) V NE E1 E2).
  rewrite <- !cross_zero. split; intros [H|H]; [left|right|left|right]; congruence.
Qed.
Print Assumptions C299_lines_partial.

(** C300: Kenwright's fields are masked exactly where the velocity is masked or its derivatives rest on a masked vector; they have the
    unit of the velocity. *)
Theorem C300_mask eig u f hx hy : vf_wf f -> vf_clean f -> evenly (ax (vg f)) hx -> evenly (ay (vg f)) hy ->
  exists k1 m1 k2 m2, kenwright_fields eig u f = Ok ((k1, m1), (k2, m2), vuv f) /\
  forall i j, (i < length (ax (vg f)))%nat -> (j < length (ay (vg f)))%nat ->
    (at_ m1 i j = true <-> at_ (vmsk f) i j = true \/ rests_on_masked f i j) /\ at_ m2 i j = at_ m1 i j /\
    (at_ k1 i j = None <-> at_ m1 i j = true) /\ (at_ k2 i j = None <-> at_ m2 i j = true).
Proof.
  intros W C Ex Ey. destruct (fields_ok eig u f hx hy W C Ex Ey) as (v & mk & E & _ & _ & P). unfold kenwright_fields, kenwright. rewrite E. cbn [bind fst]. eexists _, _, _, _. split; [reflexivity|].
  intros i j Hi Hj. cbn [at_ amap]. destruct (P i j Hi Hj) as (_ & B & _ & _). destruct (C i j Hi Hj) as [C1 C2].
  assert (O : ovec (at_ (cx f) i j) (at_ (cy f) i j) = None <-> at_ (vmsk f) i j = true).
  { unfold ovec. destruct (at_ (cx f) i j) as [x|], (at_ (cy f) i j) as [y|]; split; intros H; try discriminate H; try reflexivity; try tauto; try (apply C1 in H; discriminate H). }
  destruct (at_ v i j) as [e|]; cbn [option_map cross_at]; [|split; [split; [intros _; right; apply B; reflexivity|reflexivity]|repeat split; reflexivity]].
  assert (NB : ~ rests_on_masked f i j) by (intros H; apply B in H; discriminate H).
  destruct (ovec (at_ (cx f) i j) (at_ (cy f) i j)) as [w|]; cbn.
  - split; [split; [discriminate|intros [H|H]; [apply O in H; discriminate H|contradiction]]|]. repeat split; discriminate.
  - split; [split; [intros _; left; apply O; reflexivity|reflexivity]|]. repeat split; reflexivity.
Qed.
Print Assumptions C300_mask.
Example C300_example : vf_wf masked_vf /\ vf_clean masked_vf /\ at_ (vmsk masked_vf) 1 1 = true /\ ~ rests_on_masked masked_vf 1 1.
Proof.
  destruct qcrit_mask_refuted as (W & C & M & _). split; [exact W|]. split; [exact C|]. split; [exact M|].
  intros [(k & [_ S] & H)|(k & [_ S] & H)]; cbn in S, H; rewrite ?andb_true_r in H; apply Nat.eqb_eq in H; subst; lia.
Qed.
