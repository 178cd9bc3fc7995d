(** * MirrorProofs2: the loop of mirroring fills each cell with its image *)
From Verif Require Import Num Res ListLib Arr FieldModel FieldSpec FieldProofs ScalarFieldModel ScalarProofs BlModel MirrorModel
  MirrorProofs.
Open Scope num_scope.

Definition idx (d : pdir) (i j : nat) : nat := match d with DX => i | DY => j end.
Definition line (f : sfield) (d : pdir) (i j : nat) : nat -> onum :=
  match d with DX => fun k => at_ (values f) k j | DY => fun k => at_ (values f) i k end.
Definition inr (f : sfield) (i j : nat) : Prop := (i < length (ax (sg f)))%nat /\ (j < length (ay (sg f)))%nat.
Definition cells_clean (f : sfield) : Prop := forall i j, inr f i j -> at_ (msk f) i j = isnan (at_ (values f) i j).
Lemma line_idx f d i j : line f d i j (idx d i j) = at_ (values f) i j.
Proof. now destruct d. Qed.
Lemma idx_lt f d i j : inr f i j -> (idx d i j < length (pos_axis f d))%nat.
Proof. intros [H1 H2]. now destruct d. Qed.

Lemma line_cell e d i j k : inr e i j -> (k < length (pos_axis e d))%nat ->
  exists a c, inr e a c /\ idx d a c = k /\ (forall g, line g d i j k = at_ (values g) a c) /\
              (forall g, line g d a c = line g d i j).
Proof.
  intros [Ri Rj] L. destruct d; cbn [pos_axis idx line] in *.
  - exists k, j. unfold inr. repeat split; auto.
  - exists i, k. unfold inr. repeat split; auto.
Qed.
Lemma values_put f i j v a b : at_ (values (put_cell f i j v)) a b =
  if (Nat.eqb a i && Nat.eqb b j)%bool then Some v else at_ (values f) a b.
Proof.
  cbn [values put_cell at_ msk raw aput]. destruct (Nat.eqb a i && Nat.eqb b j)%bool; [reflexivity|].
  now destruct (at_ (msk f) a b).
Qed.
Lemma last_le_nth l i : increasing l -> (i < length l)%nat -> nths l 0 <= nths l i /\ nths l i <= last l (qz 0).
Proof.
  intros H L. assert (l <> []) by (intros ->; cbn in L; lia). rewrite last_nths by assumption.
  split; apply increasing_nondecreasing; auto; lia.
Qed.

Section Loop.
Variables (ci : sfield -> nat -> nat -> num -> num -> onum) (d : pdir) (p coef : num) (e : sfield).
Variables (dl s beta : num) (b : nat).
Notation A := (pos_axis e d).
Hypothesis (HG : grid_sorted (sg e)) (HW : sf_wf e) (HC : cells_clean e).
Hypothesis (Hd : 0 < dl) (HE : axis_evenly A dl) (Hs : s = 1 \/ s = - (1)).
Hypothesis (Hb : (b < length A)%nat) (Hbe : beta = s * (nths A b - p)) (Hb0 : 0 <= beta).
Hypothesis (H0 : forall i j, inr e i j -> kept A p s beta (idx d i j) = false -> at_ (values e) i j = None).
Definition fin (i j : nat) : onum := final A p s beta coef (line e d i j) (idx d i j).
Record inv (f : sfield) : Prop := mkinv {
  iv_g : sg f = sg e; iv_u : uv f = uv e; iv_w : sf_wf f; iv_c : cells_clean f;
  iv_v : forall i j, inr e i j -> at_ (values f) i j = at_ (values e) i j \/ at_ (values f) i j = fin i j }.
Lemma incA : increasing A.
Proof. destruct HG. now destruct d. Qed.

Lemma inv_good f i j : inv f -> inr e i j -> good A p s beta coef (line e d i j) (line f d i j).
Proof.
  intros I R k Lk. destruct (line_cell e d i j k R Lk) as (a & c & Ra & Ei & Ev & El). rewrite !Ev.
  destruct (iv_v _ I a c Ra) as [Q|Q]; [left; exact Q|right]. rewrite Q. unfold fin. now rewrite Ei, El.
Qed.
Lemma line_none i j k : inr e i j -> (k < length A)%nat -> kept A p s beta k = false -> line e d i j k = None.
Proof.
  intros R Lk K. destruct (line_cell e d i j k R Lk) as (a & c & Ra & Ei & Ev & El). rewrite Ev.
  apply H0; [exact Ra|]. now rewrite Ei.
Qed.
Lemma mirror_read f i j : inv f -> inr e i j ->
  mirror_cell ci d p coef f (i, j) =
  Ok (if negb (at_ (msk f) i j) then f
      else if onax A (mpos A p (idx d i j)) then
        match lval A (line f d i j) (mpos A p (idx d i j)) with None => f | Some q => put_cell f i j (q * coef) end
      else f).
Proof.
  intros I [Ri Rj]. unfold mirror_cell. cbn [fst snd].
  destruct (at_ (msk f) i j); [|reflexivity]. cbn [negb].
  destruct HG as [HX HY]. destruct (last_le_nth _ i HX Ri) as [X1 X2]. destruct (last_le_nth _ j HY Rj) as [Y1 Y2].
  assert (ax (sg e) <> []) as NX by (intros Q; rewrite Q in Ri; cbn in Ri; lia).
  assert (ay (sg e) <> []) as NY by (intros Q; rewrite Q in Rj; cbn in Rj; lia).
  pose proof (iv_g _ I) as G.
  unfold mirror_point, onax, mpos, idx. destruct d; cbn [pos_axis line]; rewrite G.
  - rewrite (proj2 (qltb_ge (nths (ay (sg e)) j) (nths (ay (sg e)) 0))) by exact Y1.
    rewrite (proj2 (qltb_ge (last (ay (sg e)) (qz 0)) (nths (ay (sg e)) j))) by exact Y2. rewrite !orb_false_r.
    set (q := p - (nths (ax (sg e)) i - p)).
    destruct (qltb_spec q (nths (ax (sg e)) 0)) as [C1|C1]; cbn [orb].
    { rewrite (proj2 (qleb_gt _ _) C1). reflexivity. }
    rewrite (proj2 (qleb_le (nths (ax (sg e)) 0) q) C1).
    destruct (qltb_spec (last (ax (sg e)) (qz 0)) q) as [C2|C2].
    { rewrite (proj2 (qleb_gt _ _) C2). reflexivity. }
    rewrite (proj2 (qleb_le q _) C2). cbn [andb].
    rewrite (gv_line_x ci f q (nths (ay (sg e)) j) j); rewrite ?G; try assumption; try (now apply nths_nth_error); try (split; assumption).
  - rewrite (proj2 (qltb_ge (nths (ax (sg e)) i) (nths (ax (sg e)) 0))) by exact X1.
    rewrite (proj2 (qltb_ge (last (ax (sg e)) (qz 0)) (nths (ax (sg e)) i))) by exact X2. cbn [orb].
    set (q := p - (nths (ay (sg e)) j - p)).
    destruct (qltb_spec q (nths (ay (sg e)) 0)) as [C1|C1]; cbn [orb].
    { rewrite (proj2 (qleb_gt _ _) C1). reflexivity. }
    rewrite (proj2 (qleb_le (nths (ay (sg e)) 0) q) C1).
    destruct (qltb_spec (last (ay (sg e)) (qz 0)) q) as [C2|C2].
    { rewrite (proj2 (qleb_gt _ _) C2). reflexivity. }
    rewrite (proj2 (qleb_le q _) C2). cbn [andb].
    rewrite (gv_line_y ci f q (nths (ax (sg e)) i) i); rewrite ?G; try assumption; try (now apply nths_nth_error); try (split; assumption).
Qed.
Lemma inv_put f i j v : inv f -> inr e i j -> Some v = fin i j -> inv (put_cell f i j v).
Proof.
  intros I R F. constructor.
  - exact (iv_g _ I).
  - exact (iv_u _ I).
  - exact (iv_w _ I).
  - intros a c Ra. rewrite values_put. cbn [put_cell msk aput at_].
    destruct (Nat.eqb a i && Nat.eqb c j)%bool; [reflexivity|]. exact (iv_c _ I a c Ra).
  - intros a c Ra. rewrite values_put. destruct (Nat.eqb_spec a i) as [->|]; cbn [andb]; [|exact (iv_v _ I a c Ra)].
    destruct (Nat.eqb_spec c j) as [->|]; [right; exact F|exact (iv_v _ I i c Ra)].
Qed.
Lemma cell_step f i j : inv f -> inr e i j ->
  exists f', mirror_cell ci d p coef f (i, j) = Ok f' /\ inv f' /\ at_ (values f') i j = fin i j /\
    (forall a c, inr e a c -> at_ (values f) a c = fin a c -> at_ (values f') a c = fin a c).
Proof.
  intros I R. rewrite (mirror_read f i j I R). eexists. split; [reflexivity|].
  pose proof (idx_lt e d i j R) as L.
  destruct (line_step A dl p s beta coef b (line e d i j) incA Hd HE Hs Hb Hbe Hb0
              (fun k Lk => line_none i j k R Lk) (line f d i j) (idx d i j) (inv_good f i j I R) L) as (S1 & S2 & S3).
  rewrite line_idx in S1, S2, S3. fold (fin i j) in S1, S2, S3.
  pose proof (iv_c _ I i j) as C. unfold inr in C. rewrite (iv_g _ I) in C. specialize (C R). rewrite C.
  destruct (at_ (values f) i j) as [u|] eqn:V; cbn [isnan negb].
  { rewrite V. repeat split; auto; try apply I. apply S1. discriminate. }
  destruct (onax A (mpos A p (idx d i j))).
  2:{ rewrite V. repeat split; auto; try apply I. symmetry. now apply S2. }
  specialize (S3 eq_refl eq_refl).
  destruct (lval A (line f d i j) (mpos A p (idx d i j))) as [v|]; cbn [oscale option_map] in S3.
  2:{ rewrite V. repeat split; auto; try apply I. }
  split; [now apply inv_put|]. split.
  - rewrite values_put, !Nat.eqb_refl. now rewrite S3.
  - intros a c Ra Q. rewrite values_put. destruct (Nat.eqb_spec a i) as [->|]; cbn [andb]; [|exact Q].
    destruct (Nat.eqb_spec c j) as [->|]; [now rewrite S3|exact Q].
Qed.
Lemma loop_run l : forall f, inv f -> (forall i j, In (i, j) l -> inr e i j) ->
  exists f', mirror_loop ci d p coef l f = Ok f' /\ inv f' /\
    (forall i j, In (i, j) l -> at_ (values f') i j = fin i j) /\
    (forall a c, inr e a c -> at_ (values f) a c = fin a c -> at_ (values f') a c = fin a c).
Proof.
  induction l as [|[i j] l IH]; intros f I R; cbn [mirror_loop].
  - exists f. split; [reflexivity|]. split; [exact I|]. split; [intros i j []|auto].
  - destruct (cell_step f i j I (R i j (or_introl eq_refl))) as (f1 & E1 & I1 & V1 & K1). rewrite E1. cbn [bind].
    destruct (IH f1 I1 (fun a c H => R a c (or_intror H))) as (f2 & E2 & I2 & V2 & K2).
    exists f2. split; [exact E2|]. split; [exact I2|]. split.
    + intros a c [Q|Q]; [injection Q as <- <-; apply K2; [exact (R i j (or_introl eq_refl))|exact V1]|now apply V2].
    + intros a c Ra Q. apply K2; auto.
Qed.
Lemma loop_lemma : exists r,
  mirror_loop ci d p coef (aidx (length (ax (sg e))) (length (ay (sg e)))) e = Ok r /\
  sg r = sg e /\ uv r = uv e /\ sf_wf r /\ cells_clean r /\ forall i j, inr e i j -> at_ (values r) i j = fin i j.
Proof.
  destruct (loop_run (aidx (length (ax (sg e))) (length (ay (sg e)))) e) as (r & E & I & V & _).
  - constructor; auto.
  - intros i j Q. now apply in_aidx in Q.
  - exists r. split; [exact E|]. split; [exact (iv_g _ I)|]. split; [exact (iv_u _ I)|]. split; [exact (iv_w _ I)|].
    split; [exact (iv_c _ I)|]. intros i j R. apply V. now apply in_aidx.
Qed.
End Loop.
