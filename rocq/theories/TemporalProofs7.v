(** * TemporalProofs7: interpolation in time *)
From Verif Require Import Num Res ListLib SortLib Arr FieldModel ScalarFieldModel VectorFieldModel ProfileModel FieldSpec SeqSpec
  FieldProofs RotateProofs FieldProofs2 ScalarProofs FieldProofs3 PointsModel PointsSpec PointsProofs5 PointsProofs6 ProfileProofs3 TemporalModel TemporalSpec
  TemporalProofs TemporalProofs2 TemporalProofs3 TemporalProofs5 TemporalProofs6.
From Coq Require Import Lia.

Lemma find_first p n k : k < n -> p k = true -> (forall i, i < k -> p i = false) -> find p (seq 0 n) = Some k.
Proof.
  intros Hk Pk Pl.
  assert (G : forall m a, a <= k < a + m -> find p (seq a m) = Some k).
  { induction m as [|m IH]; intros a Ha; [lia|]. cbn [seq find]. destruct (Nat.eq_dec a k) as [->|N]; [now rewrite Pk|].
    rewrite Pl by lia. apply IH. lia. }
  apply G. lia.
Qed.
Lemma find_none p n : (forall i, i < n -> p i = false) -> find p (seq 0 n) = None.
Proof.
  intros H. assert (G : forall m a, a + m <= n -> find p (seq a m) = None).
  { induction m as [|m IH]; intros a Ha; [reflexivity|]. cbn [seq find]. rewrite H by lia. apply IH. lia. }
  apply G. lia.
Qed.
Lemma last_nths (l : list num) : l <> [] -> last l (qz 0) = nths l (length l - 1).
Proof.
  intro NE. induction l as [|x m IH]; [congruence|]. destruct m as [|y m]; [reflexivity|].
  cbn [last length]. replace (S (S (length m)) - 1) with (S (length (y :: m) - 1)) by (cbn; lia). cbn [nth]. apply IH. congruence.
Qed.
Lemma frames_nth {F} (t : tfield F) i x f : nth_error (frames t) i = Some (x, f) <-> nth_error (tft t) i = Some x /\ nth_error (tff t) i = Some f.
Proof.
  unfold frames. generalize (tft t) as a, (tff t) as b. revert i. induction i as [|i IH]; intros [|u a] [|v b]; cbn; try (split; [discriminate|intros [? ?]; discriminate]).
  - split; [injection 1 as -> ->; auto|intros [E1 E2]; congruence].
  - apply IH.
Qed.
Lemma tf_interp_at {F} (ops : fops F) t time f i : tf_ok t -> increasing (tft t) -> tfa t = true ->
  nth_error (frames t) i = Some (time, f) -> tf_interp ops t time = Ok f.
Proof.
  intros [L S0] I A E. apply frames_nth in E. destruct E as [E1 E2]. pose proof (nth_error_Some_lt _ _ _ E1) as Hi. apply nth_error_nths in E1.
  unfold tf_interp. destruct (tft t) as [|x0 l] eqn:Et; [cbn in Hi; lia|]. rewrite <- Et in *. cbn [guard].
  assert (NE : tft t <> []) by (rewrite Et; discriminate).
  assert (qltb time (nths (tft t) 0) = false) as -> by (apply qltb_ge; rewrite <- E1; apply S0; lia).
  assert (qltb (last (tft t) (qz 0)) time = false) as -> by (apply qltb_ge; rewrite last_nths by exact NE; rewrite <- E1; apply S0; lia).
  cbn [orb guard].
  rewrite (find_first _ (length (tft t)) i Hi).
  - rewrite A. cbn [negb guard]. now rewrite E2.
  - now apply qeqb_eq.
  - intros k Hk. apply qeqb_neq. rewrite <- E1. apply qlt_neq. apply I; lia.
Qed.
Lemma tf_interp_out {F} (ops : fops F) t time : tft t <> [] -> (time < nths (tft t) 0)%num \/ (last (tft t) (qz 0) < time)%num -> tf_interp ops t time = Err GenericErr.
Proof.
  intros NE H. unfold tf_interp. destruct (tft t) as [|x0 l] eqn:Et; [congruence|]. rewrite <- Et in *. cbn [guard].
  assert ((qltb time (nths (tft t) 0) || qltb (last (tft t) (qz 0)) time)%bool = true) as ->; [|reflexivity].
  apply orb_true_iff. destruct H; [left|right]; now apply qltb_lt.
Qed.
Lemma tf_interp_between {F} (ops : fops F) t time t1 t2 f1 f2 i : tf_ok t -> increasing (tft t) ->
  nth_error (frames t) i = Some (t1, f1) -> nth_error (frames t) (S i) = Some (t2, f2) -> (t1 < time)%num -> (time < t2)%num ->
  tf_interp ops t time = o_add ops (o_muln ops f2 ((time - t1) / (t2 - t1))%num) (o_muln ops f1 ((t2 - time) / (t2 - t1))%num).
Proof.
  intros [L S0] I E E' H1 H2. apply frames_nth in E, E'. destruct E as [E1 E2], E' as [E1' E2']. pose proof (nth_error_Some_lt _ _ _ E1') as Hi.
  apply nth_error_nths in E1, E1'.
  unfold tf_interp. destruct (tft t) as [|x0 l] eqn:Et; [cbn in Hi; lia|]. rewrite <- Et in *. cbn [guard].
  assert (NE : tft t <> []) by (rewrite Et; discriminate).
  assert (B0 : (nths (tft t) 0 <= t1)%num) by (rewrite <- E1; apply S0; lia).
  assert (B1 : (t2 <= nths (tft t) (length (tft t) - 1))%num) by (rewrite <- E1'; apply S0; lia).
  assert (qltb time (nths (tft t) 0) = false) as -> by (apply qltb_ge; qlra).
  assert (qltb (last (tft t) (qz 0)) time = false) as -> by (apply qltb_ge; rewrite last_nths by exact NE; qlra).
  cbn [orb guard].
  assert (Lo : forall k, k <= i -> (nths (tft t) k <= t1)%num) by (intros k Hk; rewrite <- E1; apply S0; lia).
  assert (Hi2 : forall k, i < k -> k < length (tft t) -> (t2 <= nths (tft t) k)%num) by (intros k Hk Hk'; rewrite <- E1'; apply S0; lia).
  rewrite find_none.
  2:{ intros k Hk. apply qeqb_neq. destruct (Nat.le_gt_cases k i) as [K|K].
      - apply qlt_neq. specialize (Lo k K). qlra.
      - apply qgt_neq. specialize (Hi2 k K Hk). qlra. }
  rewrite (find_first _ (length (tft t)) (S i)); [|exact Hi| |].
  - replace (S i - 1) with i by lia. rewrite E2, E2', E1, E1'. reflexivity.
  - apply qltb_lt. rewrite E1'. exact H2.
  - intros k Hk. apply qltb_ge. specialize (Lo k ltac:(lia)). qlra.
Qed.
Lemma sf_muln_cells f c i j : at_ (values (sf_mul_num f c)) i j = oscale c (at_ (values f) i j) /\ at_ (msk (sf_mul_num f c)) i j = at_ (msk f) i j.
Proof. unfold sf_mul_num. cbn. destruct (at_ (msk f) i j); auto. Qed.
Lemma tf_interp_sf t time t1 t2 f1 f2 i : sf_series_ok t -> tf_ok t -> increasing (tft t) ->
  nth_error (frames t) i = Some (t1, f1) -> nth_error (frames t) (S i) = Some (t2, f2) -> (t1 < time)%num -> (time < t2)%num ->
  exists f, tf_interp sf_ops t time = Ok f /\ sg f = tfg t /\ sf_wf f /\
    forall a b, a < length (ax (tfg t)) -> b < length (ay (tfg t)) -> cell_between t1 t2 time f1 f2 f a b.
Proof.
  intros (GO & OG & FO & DM) O I E E' H1 H2. rewrite (tf_interp_between sf_ops t time t1 t2 f1 f2 i) by assumption. cbn [o_add o_muln sf_ops].
  apply frames_nth in E, E'. destruct E as [_ E], E' as [_ E']. apply nth_error_In in E, E'.
  destruct (FO f1 E) as (W1 & C1 & U1), (FO f2 E') as (W2 & C2 & U2).
  pose proof (OG f1 E) as G1. pose proof (OG f2 E') as G2. cbn in G1, G2.
  destruct (sf_add_cells (sf_mul_num f2 ((time - t1) / (t2 - t1))%num) (sf_mul_num f1 ((t2 - time) / (t2 - t1))%num)) as (s & k & Es & Hk & Gs & Us & Ws & Vs).
  - cbn. congruence.
  - cbn. apply DM; assumption.
  - exact U2.
  - destruct W2 as [[? ?] [? ?]]. repeat split; cbn; assumption.
  - exists s. split; [exact Es|]. split; [cbn in Gs; congruence|]. split; [exact Ws|]. intros a b Ha Hb. destruct (Vs a b) as [V1 V2].
    assert (M2 : at_ (msk s) a b = orb (at_ (msk f1) a b) (at_ (msk f2) a b)) by (rewrite V2, orb_comm; reflexivity).
    split; [exact M2|]. rewrite !(proj1 (sf_muln_cells _ _ _ _)) in V1.
    pose proof (clean_cell f1 a b C1) as K1. pose proof (clean_cell f2 a b C2) as K2. rewrite G1 in K1. rewrite G2 in K2. specialize (K1 Ha Hb). specialize (K2 Ha Hb).
    assert (VS : at_ (values s) a b = if orb (at_ (msk f1) a b) (at_ (msk f2) a b) then None else at_ (raw s) a b) by (unfold values; cbn [at_]; now rewrite M2).
    rewrite VS, V1. destruct (at_ (values f1) a b) as [x|].
    + destruct (at_ (values f2) a b) as [y|].
      * destruct (at_ (msk f1) a b); [destruct K1 as [_ K1]; discriminate (K1 eq_refl)|]. destruct (at_ (msk f2) a b); [destruct K2 as [_ K2]; discriminate (K2 eq_refl)|].
        cbn. eexists. split; [reflexivity|]. unfold on_line. cbn in Hk, Us. rewrite Us, <- Hk. qfield. apply qgt_neq. qlra.
      * destruct (at_ (msk f1) a b || at_ (msk f2) a b)%bool; reflexivity.
    + destruct (at_ (values f2) a b) as [y|]; destruct (at_ (msk f1) a b || at_ (msk f2) a b)%bool; reflexivity.
Qed.
Lemma tf_interp_vf t time t1 t2 f1 f2 i : vf_series_ok t -> tf_ok t -> increasing (tft t) ->
  nth_error (frames t) i = Some (t1, f1) -> nth_error (frames t) (S i) = Some (t2, f2) -> (t1 < time)%num -> (time < t2)%num ->
  exists f, tf_interp vf_ops t time = Ok f /\ vg f = tfg t /\ vf_wf f /\
    forall a b, a < length (ax (tfg t)) -> b < length (ay (tfg t)) -> vcell_between cx t1 t2 time f1 f2 f a b /\ vcell_between cy t1 t2 time f1 f2 f a b.
Proof.
  intros (GO & OG & FO & DM) O I E E' H1 H2. rewrite (tf_interp_between vf_ops t time t1 t2 f1 f2 i) by assumption. cbn [o_add o_muln vf_ops].
  apply frames_nth in E, E'. destruct E as [_ E], E' as [_ E']. apply nth_error_In in E, E'.
  destruct (FO f1 E) as (W1 & C1 & U1), (FO f2 E') as (W2 & C2 & U2).
  pose proof (OG f1 E) as G1. pose proof (OG f2 E') as G2. cbn in G1, G2.
  destruct (vf_add_cells (vf_mul_num f2 ((time - t1) / (t2 - t1))%num) (vf_mul_num f1 ((t2 - time) / (t2 - t1))%num)) as (s & k & Es & Hk & Gs & Us & Ws & Vs).
  - cbn. congruence.
  - cbn. apply DM; assumption.
  - exact U2.
  - destruct W2 as ([? ?] & [? ?] & [? ?]). repeat split; cbn; assumption.
  - exists s. split; [exact Es|]. split; [cbn in Gs; congruence|]. split; [exact Ws|]. intros a b Ha Hb. destruct (Vs a b) as (V0 & V1 & V2).
    assert (M2 : at_ (vmsk s) a b = orb (at_ (vmsk f1) a b) (at_ (vmsk f2) a b)) by (rewrite V0, orb_comm; reflexivity).
    rewrite M2 in V1, V2. cbn in V1, V2, Hk, Us.
    pose proof (vclean_cell f1 a b C1) as K1. pose proof (vclean_cell f2 a b C2) as K2. rewrite G1 in K1. rewrite G2 in K2. specialize (K1 Ha Hb). specialize (K2 Ha Hb).
    assert (Gen : forall c1 c2 cs, (c1 = None <-> at_ (vmsk f1) a b = true) -> (c2 = None <-> at_ (vmsk f2) a b = true) ->
       cs = (if (at_ (vmsk f1) a b || at_ (vmsk f2) a b)%bool then None else
             oadd (if at_ (vmsk f2) a b then None else oscale ((time - t1) / (t2 - t1))%num c2) (oscale k (if at_ (vmsk f1) a b then None else oscale ((t2 - time) / (t2 - t1))%num c1))) ->
       match c1, c2 with Some x, Some y => exists v, cs = Some v /\ on_line t1 t2 time (x * sc (vuv f1)) (y * sc (vuv f2)) (v * sc (vuv s)) | _, _ => cs = None end).
    { intros c1 c2 cs N1 N2 ->. destruct (at_ (vmsk f1) a b).
      - destruct N1 as [_ N1]. rewrite (N1 eq_refl). reflexivity.
      - destruct (at_ (vmsk f2) a b).
        + destruct N2 as [_ N2]. rewrite (N2 eq_refl). destruct c1; reflexivity.
        + destruct c1 as [x|]; [|destruct N1 as [N1 _]; discriminate (N1 eq_refl)]. destruct c2 as [y|]; [|destruct N2 as [N2 _]; discriminate (N2 eq_refl)].
          cbn. eexists. split; [reflexivity|]. unfold on_line. rewrite Us, <- Hk. qfield. apply qgt_neq. qlra. }
    split; (split; [exact M2|]); apply Gen; try apply K1; try apply K2; assumption.
Qed.
