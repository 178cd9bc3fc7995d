(** * TemporalProofs9: augmentation, fluctuations, recurrence maps, extrema and time profiles *)
From Verif Require Import Num Res ListLib SortLib Arr FieldModel ScalarFieldModel VectorFieldModel ProfileModel FieldSpec SeqSpec
  FieldProofs RotateProofs FieldProofs2 ScalarProofs FieldProofs3 ProfileSpec ProfileProofs PointsModel PointsSpec PointsProofs5 PointsProofs6 ProfileProofs3 TemporalModel TemporalSpec
  TemporalProofs TemporalProofs2 TemporalProofs3 TemporalProofs5 TemporalProofs6 TemporalProofs7 TemporalProofs8.
From Coq Require Import Lia.

(** ** augment_temporal_resolution *)
Lemma nth_flat_map_block {A} (g : nat -> list A) fact m i k : (forall i, i < m -> length (g i) = fact) -> i < m -> k < fact ->
  nth_error (flat_map g (seq 0 m)) (i * fact + k) = nth_error (g i) k.
Proof.
  intros HL. assert (G : forall m' a i, a + m' <= m -> i < m' -> k < fact -> nth_error (flat_map g (seq a m')) (i * fact + k) = nth_error (g (a + i)) k).
  { induction m' as [|m' IH]; intros a i' Ha Hi Hk; [lia|]. cbn [seq flat_map]. destruct i' as [|i'].
    - cbn [Nat.mul Nat.add]. rewrite nth_error_app1 by (rewrite HL by lia; exact Hk). now rewrite Nat.add_0_r.
    - rewrite nth_error_app2 by (rewrite HL by lia; nia). rewrite HL by lia. replace (S i' * fact + k - fact) with (i' * fact + k) by nia.
      rewrite IH by lia. f_equal. f_equal. lia. }
  intros Hi Hk. apply (G m 0 i); lia.
Qed.
Lemma flat_map_block_length {A} (g : nat -> list A) fact m a : (forall i, length (g i) = fact) -> length (flat_map g (seq a m)) = m * fact.
Proof. intro H. revert a. induction m as [|m IH]; intro a; [reflexivity|]. cbn [seq flat_map]. rewrite app_length, H, IH. lia. Qed.
Lemma aug_times_length times fact : times <> [] -> length (aug_times times fact) = (length times - 1) * fact + 1.
Proof.
  intro NE. unfold aug_times. rewrite app_length. cbn [length]. f_equal. apply flat_map_block_length. intro. now rewrite map_length, seq_length.
Qed.
Lemma aug_times_nth times fact i k : S i < length times -> k < fact ->
  nths (aug_times times fact) (i * fact + k) = (nths times i + qn k * ((nths times (S i) - nths times i) / qn fact))%num.
Proof.
  intros Hi Hk. apply nth_error_nths. unfold aug_times. rewrite nth_error_app1.
  - rewrite (nth_flat_map_block _ fact); [|intros; now rewrite map_length, seq_length|lia|exact Hk].
    rewrite nth_error_map, (nth_error_nth' _ 0) by (now rewrite seq_length). rewrite seq_nth by exact Hk. reflexivity.
  - rewrite (flat_map_block_length _ fact) by (intro; now rewrite map_length, seq_length). nia.
Qed.
Lemma aug_times_last times fact : times <> [] -> nths (aug_times times fact) ((length times - 1) * fact) = nths times (length times - 1).
Proof.
  intro NE. apply nth_error_nths. unfold aug_times. rewrite nth_error_app2.
  - rewrite (flat_map_block_length _ fact) by (intro; now rewrite map_length, seq_length). rewrite Nat.sub_diag. cbn. f_equal. now apply last_nths.
  - rewrite (flat_map_block_length _ fact) by (intro; now rewrite map_length, seq_length). lia.
Qed.
Lemma block_index L fact j : 0 < fact -> j < L * fact -> exists i k, j = i * fact + k /\ i < L /\ k < fact.
Proof.
  intros Hf Hj. exists (j / fact), (j mod fact). pose proof (Nat.div_mod j fact ltac:(lia)). pose proof (Nat.mod_upper_bound j fact ltac:(lia)).
  repeat split; try lia. apply Nat.div_lt_upper_bound; lia.
Qed.
Lemma aug_increasing times fact : increasing times -> times <> [] -> 0 < fact -> increasing (aug_times times fact).
Proof.
  intros I NE Hf. assert (LP : 0 < length times) by (destruct times; [congruence|cbn; lia]).
  pose proof (qn_pos fact Hf) as P.
  assert (St : forall j, S j < length (aug_times times fact) -> (nths (aug_times times fact) j < nths (aug_times times fact) (S j))%num).
  { intros j Hj. rewrite aug_times_length in Hj by exact NE. destruct (block_index (length times - 1) fact j Hf ltac:(lia)) as (i & k & -> & Hi & Hk).
    assert (D : (0 < nths times (S i) - nths times i)%num) by (assert (nths times i < nths times (S i))%num by (apply I; lia); qlra).
    assert (D' : (0 < (nths times (S i) - nths times i) / qn fact)%num) by (apply qdiv_pos; assumption).
    rewrite (aug_times_nth times fact i k) by lia. destruct (Nat.eq_dec (S k) fact) as [E|N].
    - assert (E2 : (qn (S k) * ((nths times (S i) - nths times i) / qn fact) = nths times (S i) - nths times i)%num) by (rewrite E; qfield; now apply qgt_neq).
      assert (E3 : (qn (S k) = qn k + 1)%num) by (unfold qn; rewrite Nat2Z.inj_succ, <- Z.add_1_r, qz_add; reflexivity). rewrite E3 in E2.
      assert (nths (aug_times times fact) (S (i * fact + k)) = nths times (S i)) as ->.
      { destruct (Nat.eq_dec (S i) (length times - 1)) as [El|Nl].
        - replace (S (i * fact + k)) with ((length times - 1) * fact) by nia. rewrite aug_times_last by exact NE. now rewrite El.
        - replace (S (i * fact + k)) with (S i * fact + 0) by nia. rewrite aug_times_nth by lia. unfold qn at 1. change (qz (Z.of_nat 0)) with 0%num. qring. }
      qlra.
    - replace (S (i * fact + k)) with (i * fact + S k) by lia. rewrite (aug_times_nth times fact i (S k)) by lia.
      assert (E3 : (qn (S k) = qn k + 1)%num) by (unfold qn; rewrite Nat2Z.inj_succ, <- Z.add_1_r, qz_add; reflexivity). rewrite E3. qlra. }
  intros a b Hab Hb. induction b as [|b IH]; [lia|]. destruct (Nat.eq_dec a b) as [->|N]; [now apply St|].
  apply qlt_trans with (nths (aug_times times fact) b); [apply IH; lia|now apply St].
Qed.
Lemma tf_augment_lemma {F} (ops : fops F) t fact : tf_ok t -> increasing (tft t) -> tfa t = true -> tft t <> [] -> 2 <= fact ->
  (forall i t1 t2 f1 f2 time, nth_error (frames t) i = Some (t1, f1) -> nth_error (frames t) (S i) = Some (t2, f2) -> (t1 < time)%num -> (time < t2)%num ->
     exists f, tf_interp ops t time = Ok f /\ o_grid ops f = tfg t) ->
  one_grid ops t ->
  exists t', tf_augment ops t (Z.of_nat fact) = Ok t' /\ tf_ok t' /\ one_grid ops t' /\ tfg t' = tfg t /\ tfu t' = tfu t /\
    length (frames t') = (length (frames t) - 1) * fact + 1 /\
    (forall i, i < length (frames t) -> nth_error (frames t') (i * fact) = nth_error (frames t) i) /\
    (forall i k x f, S i < length (frames t) -> k < fact -> nth_error (frames t') (i * fact + k) = Some (x, f) ->
       ((x - nths (tft t) i) * qn fact = qn k * (nths (tft t) (S i) - nths (tft t) i))%num /\ tf_interp ops t x = Ok f).
Proof.
  intros O I A NE Hf Hi OG. pose proof O as [L S0]. assert (LP : 0 < length (tft t)) by (destruct (tft t); [congruence|cbn; lia]).
  assert (LF : length (frames t) = length (tft t)) by (unfold frames; rewrite combine_length; lia).
  assert (FN : forall i, i < length (tft t) -> exists f, nth_error (frames t) i = Some (nths (tft t) i, f)).
  { intros i Hi'. destruct (nth_error (tff t) i) as [f|] eqn:E; [|apply nth_error_None in E; lia]. exists f. apply frames_nth. split; [now apply nths_nth_error|exact E]. }
  assert (Any : forall j, j < length (aug_times (tft t) fact) -> exists f, tf_interp ops t (nths (aug_times (tft t) fact) j) = Ok f /\ o_grid ops f = tfg t).
  { intros j Hj. rewrite aug_times_length in Hj by exact NE.
    assert (AtI : forall i, i < length (tft t) -> exists f, tf_interp ops t (nths (tft t) i) = Ok f /\ o_grid ops f = tfg t).
    { intros i Hi'. destruct (FN i Hi') as (f & Ef). exists f. split; [now apply (tf_interp_at ops t _ f i)|]. apply OG. apply frames_nth in Ef. eapply nth_error_In. apply Ef. }
    destruct (Nat.eq_dec j ((length (tft t) - 1) * fact)) as [->|N]; [rewrite aug_times_last by exact NE; apply AtI; lia|].
    destruct (block_index (length (tft t) - 1) fact j ltac:(lia) ltac:(lia)) as (i & k & -> & Hi' & Hk).
    rewrite aug_times_nth by lia. destruct k as [|k].
    - assert (E0 : (nths (tft t) i + qn 0 * ((nths (tft t) (S i) - nths (tft t) i) / qn fact) = nths (tft t) i)%num) by (rewrite qn0_mul; qring). rewrite E0. apply AtI. lia.
    - destruct (FN i ltac:(lia)) as (f1 & E1), (FN (S i) ltac:(lia)) as (f2 & E2). apply (Hi i _ _ f1 f2 _ E1 E2).
      + assert (D : (0 < nths (tft t) (S i) - nths (tft t) i)%num) by (assert (nths (tft t) i < nths (tft t) (S i))%num by (apply I; lia); qlra).
        assert (D' : (0 < qn (S k) * ((nths (tft t) (S i) - nths (tft t) i) / qn fact))%num) by (apply qmul_pos; [apply qn_pos; lia|apply qdiv_pos; [exact D|apply qn_pos; lia]]). qlra.
      + assert (D : (0 < nths (tft t) (S i) - nths (tft t) i)%num) by (assert (nths (tft t) i < nths (tft t) (S i))%num by (apply I; lia); qlra).
        assert (D' : (0 < (nths (tft t) (S i) - nths (tft t) i) / qn fact)%num) by (apply qdiv_pos; [exact D|apply qn_pos; lia]).
        assert (D2 : (qn (S k) < qn fact)%num) by (apply qz_lt; lia).
        assert (D3 : (qn (S k) * ((nths (tft t) (S i) - nths (tft t) i) / qn fact) < qn fact * ((nths (tft t) (S i) - nths (tft t) i) / qn fact))%num) by (apply qmul_lt_r; assumption).
        assert (D4 : (qn fact * ((nths (tft t) (S i) - nths (tft t) i) / qn fact) = nths (tft t) (S i) - nths (tft t) i)%num) by (qfield; apply qgt_neq, qn_pos; lia). qlra. }
  destruct (mapM_total (tf_interp ops t) (aug_times (tft t) fact)) as (fs & E).
  { intros x Hx. apply In_nth_error in Hx. destruct Hx as (j & Hj). pose proof (nth_error_Some_lt _ _ _ Hj) as Lj. apply nth_error_nths in Hj. destruct (Any j Lj) as (f & Ef & _). rewrite <- Hj. eauto. }
  exists (mktf (tfg t) fs false (aug_times (tft t) fact) (tfu t)).
  pose proof (proj1 (mapM_forall2 _ _ _) E) as FF. pose proof (Forall2_len _ _ _ FF) as Lfs.
  assert (NT : forall j x f, nth_error (frames (mktf (tfg t) fs false (aug_times (tft t) fact) (tfu t))) j = Some (x, f) -> tf_interp ops t x = Ok f /\ x = nths (aug_times (tft t) fact) j).
  { intros j x f H. apply frames_nth in H. cbn in H. destruct H as [H1 H2]. split; [|symmetry; now apply nth_error_nths].
    clear -FF H1 H2. revert j H1 H2. induction FF as [|a b la lb R FF IH]; intros [|j] H1 H2; try discriminate H1; cbn in *; [congruence|]. now apply (IH j). }
  split.
  { unfold tf_augment. destruct (Z.leb_spec (Z.of_nat fact) 0); [lia|]. cbn [guard]. destruct (Z.eqb_spec (Z.of_nat fact) 1); [lia|].
    destruct (tft t) eqn:Et; [congruence|]. rewrite <- Et in *. cbn [guard]. rewrite Nat2Z.id, E. reflexivity. }
  split; [split; cbn; [exact Lfs|apply increasing_nondecreasing, aug_increasing; auto; lia]|].
  split. { intros f If. cbn in *. destruct (Forall2_in_r _ _ _ _ FF If) as (x & Ix & Ex). apply In_nth_error in Ix. destruct Ix as (j & Hj).
    pose proof (nth_error_Some_lt _ _ _ Hj) as Lj. apply nth_error_nths in Hj. destruct (Any j Lj) as (f' & Ef & Eg). cbn in Ex. rewrite Hj in Ef. rewrite Ex in Ef. injection Ef as ->. exact Eg. }
  split; [reflexivity|]. split; [reflexivity|].
  split. { unfold frames at 1. cbn [tft tff]. rewrite combine_length, LF, <- Lfs, aug_times_length by exact NE. lia. }
  split.
  - intros i Hi'. rewrite LF in Hi'. destruct (FN i Hi') as (f & Ef). rewrite Ef.
    assert (Lt : i * fact < length (aug_times (tft t) fact)) by (rewrite aug_times_length by exact NE; nia).
    destruct (nth_error (frames (mktf (tfg t) fs false (aug_times (tft t) fact) (tfu t))) (i * fact)) as [[x f']|] eqn:En.
    + destruct (NT _ _ _ En) as [H1 H2].
      assert (Ex : x = nths (tft t) i).
      { rewrite H2. destruct (Nat.eq_dec i (length (tft t) - 1)) as [->|N]; [now apply aug_times_last|].
        replace (i * fact) with (i * fact + 0) by lia. rewrite aug_times_nth by lia. rewrite qn0_mul. qring. }
      subst x. rewrite Ex in H1. rewrite (tf_interp_at ops t _ f i O I A Ef) in H1. injection H1 as ->. now rewrite Ex.
    + exfalso. apply nth_error_None in En. unfold frames in En. cbn [tft tff] in En. rewrite combine_length in En. lia.
  - intros i k x f Hi' Hk H. rewrite LF in Hi'. destruct (NT _ _ _ H) as [H1 H2]. split; [|exact H1]. rewrite H2, aug_times_nth by lia. qfield. apply qgt_neq, qn_pos. lia.
Qed.
Lemma tf_augment_sf t fact : sf_series_ok t -> tf_ok t -> increasing (tft t) -> tfa t = true -> tft t <> [] -> 2 <= fact ->
  exists t', tf_augment sf_ops t (Z.of_nat fact) = Ok t' /\ tf_ok t' /\ one_grid sf_ops t' /\ tfg t' = tfg t /\ tfu t' = tfu t /\
    length (frames t') = (length (frames t) - 1) * fact + 1 /\
    (forall i, i < length (frames t) -> nth_error (frames t') (i * fact) = nth_error (frames t) i) /\
    (forall i k x f, S i < length (frames t) -> k < fact -> nth_error (frames t') (i * fact + k) = Some (x, f) ->
       ((x - nths (tft t) i) * qn fact = qn k * (nths (tft t) (S i) - nths (tft t) i))%num /\ tf_interp sf_ops t x = Ok f).
Proof.
  intros SO O I A NE Hf. apply tf_augment_lemma; auto.
  - intros i t1 t2 f1 f2 time E1 E2 B1 B2. destruct (tf_interp_sf t time t1 t2 f1 f2 i SO O I E1 E2 B1 B2) as (f & E & G & _). eauto.
  - apply SO.
Qed.
Lemma tf_augment_vf t fact : vf_series_ok t -> tf_ok t -> increasing (tft t) -> tfa t = true -> tft t <> [] -> 2 <= fact ->
  exists t', tf_augment vf_ops t (Z.of_nat fact) = Ok t' /\ tf_ok t' /\ one_grid vf_ops t' /\ tfg t' = tfg t /\ tfu t' = tfu t /\
    length (frames t') = (length (frames t) - 1) * fact + 1 /\
    (forall i, i < length (frames t) -> nth_error (frames t') (i * fact) = nth_error (frames t) i) /\
    (forall i k x f, S i < length (frames t) -> k < fact -> nth_error (frames t') (i * fact + k) = Some (x, f) ->
       ((x - nths (tft t) i) * qn fact = qn k * (nths (tft t) (S i) - nths (tft t) i))%num /\ tf_interp vf_ops t x = Ok f).
Proof.
  intros SO O I A NE Hf. apply tf_augment_lemma; auto.
  - intros i t1 t2 f1 f2 time E1 E2 B1 B2. destruct (tf_interp_vf t time t1 t2 f1 f2 i SO O I E1 E2 B1 B2) as (f & E & G & _). eauto.
  - apply SO.
Qed.
