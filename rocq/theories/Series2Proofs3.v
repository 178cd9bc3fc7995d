(** * Series2Proofs3: cropping of the masked border of a series (C144, C145). *)
From Coq Require Import Lia.
From Verif Require Import Num Res ListLib SortLib Arr FieldModel ScalarFieldModel VectorFieldModel FieldSpec ScalarProofs ProfileModel
  TemporalModel TemporalSpec TemporalProofs2 PodModel PodProofs PodProofs2 Series2Model Series2Spec.

Lemma slice_part {A} a b (l : list A) : slice a b l = firstn (Nat.min b (length l) - a) (skipn a l).
Proof.
  unfold slice. destruct (Nat.le_gt_cases b (length l)) as [H|H]; [now rewrite Nat.min_l|]. rewrite Nat.min_r by lia.
  rewrite !firstn_all2; [reflexivity| |]; rewrite skipn_length; lia.
Qed.
Lemma part_part {A} x0 n x1 n' (l : list A) : x1 + n' <= n -> firstn n' (skipn x1 (firstn n (skipn x0 l))) = firstn n' (skipn (x0 + x1) l).
Proof.
  intro H. rewrite skipn_firstn_comm, firstn_firstn, Nat.min_l by lia. f_equal. revert l; induction x0 as [|x0 IH]; intro l; [reflexivity|].
  destruct l as [|a l]; [now rewrite !skipn_nil|]. cbn [skipn Nat.add]. apply IH.
Qed.
Lemma part_len {A} x0 n (l : list A) : x0 + n <= length l -> length (firstn n (skipn x0 l)) = n.
Proof. intro H. rewrite firstn_length, skipn_length. lia. Qed.

Section Crop.
  Context {F : Type} (ops : fops F) (part : nat -> nat -> nat -> nat -> F -> F -> Prop) (wf : F -> Prop).
  Hypothesis CUT : forall f ivx ivy x0 x1 y0 y1, wf f -> crop_window_ind (ax (o_grid ops f)) ivx = Ok (x0, x1) -> crop_window_ind (ay (o_grid ops f)) ivy = Ok (y0, y1) ->
    exists f', o_cropi ops f ivx ivy = Ok f' /\ part x0 y0 (Nat.min (x1 + 1) (length (ax (o_grid ops f))) - x0) (Nat.min (y1 + 1) (length (ay (o_grid ops f))) - y0) f f' /\ wf f' /\
      o_grid ops f' = grid_crop_to (o_grid ops f) ((x0, x1), (y0, y1)).
  Hypothesis MASK : forall x0 y0 n m f f' i j, part x0 y0 n m f f' -> i < n -> j < m -> at_ (o_mask ops f') i j = at_ (o_mask ops f) (x0 + i) (y0 + j).
  Hypothesis COMP : forall x0 y0 n m x1 y1 n' m' f g h, part x0 y0 n m f g -> part x1 y1 n' m' g h -> x1 + n' <= n -> y1 + m' <= m -> part (x0 + x1) (y0 + y1) n' m' f h.
  Hypothesis REFL : forall f, wf f -> part 0 0 (length (ax (o_grid ops f))) (length (ay (o_grid ops f))) f f.

  Definition ser (t : tfield F) : Prop := forall f, In f (tff t) -> wf f /\ o_grid ops f = tfg t.
  Notation nx t := (length (ax (tfg t))).
  Notation ny t := (length (ay (tfg t))).
  Lemma cum_spec t i j : at_ (tf_mask_cum ops t) i j = true <-> always_masked ops t i j.
  Proof using All. unfold tf_mask_cum, always_masked. cbn [at_]. apply forallb_forall. Qed.
  Lemma cum_false t i j : at_ (tf_mask_cum ops t) i j = false <-> ~ always_masked ops t i j.
  Proof using All. rewrite <- cum_spec. now rewrite not_true_iff_false. Qed.

  Lemma cut_series t ivx ivy x0 x1 y0 y1 : ser t -> crop_window_ind (ax (tfg t)) ivx = Ok (x0, x1) -> crop_window_ind (ay (tfg t)) ivy = Ok (y0, y1) ->
    x0 <= nx t -> y0 <= ny t ->
    exists t', tf_crop_ind ops t ivx ivy None = Ok t' /\ ser t' /\ series_part part x0 y0 (Nat.min (x1 + 1) (nx t) - x0) (Nat.min (y1 + 1) (ny t) - y0) t t'.
  Proof using All.
    intros S Ex Ey Lx Ly. unfold tf_crop_ind. unfold grid_crop_ind. rewrite Ex, Ey. cbn [bind].
    destruct (mapM_forall2_ex (fun f => o_cropi ops f ivx ivy) (fun f f' => part x0 y0 (Nat.min (x1 + 1) (nx t) - x0) (Nat.min (y1 + 1) (ny t) - y0) f f' /\ wf f' /\ o_grid ops f' = grid_crop_to (tfg t) ((x0, x1), (y0, y1))) (tff t)) as (fs & E & R).
    { intros f If. destruct (S f If) as [W G]. destruct (CUT f ivx ivy x0 x1 y0 y1 W) as (f' & E & P & W' & G'); [now rewrite G|now rewrite G|].
      rewrite G in P, G'. exists f'. auto. }
    rewrite E. cbn [bind]. eexists. split; [reflexivity|]. split.
    - intros f If. cbn [tff tfg] in *. assert (forall g, In g fs -> wf g /\ o_grid ops g = grid_crop_to (tfg t) ((x0, x1), (y0, y1))) as K; [|now apply K].
      clear -R. induction R as [|a b l l' (_ & W & G) R IH]; intros g I; [contradiction|]. destruct I as [<-|I]; [auto|now apply IH].
    - unfold series_part. cbn [tft tfu tfg tff grid_crop_to ax ay]. rewrite !slice_part. split; [lia|]. split; [lia|]. do 4 (split; [reflexivity|]).
      clear -R. induction R as [|a b l l' (P & _) R IH]; constructor; auto.
  Qed.
  Lemma part_mask t t' x0 y0 n m i j : series_part part x0 y0 n m t t' -> i < n -> j < m -> (always_masked ops t' i j <-> always_masked ops t (x0 + i) (y0 + j)).
  Proof using All.
    intros (_ & _ & _ & _ & _ & _ & R) Hi Hj. unfold always_masked. clear -R MASK Hi Hj. induction R as [|a b l l' P R IH]; [split; intros _ f []|].
    split; intros H f [<-|I].
    - rewrite <- (MASK _ _ _ _ _ _ _ _ P Hi Hj). apply H. now left.
    - apply IH; [|exact I]. intros g J. apply H. now right.
    - rewrite (MASK _ _ _ _ _ _ _ _ P Hi Hj). apply H. now left.
    - apply IH; [|exact I]. intros g J. apply H. now right.
  Qed.
  Lemma series_trans t t1 t2 x0 y0 n m x1 y1 n' m' : series_part part x0 y0 n m t t1 -> series_part part x1 y1 n' m' t1 t2 -> series_part part (x0 + x1) (y0 + y1) n' m' t t2.
  Proof using All.
    intros (A1 & A2 & A3 & A4 & A5 & A6 & A7) (B1 & B2 & B3 & B4 & B5 & B6 & B7).
    rewrite A5, part_len in B1 by assumption. rewrite A6, part_len in B2 by assumption. unfold series_part. rewrite B3, B4, B5, B6, A3, A4, A5, A6, !part_part by assumption.
    split; [lia|]. split; [lia|]. do 4 (split; [reflexivity|]).
    clear -A7 B7 COMP B1 B2. revert B7. generalize (tff t2) as l2. induction A7 as [|a b l l' P A7 IH]; intros l2 B7; inversion B7; subst; constructor; eauto.
  Qed.
  Lemma series_refl t : ser t -> series_part part 0 0 (nx t) (ny t) t t.
  Proof using All.
    intro S. unfold series_part. cbn [skipn]. rewrite !firstn_all. split; [lia|]. split; [lia|]. do 4 (split; [reflexivity|]).
    unfold ser in S. revert S. generalize (tfg t) as g. generalize (tff t) as l. clear -REFL. induction l as [|a l IH]; intros g S; constructor.
    - destruct (S a (or_introl eq_refl)) as [W <-]. now apply REFL.
    - apply IH. intros f I. apply S. now right.
  Qed.
  Lemma part_sizes t t' x0 y0 n m : series_part part x0 y0 n m t t' -> nx t' = n /\ ny t' = m.
  Proof using All. intros (A & B & _ & _ & C & D & _). rewrite C, D, !part_len; auto. Qed.

  (** ** soft *)
  Lemma cum_row_iff t i : cum_row_ok (tf_mask_cum ops t) i = true <-> exists j, j < ny t /\ ~ always_masked ops t i j.
  Proof using All.
    unfold cum_row_ok. rewrite existsb_exists. cbn [d1 tf_mask_cum]. split.
    - intros (j & I & E). apply in_seq in I. apply negb_true_iff in E. apply cum_false in E. exists j. split; [lia|exact E].
    - intros (j & H & E). exists j. rewrite in_seq, negb_true_iff, cum_false. split; [lia|exact E].
  Qed.
  Lemma cum_col_iff t j : cum_col_ok (tf_mask_cum ops t) j = true <-> exists i, i < nx t /\ ~ always_masked ops t i j.
  Proof using All.
    unfold cum_col_ok. rewrite existsb_exists. cbn [d0 tf_mask_cum]. split.
    - intros (i & I & E). apply in_seq in I. apply negb_true_iff in E. apply cum_false in E. exists i. split; [lia|exact E].
    - intros (i & H & E). exists i. rewrite in_seq, negb_true_iff, cum_false. split; [lia|exact E].
  Qed.
  Lemma any_cum t : existsb (fun b => b) (flatten (tf_mask_cum ops t)) = true <-> exists i j, i < nx t /\ j < ny t /\ always_masked ops t i j.
  Proof using All.
    unfold flatten. rewrite existsb_exists. split.
    - intros (b & H & E). apply in_map_iff in H. destruct H as ([i j] & <- & H). apply in_aidx in H. apply cum_spec in E. exists i, j. cbn in *. tauto.
    - intros (i & j & H1 & H2 & E). exists true. split; [|reflexivity]. apply in_map_iff. exists (i, j). split; [now apply cum_spec|]. apply in_aidx. auto.
  Qed.
  Lemma window_ok l a b : a <= b -> 0 < b -> crop_window_ind l (zpair a b) = Ok (a, b).
  Proof using All.
    intros H P. unfold crop_window_ind, zpair. replace (Z.of_nat b <? Z.of_nat a)%Z with false by lia. replace ((Z.of_nat a <? 0)%Z || (Z.of_nat b =? 0)%Z)%bool with false by lia.
    cbn [guard]. now rewrite !Nat2Z.id.
  Qed.
  Lemma soft_series t : ser t -> (exists i j, i < nx t /\ j < ny t /\ always_masked ops t i j) ->
    (exists i j, 0 < i < nx t /\ j < ny t /\ ~ always_masked ops t i j) -> (exists i j, i < nx t /\ 0 < j < ny t /\ ~ always_masked ops t i j) ->
    exists t' x0 y0 n m, tf_crop_masked ops t false = Ok (Some t') /\ tf_crop_border ops t = Ok t' /\ ser t' /\ series_part part x0 y0 n m t t' /\ 0 < n /\ 0 < m /\
      (forall i j, i < nx t -> j < ny t -> ~ always_masked ops t i j -> x0 <= i < x0 + n /\ y0 <= j < y0 + m) /\
      (exists j, j < m /\ ~ always_masked ops t' 0 j) /\ (exists j, j < m /\ ~ always_masked ops t' (n - 1) j) /\
      (exists i, i < n /\ ~ always_masked ops t' i 0) /\ (exists i, i < n /\ ~ always_masked ops t' i (m - 1)).
  Proof using All.
    intros S A (ia & ja & Hia & Hja & Ea) (ib & jb & Hib & Hjb & Eb).
    unfold tf_crop_masked, tf_crop_border. rewrite (proj2 (any_cum t) A). cbn [negb]. change (d0 (tf_mask_cum ops t)) with (nx t). change (d1 (tf_mask_cum ops t)) with (ny t).
    set (ro := cum_row_ok (tf_mask_cum ops t)). set (co := cum_col_ok (tf_mask_cum ops t)).
    assert (RA : ro ia = true) by (apply cum_row_iff; eauto). assert (CB : co jb = true) by (apply cum_col_iff; eauto).
    destruct (first_ok_some ro (nx t) ia) as [x0 Ex0]; [lia|exact RA|]. destruct (last_ok_some ro (nx t) ia) as [x1 Ex1]; [lia|exact RA|].
    destruct (first_ok_some co (ny t) jb) as [y0 Ey0]; [lia|exact CB|]. destruct (last_ok_some co (ny t) jb) as [y1 Ey1]; [lia|exact CB|].
    rewrite Ex0, Ex1, Ey0, Ey1. apply find_seq_first in Ex0, Ey0. apply find_seq_last in Ex1, Ey1.
    destruct Ex0 as (X1 & X2 & X3), Ex1 as (X4 & X5 & X6), Ey0 as (Y1 & Y2 & Y3), Ey1 as (Y4 & Y5 & Y6).
    assert (Range : forall i j, i < nx t -> j < ny t -> ~ always_masked ops t i j -> x0 <= i <= x1 /\ y0 <= j <= y1).
    { intros i j Hi Hj Em. assert (Rk : ro i = true) by (apply cum_row_iff; eauto). assert (Ck : co j = true) by (apply cum_col_iff; eauto).
      repeat split.
      - destruct (le_lt_dec x0 i) as [|L]; [assumption|]. rewrite (X3 i L) in Rk. discriminate.
      - destruct (le_lt_dec i x1) as [|L]; [assumption|]. rewrite (X6 i L ltac:(lia)) in Rk. discriminate.
      - destruct (le_lt_dec y0 j) as [|L]; [assumption|]. rewrite (Y3 j L) in Ck. discriminate.
      - destruct (le_lt_dec j y1) as [|L]; [assumption|]. rewrite (Y6 j L ltac:(lia)) in Ck. discriminate. }
    destruct (Range ia ja ltac:(lia) Hja Ea) as [B1 B2]. destruct (Range ib jb Hib ltac:(lia) Eb) as [B3 B4].
    destruct (cut_series t (zpair x0 x1) (zpair y0 y1) x0 x1 y0 y1 S) as (t' & E & S' & P); [apply window_ok; lia|apply window_ok; lia|lia|lia|].
    rewrite !Nat.min_l in P by lia. rewrite E. cbn [bind].
    exists t', x0, y0, (x1 + 1 - x0), (y1 + 1 - y0). split; [reflexivity|]. split; [reflexivity|]. split; [exact S'|]. split; [exact P|]. split; [lia|]. split; [lia|].
    split; [intros i j Hi Hj Em; destruct (Range i j Hi Hj Em); lia|].
    apply cum_row_iff in X1, X4. apply cum_col_iff in Y1, Y4.
    destruct X1 as (j1 & L1 & E1), X4 as (j2 & L2 & E2), Y1 as (i1 & L3 & E3), Y4 as (i2 & L4 & E4).
    destruct (Range x0 j1 ltac:(lia) ltac:(lia) E1) as [C1 C2]. destruct (Range x1 j2 ltac:(lia) ltac:(lia) E2) as [C3 C4].
    destruct (Range i1 y0 ltac:(lia) ltac:(lia) E3) as [C5 C6]. destruct (Range i2 y1 ltac:(lia) ltac:(lia) E4) as [C7 C8].
    repeat split.
    - exists (j1 - y0). split; [lia|]. rewrite (part_mask _ _ _ _ _ _ 0 (j1 - y0) P) by lia. replace (x0 + 0) with x0 by lia. now replace (y0 + (j1 - y0)) with j1 by lia.
    - exists (j2 - y0). split; [lia|]. rewrite (part_mask _ _ _ _ _ _ (x1 + 1 - x0 - 1) (j2 - y0) P) by lia. replace (x0 + (x1 + 1 - x0 - 1)) with x1 by lia. now replace (y0 + (j2 - y0)) with j2 by lia.
    - exists (i1 - x0). split; [lia|]. rewrite (part_mask _ _ _ _ _ _ (i1 - x0) 0 P) by lia. replace (y0 + 0) with y0 by lia. now replace (x0 + (i1 - x0)) with i1 by lia.
    - exists (i2 - x0). split; [lia|]. rewrite (part_mask _ _ _ _ _ _ (i2 - x0) (y1 + 1 - y0 - 1) P) by lia. replace (y0 + (y1 + 1 - y0 - 1)) with y1 by lia. now replace (x0 + (i2 - x0)) with i2 by lia.
  Qed.
  Lemma soft_nothing t : (forall i j, i < nx t -> j < ny t -> ~ always_masked ops t i j) -> tf_crop_masked ops t false = Ok None /\ tf_crop_masked ops t true = Ok None.
  Proof using All.
    intro H. unfold tf_crop_masked. replace (existsb _ _) with false; [split; reflexivity|]. symmetry. apply not_true_iff_false. rewrite any_cum.
    intros (i & j & Hi & Hj & A). now apply (H i j).
  Qed.

  (** ** hard *)
  Lemma count_zero l : count_true l = 0 -> forall b, In b l -> b = false.
  Proof using All. unfold count_true. induction l as [|[|] l IH]; cbn; intros H b I; [contradiction|discriminate|]. destruct I as [<-|I]; auto. Qed.
  Definition border_clear (t : tfield F) : Prop := 0 < nx t /\ 0 < ny t /\ forall i j, i < nx t -> j < ny t -> i = 0 \/ i = nx t - 1 \/ j = 0 \/ j = ny t - 1 -> ~ always_masked ops t i j.
  Lemma hard_step_none t : tf_hard_step ops t = Ok None -> border_clear t.
  Proof using All.
    unfold tf_hard_step. intro H. apply guard_ok in H. destruct H as [G H]. cbn [d0 d1 tf_mask_cum] in G. apply orb_false_iff in G. rewrite !Nat.eqb_neq in G.
    cbv zeta in H. cbn [d0 d1 tf_mask_cum] in H.
    assert (Z : cum_row (tf_mask_cum ops t) 0 = 0 /\ cum_row (tf_mask_cum ops t) (nx t - 1) = 0 /\ cum_col (tf_mask_cum ops t) 0 = 0 /\ cum_col (tf_mask_cum ops t) (ny t - 1) = 0).
    { set (b1 := cum_row (tf_mask_cum ops t) 0) in *. set (b2 := cum_row (tf_mask_cum ops t) (nx t - 1)) in *. set (b3 := cum_col (tf_mask_cum ops t) 0) in *. set (b4 := cum_col (tf_mask_cum ops t) (ny t - 1)) in *.
      assert (NB : forall ivx ivy, (let* t' := tf_crop_ind ops t ivx ivy None in Ok (Some t')) <> Ok None) by (intros ivx ivy X; destruct (tf_crop_ind ops t ivx ivy None); discriminate).
      clearbody b1 b2 b3 b4. unfold argmax4 in H. destruct (Nat.leb_spec b2 b1), (Nat.leb_spec b3 b1), (Nat.leb_spec b4 b1), (Nat.leb_spec b3 b2), (Nat.leb_spec b4 b2), (Nat.leb_spec b4 b3);
        cbn [andb] in H;
        match type of H with context [if Nat.eqb ?b 0 then _ else _] => destruct (Nat.eqb_spec b 0); [lia|exfalso; exact (NB _ _ H)] end. }
    destruct Z as (Z1 & Z2 & Z3 & Z4).
    assert (R : forall i j, cum_row (tf_mask_cum ops t) i = 0 -> j < ny t -> ~ always_masked ops t i j).
    { intros i j Z Hj A. apply cum_spec in A. assert (K := count_zero _ Z true). discriminate K. apply in_map_iff. exists j. split; [exact A|]. apply in_seq. cbn. lia. }
    assert (C : forall i j, cum_col (tf_mask_cum ops t) j = 0 -> i < nx t -> ~ always_masked ops t i j).
    { intros i j Z Hj A. apply cum_spec in A. assert (K := count_zero _ Z true). discriminate K. apply in_map_iff. exists i. split; [exact A|]. apply in_seq. cbn. lia. }
    split; [lia|]. split; [lia|]. intros i j Hi Hj [-> | [-> | [-> | -> ]]]; auto.
  Qed.
  (** the columns and the lines removed have a cell masked in every frame *)
  Definition needed (t : tfield F) (x0 y0 n m : nat) : Prop :=
    (forall i, i < nx t -> i < x0 \/ x0 + n <= i -> exists j, j < ny t /\ always_masked ops t i j) /\
    (forall j, j < ny t -> j < y0 \/ y0 + m <= j -> exists i, i < nx t /\ always_masked ops t i j).
  Lemma needed_trans t t1 x0 y0 n m x1 y1 n' m' : series_part part x0 y0 n m t t1 -> needed t x0 y0 n m -> needed t1 x1 y1 n' m' -> needed t (x0 + x1) (y0 + y1) n' m'.
  Proof using All.
    intros P [A1 A2] [B1 B2]. destruct (part_sizes _ _ _ _ _ _ P) as [Sx Sy]. pose proof P as (L1 & L2 & _). split; intros i Hi O.
    - destruct (Nat.lt_ge_cases i x0) as [Q|Q]; [apply A1; auto|]. destruct (Nat.lt_ge_cases i (x0 + n)) as [Q2|Q2]; [|apply A1; auto].
      destruct (B1 (i - x0)) as (j & Hj & M); [lia|lia|]. apply (part_mask _ _ _ _ _ _ _ _ P) in M; [|lia|lia]. exists (y0 + j). split; [lia|]. now replace (x0 + (i - x0)) with i in M by lia.
    - destruct (Nat.lt_ge_cases i y0) as [Q|Q]; [apply A2; auto|]. destruct (Nat.lt_ge_cases i (y0 + m)) as [Q2|Q2]; [|apply A2; auto].
      destruct (B2 (i - y0)) as (j & Hj & M); [lia|lia|]. apply (part_mask _ _ _ _ _ _ _ _ P) in M; [|lia|lia]. exists (x0 + j). split; [lia|]. now replace (y0 + (i - y0)) with i in M by lia.
  Qed.
  Lemma needed_refl t : needed t 0 0 (nx t) (ny t).
  Proof using All. split; intros; lia. Qed.
  Lemma count_pos l : count_true l <> 0 -> In true l.
  Proof using All. unfold count_true. induction l as [|[|] l IH]; cbn; intro H; [congruence|now left|right; auto]. Qed.
  Lemma row_masked t i : cum_row (tf_mask_cum ops t) i <> 0 -> exists j, j < ny t /\ always_masked ops t i j.
  Proof using All. intro H. apply count_pos in H. apply in_map_iff in H. destruct H as (j & E & I). apply in_seq in I. cbn [tf_mask_cum d1] in I. exists j. split; [lia|now apply cum_spec]. Qed.
  Lemma col_masked t j : cum_col (tf_mask_cum ops t) j <> 0 -> exists i, i < nx t /\ always_masked ops t i j.
  Proof using All. intro H. apply count_pos in H. apply in_map_iff in H. destruct H as (i & E & I). apply in_seq in I. cbn [tf_mask_cum d0] in I. exists i. split; [lia|now apply cum_spec]. Qed.
  Lemma hard_step_some t t' : ser t -> tf_hard_step ops t = Ok (Some t') -> ser t' /\ exists x0 y0 n m, series_part part x0 y0 n m t t' /\ n + m < nx t + ny t /\ needed t x0 y0 n m.
  Proof using All.
    unfold tf_hard_step. intros S H. apply guard_ok in H. destruct H as [G H]. cbn [d0 d1 tf_mask_cum] in G. apply orb_false_iff in G. rewrite !Nat.eqb_neq in G.
    assert (Gen : forall ivx ivy x0 x1 y0 y1, crop_window_ind (ax (tfg t)) ivx = Ok (x0, x1) -> crop_window_ind (ay (tfg t)) ivy = Ok (y0, y1) -> x0 <= nx t -> y0 <= ny t ->
      Nat.min (x1 + 1) (nx t) - x0 + (Nat.min (y1 + 1) (ny t) - y0) < nx t + ny t -> needed t x0 y0 (Nat.min (x1 + 1) (nx t) - x0) (Nat.min (y1 + 1) (ny t) - y0) -> (let* t' := tf_crop_ind ops t ivx ivy None in Ok (Some t')) = Ok (Some t') ->
      ser t' /\ exists x0 y0 n m, series_part part x0 y0 n m t t' /\ n + m < nx t + ny t /\ needed t x0 y0 n m).
    { intros ivx ivy x0 x1 y0 y1 Ex Ey Lx Ly Sm ND E. destruct (cut_series t ivx ivy x0 x1 y0 y1 S Ex Ey Lx Ly) as (t2 & E2 & S2 & P). rewrite E2 in E. cbn [bind] in E. injection E as <-.
      split; [exact S2|]. do 4 eexists. split; [exact P|]. split; [exact Sm|exact ND]. }
    assert (Win : forall ivx ivy, (let* t' := tf_crop_ind ops t ivx ivy None in Ok (Some t')) = Ok (Some t') -> exists x0 x1 y0 y1, crop_window_ind (ax (tfg t)) ivx = Ok (x0, x1) /\ crop_window_ind (ay (tfg t)) ivy = Ok (y0, y1)).
    { intros ivx ivy E. unfold tf_crop_ind, grid_crop_ind in E. destruct (crop_window_ind (ax (tfg t)) ivx) as [[x0 x1]|]; [|discriminate]. destruct (crop_window_ind (ay (tfg t)) ivy) as [[y0 y1]|]; [|discriminate].
      now exists x0, x1, y0, y1. }
    cbv zeta in H. destruct (argmax4 _ _ _ _) as [|[|[|k]]];
      match type of H with (if Nat.eqb ?b 0 then _ else _) = _ => destruct (Nat.eqb_spec b 0) as [|NZ]; [discriminate|] end;
      destruct (Win _ _ H) as (x0 & x1 & y0 & y1 & Ex & Ey); pose proof (crop_ind_none_len _ _ _ _ Ex) as Kx; pose proof (crop_ind_none_len _ _ _ _ Ey) as Ky; cbn beta iota in Kx, Ky;
      (apply (Gen _ _ x0 x1 y0 y1 Ex Ey); [lia|lia|lia| |exact H]); split; intros i Hi O; try (exfalso; lia); try (apply row_masked in NZ); try (apply col_masked in NZ); cbn [tf_mask_cum d0 d1] in NZ;
      match type of NZ with exists k, _ /\ always_masked ops t ?a k => replace i with a by lia; exact NZ | exists k, _ /\ always_masked ops t k ?a => replace i with a by lia; exact NZ end.
  Qed.
  Lemma hard_step_fuel t : ser t -> tf_hard_step ops t <> Err OutOfFuel.
  Proof using All.
    intros S. unfold tf_hard_step. destruct (_ || _)%bool; cbn [guard]; [discriminate|]. cbv zeta.
    assert (Gen : forall ivx ivy, (forall x0 x1 y0 y1, crop_window_ind (ax (tfg t)) ivx = Ok (x0, x1) -> crop_window_ind (ay (tfg t)) ivy = Ok (y0, y1) -> True) -> (let* t' := tf_crop_ind ops t ivx ivy None in Ok (Some t')) <> Err OutOfFuel).
    { intros ivx ivy _ E. unfold tf_crop_ind, grid_crop_ind in E.
      destruct (crop_window_ind (ax (tfg t)) ivx) as [[x0 x1]|e] eqn:Ex; [|cbn in E; injection E as ->; unfold crop_window_ind in Ex; destruct (match ivx with None => _ | Some p => p end); repeat (match type of Ex with context [guard ?b _ _] => destruct b end; cbn [guard] in Ex; try discriminate)].
      destruct (crop_window_ind (ay (tfg t)) ivy) as [[y0 y1]|e] eqn:Ey; [|cbn in E; injection E as ->; unfold crop_window_ind in Ey; destruct (match ivy with None => _ | Some p => p end); repeat (match type of Ey with context [guard ?b _ _] => destruct b end; cbn [guard] in Ey; try discriminate)].
      cbn [bind] in E.
      destruct (mapM_forall2_ex (fun f => o_cropi ops f ivx ivy) (fun _ _ => True) (tff t)) as (fs & E2 & _).
      { intros f If. destruct (S f If) as [W G]. destruct (CUT f ivx ivy x0 x1 y0 y1 W) as (f' & E2 & _); [now rewrite G|now rewrite G|]. exists f'. auto. }
      rewrite E2 in E. discriminate. }
    destruct (argmax4 _ _ _ _) as [|[|[|k]]]; match goal with |- (if ?b then _ else _) <> _ => destruct b; [discriminate|] end; apply Gen; auto.
  Qed.
  Lemma hard_loop_series fuel : forall t, ser t -> nx t + ny t < fuel ->
    tf_hard_loop ops fuel t <> Err OutOfFuel /\
    forall t', tf_hard_loop ops fuel t = Ok t' -> border_clear t' /\ exists x0 y0 n m, series_part part x0 y0 n m t t' /\ needed t x0 y0 n m.
  Proof using All.
    induction fuel as [|fuel IH]; intros t S L; [lia|]. cbn [tf_hard_loop]. destruct (tf_hard_step ops t) as [[t1|]|e] eqn:E; cbn [bind].
    - destruct (hard_step_some t t1 S E) as (S1 & x0 & y0 & n & m & P & Sm & ND). destruct (part_sizes _ _ _ _ _ _ P) as [Sx Sy].
      destruct (IH t1 S1 ltac:(lia)) as [A B]. split; [exact A|]. intros t' Et. destruct (B t' Et) as (C & x1 & y1 & n' & m' & P' & ND'). split; [exact C|].
      exists (x0 + x1), (y0 + y1), n', m'. split; [exact (series_trans _ _ _ _ _ _ _ _ _ _ _ P P')|exact (needed_trans _ _ _ _ _ _ _ _ _ _ P ND ND')].
    - split; [discriminate|]. intros t' [= <-]. split; [now apply hard_step_none|]. exists 0, 0, (nx t), (ny t). split; [now apply series_refl|apply needed_refl].
    - split; [|discriminate]. intros [= ->]. now apply (hard_step_fuel t S).
  Qed.
  Lemma crop_border_cases t : ser t -> tf_crop_border ops t <> Err OutOfFuel /\ forall t1, tf_crop_border ops t = Ok t1 -> ser t1 /\ exists x0 y0 n m, series_part part x0 y0 n m t t1 /\ needed t x0 y0 n m.
  Proof using All.
    intro S. unfold tf_crop_border. destruct (negb _); [split; [discriminate|intros t1 [= <-]; split; [exact S|]; exists 0, 0, (nx t), (ny t); split; [now apply series_refl|apply needed_refl]]|].
    assert (Same : (@Ok (tfield F) t) <> Err OutOfFuel /\ forall t1, Ok t = Ok t1 -> ser t1 /\ exists x0 y0 n m, series_part part x0 y0 n m t t1 /\ needed t x0 y0 n m).
    { split; [discriminate|]. intros t1 [= <-]. split; [exact S|]. exists 0, 0, (nx t), (ny t). split; [now apply series_refl|apply needed_refl]. }
    destruct (first_ok _ _) as [x0|] eqn:Ex0; [|exact Same]. destruct (last_ok (cum_row_ok _) _) as [x1|] eqn:Ex1; [|exact Same].
    destruct (first_ok (cum_col_ok _) _) as [y0|] eqn:Ey0; [|exact Same]. destruct (last_ok (cum_col_ok _) _) as [y1|] eqn:Ey1; [|exact Same].
    apply find_seq_first in Ex0, Ey0. apply find_seq_last in Ex1, Ey1. cbn [tf_mask_cum d0 d1] in *.
    destruct Ex0 as (Xo & X & X'), Ey0 as (Yo & Y & Y'). destruct Ex1 as (_ & _ & X2), Ey1 as (_ & _ & Y2).
    apply cum_row_iff in Xo. destruct Xo as (jo & Lo & _). apply cum_col_iff in Yo. destruct Yo as (io & Li & _).
    destruct (crop_window_ind (ax (tfg t)) (zpair x0 x1)) as [[a b]|e] eqn:Ex.
    2:{ assert (e <> OutOfFuel) by (intros ->; unfold crop_window_ind, zpair in Ex; repeat (match type of Ex with context [guard ?b _ _] => destruct b end; cbn [guard] in Ex; try discriminate)).
        unfold tf_crop_ind, grid_crop_ind. rewrite Ex. cbn [bind]. split; [congruence|discriminate]. }
    destruct (crop_window_ind (ay (tfg t)) (zpair y0 y1)) as [[c d]|e] eqn:Ey.
    2:{ assert (e <> OutOfFuel) by (intros ->; unfold crop_window_ind, zpair in Ey; repeat (match type of Ey with context [guard ?b _ _] => destruct b end; cbn [guard] in Ey; try discriminate)).
        unfold tf_crop_ind, grid_crop_ind. rewrite Ex, Ey. cbn [bind]. split; [congruence|discriminate]. }
    pose proof (crop_ind_none_len _ _ _ _ Ex) as Kx. pose proof (crop_ind_none_len _ _ _ _ Ey) as Ky. cbn beta iota in Kx, Ky. unfold zpair in Kx, Ky.
    destruct (cut_series t _ _ a b c d S Ex Ey ltac:(lia) ltac:(lia)) as (t2 & E2 & S2 & P). rewrite E2. split; [discriminate|]. intros t1 [= <-]. split; [exact S2|]. do 4 eexists. split; [exact P|].
    split; intros i Hi O.
    - exists jo. split; [exact Lo|]. apply cum_spec. assert (Q : cum_row_ok (tf_mask_cum ops t) i = false) by (destruct O; [apply X'|apply X2]; lia). destruct (at_ (tf_mask_cum ops t) i jo) eqn:Ea; [reflexivity|]. exfalso. apply cum_false in Ea. assert (K : cum_row_ok (tf_mask_cum ops t) i = true) by (apply cum_row_iff; exists jo; auto). congruence.
    - exists io. split; [exact Li|]. apply cum_spec. assert (Q : cum_col_ok (tf_mask_cum ops t) i = false) by (destruct O; [apply Y'|apply Y2]; lia). destruct (at_ (tf_mask_cum ops t) io i) eqn:Ea; [reflexivity|]. exfalso. apply cum_false in Ea. assert (K : cum_col_ok (tf_mask_cum ops t) i = true) by (apply cum_col_iff; exists io; auto). congruence.
  Qed.
  Lemma hard_series t : ser t -> tf_crop_masked ops t true <> Err OutOfFuel /\
    forall t', tf_crop_masked ops t true = Ok (Some t') -> exists x0 y0 n m, series_part part x0 y0 n m t t' /\
      (forall i, i < length (ax (tfg t)) -> i < x0 \/ x0 + n <= i -> exists j, j < length (ay (tfg t)) /\ always_masked ops t i j) /\
      (forall j, j < length (ay (tfg t)) -> j < y0 \/ y0 + m <= j -> exists i, i < length (ax (tfg t)) /\ always_masked ops t i j) /\ 0 < n /\ 0 < m /\
      forall i j, i < n -> j < m -> i = 0 \/ i = n - 1 \/ j = 0 \/ j = m - 1 -> ~ always_masked ops t' i j.
  Proof using All.
    intro S. unfold tf_crop_masked. destruct (negb _); [split; discriminate|]. destruct (crop_border_cases t S) as [A B].
    destruct (tf_crop_border ops t) as [t1|e]; cbn [bind]; [|split; [congruence|discriminate]]. destruct (B t1 eq_refl) as (S1 & x0 & y0 & n & m & P & ND).
    destruct (hard_loop_series (Datatypes.S (nx t1 + ny t1)) t1 S1 ltac:(lia)) as [C D].
    destruct (tf_hard_loop _ _ _) as [t2|e]; cbn [bind]; [|split; [congruence|discriminate]]. split; [discriminate|]. intros t' [= <-].
    destruct (D t2 eq_refl) as ((Px & Py & Q) & x1 & y1 & n' & m' & P' & ND'). assert (ND2 := needed_trans _ _ _ _ _ _ _ _ _ _ P ND ND'). assert (P2 := series_trans _ _ _ _ _ _ _ _ _ _ _ P P').
    destruct (part_sizes _ _ _ _ _ _ P2) as [Sx Sy]. rewrite Sx, Sy in *. exists (x0 + x1), (y0 + y1), n', m'. destruct ND2 as [N1 N2]. split; [exact P2|]. split; [exact N1|]. split; [exact N2|]. auto.
  Qed.
End Crop.

(** ** scalar and vector series *)
Lemma sf_cut f ivx ivy x0 x1 y0 y1 : sf_wf f -> crop_window_ind (ax (o_grid sf_ops f)) ivx = Ok (x0, x1) -> crop_window_ind (ay (o_grid sf_ops f)) ivy = Ok (y0, y1) ->
  exists f', o_cropi sf_ops f ivx ivy = Ok f' /\ sf_part x0 y0 (Nat.min (x1 + 1) (length (ax (o_grid sf_ops f))) - x0) (Nat.min (y1 + 1) (length (ay (o_grid sf_ops f))) - y0) f f' /\ sf_wf f' /\
    o_grid sf_ops f' = grid_crop_to (o_grid sf_ops f) ((x0, x1), (y0, y1)).
Proof.
  cbn [o_grid o_cropi sf_ops]. intros ((R0 & R1) & (M0 & M1)) Ex Ey. unfold sf_crop_ind, grid_crop_ind. rewrite Ex, Ey. cbn [bind]. eexists. split; [reflexivity|].
  assert (W : sf_wf (sf_crop_to f (x0, x1, (y0, y1)) (grid_crop_to (sg f) (x0, x1, (y0, y1))))).
  { unfold sf_wf, has_shape. cbn [sg ax ay raw msk aslice d0 d1 values sf_crop_to grid_crop_to]. rewrite !slice_length, R0, R1, M0, M1. auto. }
  split; [|split; [exact W|reflexivity]]. unfold sf_part. cbn [sg ax ay ux uy uv sf_crop_to grid_crop_to]. do 2 (split; [apply slice_part|]). do 3 (split; [reflexivity|]). split; [exact W|].
  intros i j _ _. cbn [values at_ aslice msk raw]. split; [|reflexivity]. now destruct (at_ (msk f) (x0 + i) (y0 + j)).
Qed.
Lemma sf_part_mask x0 y0 n m f f' i j : sf_part x0 y0 n m f f' -> i < n -> j < m -> at_ (o_mask sf_ops f') i j = at_ (o_mask sf_ops f) (x0 + i) (y0 + j).
Proof. intros (_ & _ & _ & _ & _ & _ & H) Hi Hj. now apply H. Qed.
Lemma sf_part_comp x0 y0 n m x1 y1 n' m' f g h : sf_part x0 y0 n m f g -> sf_part x1 y1 n' m' g h -> x1 + n' <= n -> y1 + m' <= m -> sf_part (x0 + x1) (y0 + y1) n' m' f h.
Proof.
  intros (A1 & A2 & A3 & A4 & A5 & A6 & A7) (B1 & B2 & B3 & B4 & B5 & B6 & B7) Hx Hy. unfold sf_part. rewrite B1, B2, B3, B4, B5, A1, A2, A3, A4, A5, !part_part by assumption.
  do 5 (split; [reflexivity|]). split; [exact B6|]. intros i j Hi Hj. destruct (B7 i j Hi Hj) as [U V]. destruct (A7 (x1 + i) (y1 + j) ltac:(lia) ltac:(lia)) as [U' V'].
  rewrite U, V, U', V', !Nat.add_assoc. auto.
Qed.
Lemma sf_part_refl f : sf_wf f -> sf_part 0 0 (length (ax (o_grid sf_ops f))) (length (ay (o_grid sf_ops f))) f f.
Proof. intro W. unfold sf_part. cbn [o_grid sf_ops skipn]. rewrite !firstn_all. repeat split; try apply W. Qed.
Lemma vf_cut f ivx ivy x0 x1 y0 y1 : vf_wf f -> crop_window_ind (ax (o_grid vf_ops f)) ivx = Ok (x0, x1) -> crop_window_ind (ay (o_grid vf_ops f)) ivy = Ok (y0, y1) ->
  exists f', o_cropi vf_ops f ivx ivy = Ok f' /\ vf_part x0 y0 (Nat.min (x1 + 1) (length (ax (o_grid vf_ops f))) - x0) (Nat.min (y1 + 1) (length (ay (o_grid vf_ops f))) - y0) f f' /\ vf_wf f' /\
    o_grid vf_ops f' = grid_crop_to (o_grid vf_ops f) ((x0, x1), (y0, y1)).
Proof.
  cbn [o_grid o_cropi vf_ops]. intros ((X0 & X1) & (Y0 & Y1) & (M0 & M1)) Ex Ey. unfold vf_crop_ind, grid_crop_ind. rewrite Ex, Ey. cbn [bind]. eexists. split; [reflexivity|].
  assert (W : vf_wf (vf_crop_to f (x0, x1, (y0, y1)) (grid_crop_to (vg f) (x0, x1, (y0, y1))))).
  { unfold vf_wf, has_shape. cbn [vg ax ay cx cy vmsk aslice d0 d1 vf_crop_to grid_crop_to]. rewrite !slice_length, X0, X1, Y0, Y1, M0, M1. auto. }
  split; [|split; [exact W|reflexivity]]. unfold vf_part. cbn [vg ax ay ux uy vuv vf_crop_to grid_crop_to]. do 2 (split; [apply slice_part|]). do 3 (split; [reflexivity|]). split; [exact W|].
  intros i j _ _. repeat split.
Qed.
Lemma vf_part_mask x0 y0 n m f f' i j : vf_part x0 y0 n m f f' -> i < n -> j < m -> at_ (o_mask vf_ops f') i j = at_ (o_mask vf_ops f) (x0 + i) (y0 + j).
Proof. intros (_ & _ & _ & _ & _ & _ & H) Hi Hj. now apply H. Qed.
Lemma vf_part_comp x0 y0 n m x1 y1 n' m' f g h : vf_part x0 y0 n m f g -> vf_part x1 y1 n' m' g h -> x1 + n' <= n -> y1 + m' <= m -> vf_part (x0 + x1) (y0 + y1) n' m' f h.
Proof.
  intros (A1 & A2 & A3 & A4 & A5 & A6 & A7) (B1 & B2 & B3 & B4 & B5 & B6 & B7) Hx Hy. unfold vf_part. rewrite B1, B2, B3, B4, B5, A1, A2, A3, A4, A5, !part_part by assumption.
  do 5 (split; [reflexivity|]). split; [exact B6|]. intros i j Hi Hj. destruct (B7 i j Hi Hj) as (U & V & T). destruct (A7 (x1 + i) (y1 + j) ltac:(lia) ltac:(lia)) as (U' & V' & T').
  rewrite U, V, T, U', V', T', !Nat.add_assoc. auto.
Qed.
Lemma vf_part_refl f : vf_wf f -> vf_part 0 0 (length (ax (o_grid vf_ops f))) (length (ay (o_grid vf_ops f))) f f.
Proof. intro W. unfold vf_part. cbn [o_grid vf_ops skipn]. rewrite !firstn_all. repeat split; try apply W. Qed.

Lemma sf_soft t : (forall f, In f (tff t) -> sf_wf f /\ o_grid sf_ops f = tfg t) -> (exists i j, i < length (ax (tfg t)) /\ j < length (ay (tfg t)) /\ always_masked sf_ops t i j) ->
  (exists i j, 0 < i < length (ax (tfg t)) /\ j < length (ay (tfg t)) /\ ~ always_masked sf_ops t i j) ->
  (exists i j, i < length (ax (tfg t)) /\ 0 < j < length (ay (tfg t)) /\ ~ always_masked sf_ops t i j) ->
  exists t' x0 y0 n m, tf_crop_masked sf_ops t false = Ok (Some t') /\ series_part sf_part x0 y0 n m t t' /\ 0 < n /\ 0 < m /\
    (forall i j, i < length (ax (tfg t)) -> j < length (ay (tfg t)) -> ~ always_masked sf_ops t i j -> x0 <= i < x0 + n /\ y0 <= j < y0 + m) /\
    (exists j, j < m /\ ~ always_masked sf_ops t' 0 j) /\ (exists j, j < m /\ ~ always_masked sf_ops t' (n - 1) j) /\
    (exists i, i < n /\ ~ always_masked sf_ops t' i 0) /\ (exists i, i < n /\ ~ always_masked sf_ops t' i (m - 1)).
Proof.
  intros S A B C. destruct (soft_series sf_ops sf_part sf_wf sf_cut sf_part_mask sf_part_comp sf_part_refl t S A B C) as (t' & x0 & y0 & n & m & H). exists t', x0, y0, n, m. tauto.
Qed.
Lemma sf_hard t : (forall f, In f (tff t) -> sf_wf f /\ o_grid sf_ops f = tfg t) -> tf_crop_masked sf_ops t true <> Err OutOfFuel /\
  forall t', tf_crop_masked sf_ops t true = Ok (Some t') -> exists x0 y0 n m, series_part sf_part x0 y0 n m t t' /\
      (forall i, i < length (ax (tfg t)) -> i < x0 \/ x0 + n <= i -> exists j, j < length (ay (tfg t)) /\ always_masked sf_ops t i j) /\
      (forall j, j < length (ay (tfg t)) -> j < y0 \/ y0 + m <= j -> exists i, i < length (ax (tfg t)) /\ always_masked sf_ops t i j) /\ 0 < n /\ 0 < m /\
    forall i j, i < n -> j < m -> i = 0 \/ i = n - 1 \/ j = 0 \/ j = m - 1 -> ~ always_masked sf_ops t' i j.
Proof. exact (hard_series sf_ops sf_part sf_wf sf_cut sf_part_mask sf_part_comp sf_part_refl t). Qed.
Lemma vf_soft t : (forall f, In f (tff t) -> vf_wf f /\ o_grid vf_ops f = tfg t) -> (exists i j, i < length (ax (tfg t)) /\ j < length (ay (tfg t)) /\ always_masked vf_ops t i j) ->
  (exists i j, 0 < i < length (ax (tfg t)) /\ j < length (ay (tfg t)) /\ ~ always_masked vf_ops t i j) ->
  (exists i j, i < length (ax (tfg t)) /\ 0 < j < length (ay (tfg t)) /\ ~ always_masked vf_ops t i j) ->
  exists t' x0 y0 n m, tf_crop_masked vf_ops t false = Ok (Some t') /\ series_part vf_part x0 y0 n m t t' /\ 0 < n /\ 0 < m /\
    (forall i j, i < length (ax (tfg t)) -> j < length (ay (tfg t)) -> ~ always_masked vf_ops t i j -> x0 <= i < x0 + n /\ y0 <= j < y0 + m) /\
    (exists j, j < m /\ ~ always_masked vf_ops t' 0 j) /\ (exists j, j < m /\ ~ always_masked vf_ops t' (n - 1) j) /\
    (exists i, i < n /\ ~ always_masked vf_ops t' i 0) /\ (exists i, i < n /\ ~ always_masked vf_ops t' i (m - 1)).
Proof.
  intros S A B C. destruct (soft_series vf_ops vf_part vf_wf vf_cut vf_part_mask vf_part_comp vf_part_refl t S A B C) as (t' & x0 & y0 & n & m & H). exists t', x0, y0, n, m. tauto.
Qed.
Lemma vf_hard t : (forall f, In f (tff t) -> vf_wf f /\ o_grid vf_ops f = tfg t) -> tf_crop_masked vf_ops t true <> Err OutOfFuel /\
  forall t', tf_crop_masked vf_ops t true = Ok (Some t') -> exists x0 y0 n m, series_part vf_part x0 y0 n m t t' /\
      (forall i, i < length (ax (tfg t)) -> i < x0 \/ x0 + n <= i -> exists j, j < length (ay (tfg t)) /\ always_masked vf_ops t i j) /\
      (forall j, j < length (ay (tfg t)) -> j < y0 \/ y0 + m <= j -> exists i, i < length (ax (tfg t)) /\ always_masked vf_ops t i j) /\ 0 < n /\ 0 < m /\
    forall i j, i < n -> j < m -> i = 0 \/ i = n - 1 \/ j = 0 \/ j = m - 1 -> ~ always_masked vf_ops t' i j.
Proof. exact (hard_series vf_ops vf_part vf_wf vf_cut vf_part_mask vf_part_comp vf_part_refl t). Qed.
Lemma crop_nothing {F} (ops : fops F) t : (forall i j, i < length (ax (tfg t)) -> j < length (ay (tfg t)) -> ~ always_masked ops t i j) ->
  tf_crop_masked ops t false = Ok None /\ tf_crop_masked ops t true = Ok None.
Proof.
  intro H. apply (soft_nothing ops (fun _ _ _ _ _ _ => False) (fun _ => False)); try tauto.
Qed.
