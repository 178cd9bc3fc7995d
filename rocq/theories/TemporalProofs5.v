(** * TemporalProofs5: average of a series *)
From Verif Require Import Num Res ListLib SortLib Arr FieldModel ScalarFieldModel VectorFieldModel ProfileModel FieldSpec SeqSpec
  FieldProofs RotateProofs FieldProofs2 ScalarProofs FieldProofs3 PointsModel PointsSpec PointsProofs5 PointsProofs6 ProfileProofs3 TemporalModel TemporalSpec
  TemporalProofs TemporalProofs2 TemporalProofs3.
From Coq Require Import Lia.

(** value of a frame at a cell, 0 where masked *)
Definition zval (f : sfield) (i j : nat) : num := match at_ (values f) i j with Some v => v | None => 0%num end.
Lemma clean_cell f i j : sf_clean f -> i < length (ax (sg f)) -> j < length (ay (sg f)) -> (at_ (values f) i j = None <-> at_ (msk f) i j = true).
Proof.
  intros C Hi Hj. apply (C (nths (ax (sg f)) i) (nths (ay (sg f)) j)). exists i, j.
  split; [now apply nths_nth_error|]. split; [now apply nths_nth_error|]. split; reflexivity.
Qed.
Lemma shape_is_true {A} (a : arr A) g : d0 a = length (ax g) -> d1 a = length (ay g) -> shape_is a g = true.
Proof. intros E0 E1. unfold shape_is. rewrite E0, E1, !Nat.eqb_refl. reflexivity. Qed.
Lemma sf_fill0_lemma f : sf_wf f -> sf_clean f ->
  exists a, sf_fill_value f 0%num = Ok a /\ sg a = sg f /\ uv a = uv f /\ sf_wf a /\
    forall i j, i < length (ax (sg f)) -> j < length (ay (sg f)) -> at_ (values a) i j = Some (zval f i j) /\ at_ (msk a) i j = false.
Proof.
  intros [[R0 R1] [M0 M1]] C. unfold sf_fill_value, set_values.
  rewrite shape_is_true by (cbn; assumption). cbn [bind]. unfold set_mask_bool, set_mask. cbn [sg].
  rewrite shape_is_true by reflexivity. eexists. split; [reflexivity|]. cbn [sg uv raw]. split; [reflexivity|]. split; [reflexivity|].
  split; [repeat split; cbn; assumption|]. intros i j Hi Hj. cbn. split; [|reflexivity].
  pose proof (clean_cell f i j C Hi Hj) as K. unfold zval. cbn in K |- *. destruct (at_ (msk f) i j) eqn:E; [reflexivity|].
  destruct (at_ (raw f) i j) eqn:E2; [reflexivity|]. destruct K as [K _]. discriminate (K eq_refl).
Qed.
Lemma conv_ok u w : good_unit w -> dim u = dim w -> exists k, conv u w = Ok k /\ (k * sc w = sc u)%num.
Proof. intros G D. destruct (conv_spec u w G) as [H _]. auto. Qed.
Lemma sf_add_cells f h : sg h = sg f -> dim (uv f) = dim (uv h) -> good_unit (uv f) -> sf_wf f ->
  exists s k, sf_add f h = Ok s /\ (k * sc (uv f) = sc (uv h))%num /\ sg s = sg f /\ uv s = uv f /\ sf_wf s /\
    forall i j, at_ (raw s) i j = oadd (at_ (values f) i j) (oscale k (at_ (values h) i j)) /\ at_ (msk s) i j = orb (at_ (msk f) i j) (at_ (msk h) i j).
Proof.
  intros E D G [[R0 R1] [M0 M1]]. unfold sf_add. rewrite compat_guard by (repeat split; congruence). cbn [guard].
  destruct (conv_ok (uv h) (uv f) G (eq_sym D)) as (k & Ek & Hk). rewrite Ek, E. cbn [bind]. rewrite !list_eqb_refl. cbn [andb].
  eexists; exists k. split; [reflexivity|]. split; [exact Hk|]. split; [reflexivity|]. split; [reflexivity|]. split; [repeat split; cbn; assumption|].
  intros i j. split; reflexivity.
Qed.
Lemma sum_filled_lemma l : forall g acc (A : nat -> nat -> num),
  sg acc = g -> good_unit (uv acc) -> sf_wf acc ->
  (forall i j, i < length (ax g) -> j < length (ay g) -> at_ (values acc) i j = Some (A i j) /\ at_ (msk acc) i j = false) ->
  (forall f, In f l -> sg f = g /\ sf_wf f /\ sf_clean f /\ dim (uv acc) = dim (uv f)) ->
  exists s, sum_filled sf_ops acc l = Ok s /\ sg s = g /\ uv s = uv acc /\ sf_wf s /\
    forall i j, i < length (ax g) -> j < length (ay g) -> exists v, at_ (values s) i j = Some v /\ at_ (msk s) i j = false /\
      (v * sc (uv acc) = A i j * sc (uv acc) + total (map (fun f => zval f i j * sc (uv f)) l))%num.
Proof.
  induction l as [|f l IH]; intros g acc A Eg GU W HA HL.
  - exists acc. cbn [sum_filled]. repeat (split; [now auto|]). intros i j Hi Hj. destruct (HA i j Hi Hj) as [H1 H2]. exists (A i j).
    repeat split; auto. cbn [map]. rewrite total_nil. qring.
  - destruct (HL f) as (Ef & Wf & Cf & Df); [now left|]. cbn [sum_filled o_fill0 sf_ops].
    destruct (sf_fill0_lemma f Wf Cf) as (a & Ea & Ga & Ua & Wa & Va). rewrite Ea. cbn [bind o_add].
    destruct (sf_add_cells acc a) as (s & k & Es & Hk & Gs & Us & Ws & Vs); try assumption; [congruence|congruence|].
    cbn [o_add sf_ops]. rewrite Es. cbn [bind].
    destruct (IH g s (fun i j => (A i j + zval f i j * k)%num)) as (r & Er & Gr & Ur & Wr & Vr).
    + congruence.
    + congruence.
    + exact Ws.
    + intros i j Hi Hj. destruct (Vs i j) as [V1 V2]. destruct (HA i j Hi Hj) as [A1 A2]. rewrite <- Ef in Hi, Hj. destruct (Va i j Hi Hj) as [B1 B2].
      cbn [values at_]. rewrite V2, V1, A1, A2, B1, B2. cbn. auto.
    + intros h I. rewrite Us. apply HL. now right.
    + exists r. rewrite Us in Ur. repeat (split; [assumption|]). intros i j Hi Hj. destruct (Vr i j Hi Hj) as (v & V1 & V2 & V3).
      exists v. split; [exact V1|]. split; [exact V2|]. rewrite Us in V3. rewrite V3. cbn [map]. rewrite total_cons.
      rewrite Ua in Hk. rewrite <- Hk. qring.
Qed.
Lemma avail_length f i j : sf_clean f -> i < length (ax (sg f)) -> j < length (ay (sg f)) ->
  length (avail f i j) = (if at_ (msk f) i j then 0 else 1) /\ (total (avail f i j) = zval f i j * sc (uv f))%num.
Proof.
  intros C Hi Hj. pose proof (clean_cell f i j C Hi Hj) as K. unfold avail, zval. cbn in *. destruct (at_ (msk f) i j).
  - rewrite total_nil. split; [reflexivity|qring].
  - destruct (at_ (raw f) i j).
    + rewrite total_cons, total_nil. split; [reflexivity|qring].
    + destruct K as [K _]. discriminate (K eq_refl).
Qed.
Lemma availables_count l g i j : (forall f, In f l -> sg f = g /\ sf_clean f) -> i < length (ax g) -> j < length (ay g) ->
  length (availables l i j) = count_valid sf_ops l i j /\ total (availables l i j) = total (map (fun f => zval f i j * sc (uv f))%num l).
Proof.
  intros H Hi Hj. induction l as [|f l IH]; [split; reflexivity|].
  - destruct IH as [IH1 IH2]; [intros; apply H; now right|]. destruct (H f) as [Ef Cf]; [now left|]. rewrite <- Ef in Hi, Hj. destruct (avail_length f i j Cf Hi Hj) as [L1 L2].
    change (availables (f :: l) i j) with (avail f i j ++ availables l i j). rewrite app_length, total_app, IH1, IH2, L1, L2. cbn [map]. rewrite total_cons. split; [|reflexivity].
    unfold count_valid. cbn [filter o_mask sf_ops]. destruct (at_ (msk f) i j); reflexivity.
Qed.
Lemma tf_mean_sf t nmb : sf_series_ok t -> tff t <> [] -> (0 <= nmb)%Z ->
  exists m, tf_mean sf_ops t nmb = Ok m /\ sg m = tfg t /\ sf_wf m /\ sf_clean m /\ (exists f r, tff t = f :: r /\ uv m = uv f) /\
    forall i j, i < length (ax (tfg t)) -> j < length (ay (tfg t)) ->
      (at_ (msk m) i j = true <-> (Z.of_nat (length (availables (tff t) i j)) <= nmb)%Z) /\
      (at_ (msk m) i j = false -> average_of (availables (tff t) i j) (uv m) (at_ (values m) i j)).
Proof.
  intros (GO & OG & FO & DM) NE NM. unfold tf_mean. destruct (tff t) as [|f r] eqn:Ef; [congruence|]. clear NE.
  assert (EG : forall h, In h (f :: r) -> sg h = tfg t) by (intros h I; apply OG; rewrite Ef; exact I).
  destruct (FO f) as (Wf & Cf & Uf); [now left|].
  destruct (sf_fill0_lemma f Wf Cf) as (a & Ea & Ga & Ua & Wa & Va). cbn [o_fill0 sf_ops]. rewrite Ea. cbn [bind].
  assert (Gf : sg f = tfg t) by (apply EG; now left).
  destruct (sum_filled_lemma r (tfg t) a (fun i j => zval f i j)) as (s & Es & Gs & Us & Ws & Vs).
  - congruence.
  - congruence.
  - exact Wa.
  - rewrite <- Gf. exact Va.
  - intros h I. split; [apply EG; now right|]. destruct (FO h) as (W & C & U); [now right|]. split; [exact W|]. split; [exact C|]. rewrite Ua. apply DM; [now left|now right].
  - rewrite Es. cbn [bind].
    assert (existsb (fun h => negb (Nat.eqb (d0 (o_mask sf_ops h)) (length (ax (tfg t))) && Nat.eqb (d1 (o_mask sf_ops h)) (length (ay (tfg t))))) (f :: r) = false) as ->.
    { apply not_true_iff_false. intro K. apply existsb_exists in K. destruct K as (h & I & K). destruct (FO h I) as ((_ & M0 & M1) & _).
      rewrite <- (EG h I) in K. cbn [o_mask sf_ops] in K. rewrite M0, M1, !Nat.eqb_refl in K. discriminate. }
    cbn [guard]. cbn [o_setmask sf_ops]. unfold set_mask. rewrite shape_is_true by (cbn; now rewrite Gs). cbn [bind]. cbn [o_diva sf_ops]. unfold sf_div_arr.
    cbn [sg msk raw uv]. rewrite shape_is_true by (cbn; now rewrite Gs). cbn [negb guard].
    eexists. split; [reflexivity|]. split; [exact Gs|]. cbn [uv msk values sg raw]. destruct Ws as [[R0 R1] _].
    split; [repeat split; cbn; try rewrite Gs; congruence|].
    assert (Cell : forall i j, i < length (ax (tfg t)) -> j < length (ay (tfg t)) ->
      exists v, at_ (values s) i j = Some v /\ at_ (msk s) i j = false /\ (v * sc (uv s) = total (availables (f :: r) i j))%num /\
        length (availables (f :: r) i j) = count_valid sf_ops (f :: r) i j).
    { intros i j Hi Hj. destruct (Vs i j Hi Hj) as (v & V1 & V2 & V3). exists v. split; [exact V1|]. split; [exact V2|].
      destruct (availables_count (f :: r) (tfg t) i j) as [L1 L2]; [|assumption|assumption|].
      - intros h I. split; [now apply EG|]. apply (FO h I).
      - split; [|exact L1]. rewrite L2. cbn [map]. rewrite total_cons, Us, V3, Ua. reflexivity. }
    split.
    { intros x y v m (i & j & H1 & H2 & H3 & H4). cbn [sg values msk raw at_ amap2 d0 d1] in *. rewrite Gs in H1, H2.
      apply nth_error_Some_lt in H1, H2. destruct (Cell i j H1 H2) as (w & V1 & V2 & V3 & V4). cbn [values at_] in V1. rewrite V2 in V1.
      rewrite V1 in H3. subst v m. set (c := count_valid sf_ops (f :: r) i j) in *.
      destruct (Z.leb_spec (Z.of_nat c) nmb) as [K|K].
      - cbn [orb]. tauto.
      - cbn [orb]. destruct (qeqb_spec (qn c) 0%num) as [Z0|Z0]; [tauto|]. cbn [odiv orb]. destruct (qeqb_spec (qn c) 0%num); [contradiction|]. split; intro Q; discriminate Q. }
    split; [exists f, r; split; [reflexivity|congruence]|].
    intros i j Hi Hj. destruct (Cell i j Hi Hj) as (v & V1 & V2 & V3 & V4). cbn [at_ amap2].
    cbn [values at_] in V1. rewrite V2 in V1. cbn [at_]. rewrite V4.
    assert (NZ : (nmb < Z.of_nat (count_valid sf_ops (f :: r) i j))%Z -> qn (count_valid sf_ops (f :: r) i j) <> 0%num).
    { intro K. apply qgt_neq. unfold qn. apply (qz_lt 0). lia. }
    destruct (Z.leb_spec (Z.of_nat (count_valid sf_ops (f :: r) i j)) nmb) as [K|K]; cbn [orb].
    + split; [tauto|discriminate].
    + specialize (NZ K). destruct (qeqb_spec (qn (count_valid sf_ops (f :: r) i j)) 0%num) as [Z0|Z0]; [contradiction|]. cbn [orb]. split; [split; [discriminate|lia]|].
      intros _. cbn [values at_ amap2 msk raw]. destruct (Z.leb_spec (Z.of_nat (count_valid sf_ops (f :: r) i j)) nmb) as [K'|_]; [lia|].
      destruct (qeqb_spec (qn (count_valid sf_ops (f :: r) i j)) 0%num) as [?|_]; [contradiction|]. cbn [orb].
      rewrite V1. cbn [odiv]. destruct (qeqb_spec (qn (count_valid sf_ops (f :: r) i j)) 0%num); [contradiction|].
      eexists. split; [reflexivity|]. rewrite V4, <- V3. qfield. exact NZ.
Qed.
