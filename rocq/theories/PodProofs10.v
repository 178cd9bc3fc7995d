(** * PodProofs10: cropping a modal base in time *)
From Coq Require Import Sorted Permutation Lia.
From Verif Require Import Num Res ListLib SortLib Arr FieldModel ScalarFieldModel VectorFieldModel ProfileModel FieldSpec SeqSpec
  ProfileSpec ProfileProofs ProfileProofs2 PointsModel PointsSpec FieldProofs2 TemporalModel TemporalSpec TemporalProofs2 GradModel
  PodModel PodSpec PodSpec2 PodProofs PodProofs2 PodProofs3.

Lemma filter_slice {A} (f : A -> bool) (l : list A) i1 i2 : (forall i x, nth_error l i = Some x -> f x = (Nat.leb i1 i && Nat.ltb i i2)%bool) -> filter f l = slice i1 i2 l.
Proof.
  revert i1 i2. induction l as [|x l IH]; intros i1 i2 H; [unfold slice; now rewrite skipn_nil, firstn_nil|].
  pose proof (H 0 x eq_refl) as H0. cbn [filter]. rewrite H0. destruct i1 as [|i1].
  - cbn [Nat.leb andb]. destruct i2 as [|i2]; cbn [Nat.ltb Nat.leb].
    + rewrite (IH 0 0); [unfold slice; reflexivity|]. intros i y Hi. rewrite (H (S i) y Hi). destruct i; reflexivity.
    + rewrite (IH 0 i2); [unfold slice; cbn [skipn Nat.sub]; rewrite Nat.sub_0_r; reflexivity|]. intros i y Hi. rewrite (H (S i) y Hi). reflexivity.
  - cbn [Nat.leb andb]. rewrite (IH i1 (i2 - 1)); [unfold slice; cbn [skipn]; f_equal; lia|]. intros i y Hi. rewrite (H (S i) y Hi).
    destruct (Nat.leb_spec (S i1) (S i)), (Nat.leb_spec i1 i), (Nat.ltb_spec (S i) i2), (Nat.ltb_spec i (i2 - 1)); try lia; reflexivity.
Qed.
Lemma forall2_nth' {A B} (R : A -> B -> Prop) l m : Forall2 R l m -> forall k b, nth_error m k = Some b -> exists a, nth_error l k = Some a /\ R a b.
Proof. induction 1 as [|a b l m H _ IH]; intros [|k] c E; cbn in *; try discriminate; [injection E as <-; eauto|eauto]. Qed.
Lemma mapM_ext_in' {A B} (f g : A -> res B) l : (forall a, In a l -> f a = g a) -> mapM f l = mapM g l.
Proof. induction l as [|a l IH]; intro H; [reflexivity|]. cbn [mapM]. rewrite (H a (or_introl eq_refl)), IH; [reflexivity|]. intros; apply H; now right. Qed.
Lemma py_get_same {A B} (l : list A) (l' : list B) R i : Forall2 R l l' -> (py_get l i = Err IndexErr /\ py_get l' i = Err IndexErr) \/ (exists a b, py_get l i = Ok a /\ py_get l' i = Ok b /\ R a b).
Proof.
  intro H. pose proof (Forall2_len _ _ _ H) as L. unfold py_get. rewrite <- L. set (k := if (i <? 0)%Z then (i + Z.of_nat (length l))%Z else i).
  destruct ((0 <=? k) && (k <? Z.of_nat (length l)))%Z%bool eqn:E; [|now left]. apply andb_true_iff in E. destruct E as (E1 & E2). apply Z.leb_le in E1. apply Z.ltb_lt in E2. right.
  destruct (nth_error_ex l (Z.to_nat k)) as (a & Ha); [lia|]. destruct (nth_error_ex l' (Z.to_nat k)) as (b & Hb); [lia|].
  destruct (forall2_nth' _ _ _ H _ b Hb) as (a' & Ha' & R1). rewrite Ha in Ha'. injection Ha' as <-. rewrite Ha, Hb. eauto.
Qed.
Lemma find_first (g : nat -> bool) k : forall n a, find g (seq a n) = Some k -> forall i, a <= i -> i < k -> g i = false.
Proof.
  induction n as [|n IH]; intros a F i A B; [discriminate F|]. cbn [seq find] in F. destruct (g a) eqn:Q; [injection F as <-; lia|].
  destruct (Nat.eq_dec a i) as [->|]; [exact Q|]. apply (IH (S a)); [exact F|lia|exact B].
Qed.
Lemma first_after_spec times v : increasing times -> first_after times v <= length times /\
  forall i, i < length times -> (i < first_after times v <-> (nths times i <= v)%num).
Proof.
  intro I. unfold first_after. destruct (find (fun i => qltb v (nths times i)) (seq 0 (length times))) as [k|] eqn:E.
  - pose proof (find_first _ k _ _ E) as N. apply find_some in E. destruct E as (Ik & E). apply in_seq in Ik. apply qltb_lt in E. split; [lia|]. intros i Hi. split.
    + intro L. specialize (N i ltac:(lia) L). cbn beta in N. apply qltb_ge in N. exact N.
    + intro L. destruct (Nat.lt_ge_cases i k) as [|G]; [assumption|]. exfalso. destruct (Nat.eq_dec i k) as [->|NE]; [qlra|]. assert ((nths times k < nths times i)%num) by (apply I; lia). qlra.
  - split; [lia|]. intros i Hi. split; [|auto]. intros _. pose proof (find_none _ _ E i) as N. assert (In i (seq 0 (length times))) as Ii by (apply in_seq; lia). specialize (N Ii). cbn beta in N. apply qltb_ge in N. exact N.
Qed.
Lemma last_ge times i : increasing times -> i < length times -> (nths times i <= last times (qz 0))%num.
Proof.
  intros I H. assert (NE : times <> []) by (intros ->; cbn in H; lia). rewrite (last_nths _ NE).
  destruct (Nat.eq_dec i (length times - 1)) as [->|D]; [qlra|]. assert ((nths times i < nths times (length times - 1))%num) by (apply I; lia). qlra.
Qed.
Lemma crop_time_inds_spec times a b : increasing times -> (exists x, In x times /\ in_window (nths times 0) a b x = true) ->
  ((nths times 0 < b)%num \/ (last times (qz 0) <= b)%num) ->
  exists i1 i2, crop_time_inds times a b = Ok (i1, i2) /\ i1 < i2 /\ i2 <= length times /\
    forall i, i < length times -> in_window (nths times 0) a b (nths times i) = (Nat.leb i1 i && Nat.ltb i i2)%bool.
Proof.
  intros I (x & Ix & Wx) Hb. apply In_nth_error in Ix. destruct Ix as (k & Hk). pose proof (nth_error_Some_lt _ _ _ Hk) as Lk. apply nth_error_nths in Hk.
  assert (NE : times <> []) by (intros ->; cbn in Lk; lia). pose proof (last_ge times k I Lk) as Gk. rewrite Hk in Gk.
  unfold crop_time_inds. destruct times as [|t0' tr] eqn:ET; [congruence|]. rewrite <- ET in *. clear ET t0' tr. cbn [guard].
  assert (E1 : exists i1, (if qleb a (nths times 0) then Ok 0 else if qleb (last times (qz 0)) a then Err ValueErr else Ok (first_after times a)) = Ok i1 /\ i1 <= length times /\
     forall i, i < length times -> (qleb a (nths times 0) || qltb a (nths times i))%bool = Nat.leb i1 i).
  { destruct (qleb a (nths times 0)) eqn:Q. { exists 0. split; [reflexivity|]. split; [lia|]. reflexivity. }
    unfold in_window in Wx. rewrite Q in Wx. cbn [orb] in Wx |- *. apply andb_true_iff in Wx. destruct Wx as (Wa & _). apply qltb_lt in Wa.
    destruct (qleb (last times (qz 0)) a) eqn:Q2; [apply qleb_le in Q2; qlra|]. destruct (first_after_spec times a I) as (FL & FS). exists (first_after times a). split; [reflexivity|]. split; [exact FL|].
    intros i Hi. specialize (FS i Hi). destruct (qltb a (nths times i)) eqn:Q3, (Nat.leb_spec (first_after times a) i); try reflexivity.
    - apply qltb_lt in Q3. apply FS in H. qlra.
    - apply qltb_ge in Q3. apply FS in Q3. lia. }
  assert (E2 : exists i2, (if qleb (last times (qz 0)) b then Ok (length times) else if qleb b (nths times 0) then Err ValueErr else Ok (first_after times b)) = Ok i2 /\ i2 <= length times /\
     forall i, i < length times -> qleb (nths times i) b = Nat.ltb i i2).
  { destruct (qleb (last times (qz 0)) b) eqn:Q.
    { exists (length times). split; [reflexivity|]. split; [lia|]. intros i Hi. apply qleb_le in Q. pose proof (last_ge times i I Hi). assert (Nat.ltb i (length times) = true) as -> by now apply Nat.ltb_lt. apply qleb_le. qlra. }
    assert (L : qleb b (nths times 0) = false). { destruct (qleb b (nths times 0)) eqn:Q2; [|reflexivity]. apply qleb_le in Q2. destruct Hb as [Hb|Hb]; [qlra|]. apply qleb_le in Hb. congruence. }
    rewrite L. destruct (first_after_spec times b I) as (FL & FS). exists (first_after times b). split; [reflexivity|]. split; [exact FL|].
    intros i Hi. specialize (FS i Hi). destruct (qleb (nths times i) b) eqn:Q3, (Nat.ltb_spec i (first_after times b)); try reflexivity.
    - apply qleb_le in Q3. apply FS in Q3. lia.
    - apply FS in H. apply qleb_le in H. congruence. }
  destruct E1 as (i1 & E1 & L1 & S1), E2 as (i2 & E2 & L2 & S2). exists i1, i2. rewrite E1. cbn [bind]. rewrite E2. cbn [bind]. split; [reflexivity|].
  assert (W : forall i, i < length times -> in_window (nths times 0) a b (nths times i) = (Nat.leb i1 i && Nat.ltb i i2)%bool).
  { intros i Hi. unfold in_window. now rewrite S1, S2. }
  split; [|split; [exact L2|exact W]]. pose proof (W k Lk) as Wk. rewrite Hk, Wx in Wk. symmetry in Wk. apply andb_true_iff in Wk. destruct Wk as (A & B). apply Nat.leb_le in A. apply Nat.ltb_lt in B. lia.
Qed.
Lemma zip3_parts x y (m : list bool) p : length y = length x -> length m = length x -> prof_ok p -> samples p = zip3 x y m -> px p = x /\ yv p = y /\ pm p = m.
Proof.
  intros L1 L2 OK E. pose proof (ok_lengths p OK) as (K1 & K2 & _). pose proof (f_equal (map sx) E) as EX. pose proof (f_equal (map sy) E) as EY. pose proof (f_equal (map smask) E) as EM.
  unfold samples in EX, EY, EM. rewrite !zip3_x in EX by assumption. rewrite !zip3_y in EY by assumption.
  assert (Z3 : forall (a : list num) b (c : list bool), length b = length a -> length c = length a -> map smask (zip3 a b c) = c).
  { induction a as [|u a IH]; intros [|v b] [|w c] A B; try discriminate A; try discriminate B; [reflexivity|]. cbn. f_equal. apply IH; [now injection A|now injection B]. }
  rewrite !Z3 in EM by assumption. auto.
Qed.
Lemma crop_evo p i1 i2 : prof_ok p -> i1 < i2 -> i2 <= length (px p) ->
  exists p', out_res (crop_in_with p (crop_data_ind p (Z.of_nat i1) (Z.of_nat i2))) = Ok p' /\ prof_ok p' /\
    px p' = slice i1 i2 (px p) /\ yv p' = slice i1 i2 (yv p) /\ samples p' = slice i1 i2 (samples p) /\ pux p' = pux p /\ puy p' = puy p.
Proof.
  intros OK H1 H2. pose proof (ok_lengths p OK) as (L1 & L2 & NS). unfold crop_data_ind. assert ((Z.of_nat i2 <=? Z.of_nat i1)%Z = false) as -> by (apply Z.leb_gt; lia). rewrite (aligned_ok p OK). cbn [guard negb].
  assert ((Z.of_nat i1 <? 0)%Z = false) as -> by (apply Z.ltb_ge; lia). assert ((Z.of_nat i2 <? 0)%Z = false) as -> by (apply Z.ltb_ge; lia).
  assert ((Z.of_nat (length (px p)) <? Z.of_nat i1)%Z = false) as -> by (apply Z.ltb_ge; lia). assert ((Z.of_nat (length (px p)) <? Z.of_nat i2)%Z = false) as -> by (apply Z.ltb_ge; lia). cbn [orb guard]. rewrite !Nat2Z.id.
  destruct (crop_in_spec p (slice i1 i2 (px p)) (slice i1 i2 (yv p)) (slice i1 i2 (pm p))) as (p' & E & O & S & U1 & U2).
  { rewrite !slice_length, L1. reflexivity. } { rewrite !slice_length, L2. reflexivity. } { now apply nondecreasing_slice. }
  { rewrite nan_at_slice by lia. unfold yv at 1. now rewrite nan_at_idem. }
  exists p'. rewrite E. split; [reflexivity|]. split; [exact O|].
  destruct (zip3_parts (slice i1 i2 (px p)) (slice i1 i2 (yv p)) (slice i1 i2 (pm p)) p') as (A & B & _); auto; [rewrite !slice_length, L1; reflexivity|rewrite !slice_length, L2; reflexivity|].
  split; [exact A|]. split; [exact B|]. split; [|auto]. rewrite S. unfold samples, zip3. rewrite slice_combine by lia. rewrite slice_combine by (rewrite combine_length; lia). reflexivity.
Qed.
Lemma sub_nth {A} i1 i2 (l : list A) i x : nth_error (slice i1 i2 l) i = Some x -> nth_error l (i1 + i) = Some x.
Proof. intro H. assert (i < length (slice i1 i2 l)) as L by (apply nth_error_Some; congruence). rewrite slice_length in L. rewrite nth_error_slice in H by lia. exact H. Qed.
Lemma crop_coef p p' t i1 i2 : prof_ok p -> increasing (px p) -> prof_ok p' -> px p' = slice i1 i2 (px p) -> yv p' = slice i1 i2 (yv p) -> px p' <> [] ->
  (nths (px p') 0 <= t <= last (px p') (qz 0))%num -> coef_at p' t = coef_at p t.
Proof.
  intros OK I OK' EX EY NE T. assert (I' : increasing (px p')) by (rewrite EX; now apply increasing_slice).
  destruct (coef_at_ok p' t OK' I' NE T) as (c & Ec & Vc). rewrite Ec.
  assert (V : evo_at p t c).
  { destruct Vc as [(i & H1 & H2)|(i & x0 & x1 & u & v & H1 & H2 & H3 & H4 & H5 & H6)].
    - left. exists (i1 + i). rewrite EX in H1. rewrite EY in H2. apply sub_nth in H1, H2. auto.
    - right. exists (i1 + i), x0, x1, u, v. rewrite EX in H1, H2. rewrite EY in H4, H5. apply sub_nth in H1, H2, H4, H5. rewrite Nat.add_succ_r in H2, H5. exact (conj H1 (conj H2 (conj H3 (conj H4 (conj H5 H6))))). }
  assert (NEp : px p <> []). { intro Z. apply NE. rewrite EX, Z. unfold slice. now rewrite skipn_nil, firstn_nil. }
  destruct (coef_at_ok p t OK I NEp) as (c' & Ec' & Vc').
  { assert (P0 : 0 < length (px p')) by (destruct (px p'); [congruence|cbn; lia]). pose proof (last_nths _ NE) as LN. rewrite LN in T.
    assert (A : nth_error (px p') 0 = Some (nths (px p') 0)) by now apply nths_nth_error. assert (B : nth_error (px p') (length (px p') - 1) = Some (nths (px p') (length (px p') - 1))) by (apply nths_nth_error; lia).
    rewrite EX in A at 1. rewrite EX in B at 1. apply sub_nth in A, B. pose proof (nth_error_Some_lt _ _ _ A) as LA. pose proof (nth_error_Some_lt _ _ _ B) as LB.
    apply nth_error_nths in A, B. pose proof (last_ge _ _ I LB) as GB. rewrite B in GB. destruct T as (T0 & T1).
    assert (Q0 : (nths (px p) 0 <= nths (px p') 0)%num); [|split; qlra]. rewrite <- A. destruct (i1 + 0) as [|q]; [qlra|]. assert ((nths (px p) 0 < nths (px p) (S q))%num) by (apply I; lia). qlra. }
  rewrite Ec'. f_equal. now apply (evo_at_fun p t).
Qed.

(** ** crop in time *)
Lemma crop_time_lemma {F} (M : mops F) (mf : mfield F) a b : base_core mf -> (exists x, In x (mf_times mf) /\ in_window (nths (mf_times mf) 0) a b x = true) ->
  ((nths (mf_times mf) 0 < b)%num \/ (last (mf_times mf) (qz 0) <= b)%num) ->
  exists mf', mf_crop M mf None None (Some (a, b)) = Ok mf' /\ base_core mf' /\
    mf_times mf' = filter (in_window (nths (mf_times mf) 0) a b) (mf_times mf) /\
    Forall2 (fun p p' => samples p' = filter (fun s => in_window (nths (mf_times mf) 0) a b (sx s)) (samples p)) (mf_evo mf) (mf_evo mf') /\
    mf_mean mf' = mf_mean mf /\ mf_modes mf' = mf_modes mf /\ mf_nmb mf' = mf_nmb mf /\ mf_eigvals mf' = mf_eigvals mf /\
    (forall asort w ts, times_in mf' ts -> reconstruct M asort mf' w (Some ts) = reconstruct M asort mf w (Some ts)).
Proof.
  intros (K & NE & L1 & L2 & I & NT & PO) W Hb. destruct (crop_time_inds_spec _ a b I W Hb) as (i1 & i2 & E & H1 & H2 & S).
  unfold mf_crop, mf_crop_time. rewrite E. cbn [bind].
  destruct (mapM_forall2_ex (fun p => out_res (crop_in_with p (crop_data_ind p (Z.of_nat i1) (Z.of_nat i2))))
    (fun p p' => prof_ok p' /\ px p' = slice i1 i2 (px p) /\ yv p' = slice i1 i2 (yv p) /\ samples p' = slice i1 i2 (samples p)) (mf_evo mf)) as (evo & EE & FE).
  { intros p Ip. destruct (PO p Ip) as (OK & X). destruct (crop_evo p i1 i2 OK H1) as (p' & P1 & P2 & P3 & P4 & P5 & _); [rewrite X; exact H2|]. eauto 8. }
  rewrite EE. cbn [bind]. eexists. split; [reflexivity|]. cbn [mf_kind mf_mean mf_modes mf_nmb mf_evo mf_times mf_eigvals].
  assert (TF : filter (in_window (nths (mf_times mf) 0) a b) (mf_times mf) = slice i1 i2 (mf_times mf)).
  { apply filter_slice. intros i x Hx. pose proof (nth_error_Some_lt _ _ _ Hx) as Lx. apply nth_error_nths in Hx. rewrite <- Hx. now apply S. }
  assert (NS : slice i1 i2 (mf_times mf) <> []). { intro Z. apply (f_equal (@length num)) in Z. rewrite slice_length in Z. cbn in Z. lia. }
  assert (PX : forall p', In p' evo -> prof_ok p' /\ px p' = slice i1 i2 (mf_times mf)).
  { intros p' Ip. apply In_nth_error in Ip. destruct Ip as (q & Hq). destruct (forall2_nth' _ _ _ FE q p' Hq) as (p & Hp & O & X & _). destruct (PO p (nth_error_In _ _ Hp)) as (_ & Xp). rewrite Xp in X. auto. }
  split; [|split; [now rewrite TF|]].
  { split; [exact K|]. split; [exact NE|]. split; [exact L1|]. split; [cbn [mf_evo mf_modes]; rewrite <- (Forall2_len _ _ _ FE); exact L2|]. split; [now apply increasing_slice|]. split; [exact NS|exact PX]. }
  split.
  { assert (G : forall l l', (forall p, In p l -> prof_ok p /\ px p = mf_times mf) ->
      Forall2 (fun p p' => prof_ok p' /\ px p' = slice i1 i2 (px p) /\ yv p' = slice i1 i2 (yv p) /\ samples p' = slice i1 i2 (samples p)) l l' ->
      Forall2 (fun p p' => samples p' = filter (fun s => in_window (nths (mf_times mf) 0) a b (sx s)) (samples p)) l l').
    { intros l l' HP HF. induction HF as [|p p' l l' (_ & _ & _ & SP) _ IH]; [constructor|]. constructor; [|apply IH; intros; apply HP; now right].
      rewrite SP. symmetry. destruct (HP p (or_introl eq_refl)) as (OK & X). apply filter_slice. intros i s Hs. pose proof (nth_error_Some_lt _ _ _ Hs) as Ls. rewrite (samples_length p OK), X in Ls.
      rewrite <- (S i Ls). f_equal. apply nth_error_nth with (d := (qz 0, None, false)) in Hs. rewrite (samples_nth p i OK) in Hs. rewrite <- Hs, X. reflexivity. }
    now apply G. }
  repeat (split; [reflexivity|]).
  intros asort w ts (NTs & TI). cbn [mf_times] in TI. unfold reconstruct. cbn [mf_kind mf_modes mf_times mf_mean mf_g mf_uv mf_ut]. rewrite K.
  assert (EW : wanted {| mf_kind := mf_kind mf; mf_mean := mf_mean mf; mf_modes := mf_modes mf; mf_nmb := mf_nmb mf; mf_evo := evo; mf_times := slice i1 i2 (mf_times mf); mf_ut := mf_ut mf; mf_g := mf_g mf; mf_uv := mf_uv mf;
     mf_eigvals := mf_eigvals mf; mf_eigvects := mf_eigvects mf; mf_ritz := mf_ritz mf; mf_norms := mf_norms mf; mf_growth := mf_growth mf; mf_puls := mf_puls mf |} w = wanted mf w) by reflexivity.
  rewrite K in EW. rewrite EW. clear EW. destruct (wanted mf w) as [ws|]; [|reflexivity]. cbn [bind].
  assert (TI' : forall t, In t ts -> (nths (mf_times mf) 0 <= t <= last (mf_times mf) (qz 0))%num).
  { intros t It. specialize (TI t It). rewrite (last_nths _ NS) in TI. set (sl := slice i1 i2 (mf_times mf)) in *. assert (P : 0 < length sl) by (destruct sl; [congruence|cbn; lia]).
    assert (A : nth_error sl 0 = Some (nths sl 0)) by now apply nths_nth_error. assert (B : nth_error sl (length sl - 1) = Some (nths sl (length sl - 1))) by (apply nths_nth_error; lia).
    apply sub_nth in A, B. pose proof (nth_error_Some_lt _ _ _ A) as LA. pose proof (nth_error_Some_lt _ _ _ B) as LB. apply nth_error_nths in A, B. pose proof (last_ge _ _ I LB) as GB. rewrite B in GB. destruct TI as (T0 & T1).
    assert (Q0 : (nths (mf_times mf) 0 <= nths sl 0)%num); [|split; qlra]. rewrite <- A. destruct (i1 + 0) as [|q]; [qlra|]. assert ((nths (mf_times mf) 0 < nths (mf_times mf) (Datatypes.S q))%num) by (apply I; lia). qlra. }
  pose proof (within_guard _ ts (increasing_slice _ i1 i2 I) NS NTs TI) as G1. pose proof (within_guard _ ts I NT NTs TI') as G2.
  destruct ts as [|tt tr] eqn:ETS; [congruence|]. rewrite <- ETS in *. clear ETS. destruct (slice i1 i2 (mf_times mf)) as [|s0 sr] eqn:ESL; [congruence|]. rewrite <- ESL in *.
  destruct (mf_times mf) as [|m0 mr] eqn:EMT; [congruence|]. rewrite <- EMT in *.
  rewrite G1, G2. cbn [guard]. destruct (py_get (mf_modes mf) 0) as [md|]; [|reflexivity]. cbn [bind].
  match goal with |- (let* x := mapM (mode_term M ?mf1 ts) ws in _) = _ => assert (ET : mapM (mode_term M mf1 ts) ws = mapM (mode_term M mf ts) ws) end.
  { apply mapM_ext_in'. intros n _. unfold mode_term. cbn [mf_modes mf_evo mf_mean]. destruct (py_get (mf_modes mf) n) as [m|]; [|reflexivity]. cbn [bind].
    destruct (py_get_same (mf_evo mf) evo (fun p p' => In p (mf_evo mf) /\ px p' = slice i1 i2 (px p) /\ yv p' = slice i1 i2 (yv p) /\ prof_ok p') n) as [(A & B)|(p & p' & A & B & Ip & X & Y & O)].
    { clear -FE. assert (G : forall l l', (forall x, In x l -> In x (mf_evo mf)) -> Forall2 (fun p p' => prof_ok p' /\ px p' = slice i1 i2 (px p) /\ yv p' = slice i1 i2 (yv p) /\ samples p' = slice i1 i2 (samples p)) l l' ->
        Forall2 (fun p p' => In p (mf_evo mf) /\ px p' = slice i1 i2 (px p) /\ yv p' = slice i1 i2 (yv p) /\ prof_ok p') l l'); [|now apply G].
      intros l l' HI HF. induction HF as [|p p' l l' (P1 & P2 & P3 & _) _ IH]; [constructor|]. constructor; [|apply IH; intros; apply HI; now right]. split; [apply HI; now left|auto]. }
    - now rewrite A, B.
    - rewrite A, B. cbn [bind]. destruct (PO p Ip) as (OK & Xp).
      assert (mapM (coef_at p') ts = mapM (coef_at p) ts) as ->; [|reflexivity]. apply mapM_ext_in'. intros t It. rewrite Xp in X. rewrite <- Xp in X. apply (crop_coef p p' t i1 i2); auto; rewrite ?X, Xp; auto. }
  rewrite ET. reflexivity.
Qed.
