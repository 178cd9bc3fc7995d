From Coq Require Import Sorted.
From Verif Require Import Num Res ListLib SortLib Arr FieldModel ScalarFieldModel VectorFieldModel ProfileModel FieldSpec SeqSpec
  ProfileSpec PointsModel PointsSpec TemporalModel TemporalSpec GradModel PodModel PodSpec ProfileProofs ProfileProofs2 TemporalProofs2 GradProofs5.

(** ** Cropping the modal base (C61) *)
Lemma py_get_ok {A} (l : list A) i k : designates (length l) i k -> exists a, nth_error l k = Some a /\ py_get l i = Ok a.
Proof.
  intros (Hk & E). destruct (nth_error_ex l k Hk) as (a & Ea). exists a. split; [exact Ea|]. unfold py_get.
  assert ((if (i <? 0)%Z then (i + Z.of_nat (length l))%Z else i) = Z.of_nat k) as ->.
  { destruct (Z.ltb_spec i 0); destruct E; lia. }
  assert (((0 <=? Z.of_nat k) && (Z.of_nat k <? Z.of_nat (length l)))%Z%bool = true) as ->.
  { apply andb_true_iff. split; [apply Z.leb_le; lia|apply Z.ltb_lt; lia]. }
  now rewrite Nat2Z.id, Ea.
Qed.
Lemma py_get_all {A} (l : list A) ks places : Forall2 (designates (length l)) ks places -> exists r, mapM (py_get l) ks = Ok r /\ taken places l r.
Proof.
  induction 1 as [|i k ks places D _ (r & E & T)]; [exists []; split; [reflexivity|constructor]|].
  destruct (py_get_ok l i k D) as (a & Ea & E1). exists (a :: r). cbn [mapM]. rewrite E1. cbn [bind]. rewrite E. cbn [bind]. split; [reflexivity|]. constructor; assumption.
Qed.
Lemma taken_length {A} places (whole l : list A) : taken places whole l -> length l = length places.
Proof. induction 1; cbn; congruence. Qed.
Lemma taken_nth {A} places (whole l : list A) n a k : taken places whole l -> nth_error places n = Some k -> nth_error l n = Some a -> nth_error whole k = Some a.
Proof.
  intro T. revert n. induction T as [|x y xs ys H T IH]; intros [|n] E1 E2; cbn in *; try discriminate.
  - injection E1 as <-. injection E2 as <-. exact H.
  - now apply (IH n).
Qed.
Lemma taken_fun {A} places (whole l l' : list A) : taken places whole l -> taken places whole l' -> l = l'.
Proof.
  intro T. revert l'. induction T as [|x y xs ys H T IH]; intros l' T'; inversion T'; subst; [reflexivity|]. f_equal; [congruence|now apply IH].
Qed.
Lemma taken_incl {A} places (whole l : list A) a : taken places whole l -> In a l -> In a whole.
Proof.
  induction 1 as [|x y xs ys H T IH]; intro I; [destruct I|]. destruct I as [<- | I]; [|now apply IH]. eapply nth_error_In; eauto.
Qed.
Lemma taken_map {A B} (f : A -> B) places whole l : taken places whole l -> taken places (map f whole) (map f l).
Proof. induction 1 as [|x y xs ys H T IH]; constructor; [now rewrite nth_error_map, H|exact IH]. Qed.

Lemma Forall2_len {A B} (R : A -> B -> Prop) l m : Forall2 R l m -> length l = length m.
Proof. induction 1; cbn; congruence. Qed.
(** the points received one by one *)
Lemma insert_end {A} (l : list A) x : insert_at (length l) x l = l ++ [x].
Proof. unfold insert_at. now rewrite firstn_all, skipn_all. Qed.
Lemma crop_points_lemma p : prof_ok p -> forall ks places, Forall2 (designates (length (px p))) ks places ->
  forall new, prof_ok new -> exists new', crop_points p new ks = Ok new' /\ prof_ok new' /\ pux new' = pux new /\ puy new' = puy new /\
    exists xs ys, taken places (px p) xs /\ taken places (yv p) ys /\
      Permutation (samples new') (zip3 xs ys (map isnan ys) ++ (match ks with [] => samples new | _ => map remask (samples new) end)).
Proof.
  intros OK ks places D. destruct (ok_lengths p OK) as (LY & LM & ND).
  induction D as [|i k ks places Di D IH]; intros new ON.
  - exists new. cbn [crop_points]. split; [reflexivity|]. split; [exact ON|]. split; [reflexivity|]. split; [reflexivity|]. exists [], [].
    split; [constructor|]. split; [constructor|]. reflexivity.
  - cbn [crop_points]. destruct (py_get_ok (px p) i k Di) as (x & Ex & Gx). rewrite Gx. cbn [bind].
    rewrite (aligned_ok p OK). cbn [negb guard].
    destruct (py_get_ok (yv p) i k) as (y & Ey & Gy); [now rewrite LY|]. rewrite Gy. cbn [bind].
    pose proof (step_lemma new (PAdd x y) ON Logic.I Logic.I) as SL. cbn [pstep effect] in SL. unfold add_point in *. rewrite (aligned_ok new ON) in *.
    destruct (replace_spec new (insert_at (searchsorted (px new) x) x (px new)) (insert_at (searchsorted (px new) x) y (yv new))) as (p1 & E1 & O1 & _ & _ & U1 & W1).
    { unfold insert_at. rewrite !app_length. cbn [length]. rewrite !firstn_length, !skipn_length. destruct (ok_lengths new ON) as (-> & _). lia. }
    assert (E1' : thenp (set_y new (insert_at (searchsorted (px new) x) y (yv new))) (fun p1 => set_x p1 (insert_at (searchsorted (px new) x) x (px p1))) = (p1, None)) by exact E1.
    rewrite E1' in SL |- *. destruct SL as (_ & P1). cbn [out_res bind].
    destruct (IH p1 O1) as (p2 & E2 & O2 & U2 & W2 & xs & ys & Tx & Ty & P2). rewrite E2.
    exists p2. split; [reflexivity|]. split; [exact O2|]. split; [congruence|]. split; [congruence|]. exists (x :: xs), (y :: ys).
    split; [constructor; assumption|]. split; [constructor; assumption|]. rewrite P2. cbn [map zip3 combine app].
    unfold zip3. cbn [combine]. fold (zip3 xs ys (map isnan ys)). cbn [app].
    assert (PP : Permutation (map remask (samples p1)) ((x, y, isnan y) :: map remask (samples new))).
    { rewrite P1. cbn [map]. unfold remask at 1. cbn [sx sy fst snd]. rewrite map_map. rewrite (map_ext (fun t => remask (remask t)) remask) by reflexivity. reflexivity. }
    destruct ks; [rewrite P1|rewrite PP]; rewrite <- Permutation_middle; reflexivity.
Qed.
(** in increasing order the points stay in order *)
Lemma taken_up places (l r : list num) : increasing l -> going_up places -> taken places l r -> increasing r.
Proof.
  intros INC UP T. revert UP. induction T as [|k x ks r H T IH]; intro UP; [intros i j _ Hj; cbn in Hj; lia|].
  inversion UP as [|? ? U1 U2]; subst. apply increasing_cons. split; [now apply IH|]. intros y Iy.
  apply In_nth_error in Iy. destruct Iy as (n & En). destruct (nth_error ks n) as [k'|] eqn:Ek.
  - pose proof (taken_nth _ _ _ _ _ _ T Ek En) as E'. rewrite Forall_forall in U2. specialize (U2 k' (nth_error_In _ _ Ek)).
    rewrite <- (nth_error_nths _ _ _ H), <- (nth_error_nths _ _ _ E'). apply INC; [exact U2|]. now apply nth_error_Some_lt in E'.
  - apply nth_error_None in Ek. apply nth_error_Some_lt in En. rewrite (taken_length _ _ _ T) in En. lia.
Qed.
Lemma perm_nodup_sorted (a b : list sample) : increasing (map sx a) -> nondecreasing (map sx b) -> Permutation a b -> a = b.
Proof.
  revert b. induction a as [|x a IH]; intros b I N P; [now apply Permutation_nil in P|].
  destruct b as [|y b]; [symmetry in P; now apply Permutation_nil_cons in P|].
  cbn [map] in I, N. apply increasing_cons in I. destruct I as (I1 & I2).
  assert (x = y).
  { assert (In x (y :: b)) by (eapply Permutation_in; [exact P|now left]). destruct H as [-> | Hx]; [reflexivity|].
    assert (Hy : In y (x :: a)) by (eapply Permutation_in; [symmetry; exact P|now left]). destruct Hy as [-> | Hy]; [reflexivity|].
    exfalso. pose proof (I2 (sx y) (in_map sx a y Hy)) as L1.
    apply In_nth_error in Hx. destruct Hx as (n & En).
    pose proof (N 0 (S n) ltac:(lia)) as L2. cbn [length nth] in L2. rewrite map_length in L2.
    pose proof (nth_error_Some_lt _ _ _ En). specialize (L2 ltac:(lia)). rewrite (nth_error_nths (map sx b) n (sx x)) in L2 by now rewrite nth_error_map, En. qlra. }
  subst y. f_equal. apply IH; [exact I1| |].
  - intros i j Hij Hj. apply (N (S i) (S j)); cbn; lia.
  - eapply Permutation_cons_inv; exact P.
Qed.
Lemma zip3_x xs ys (ms : list bool) : length ys = length xs -> length ms = length xs -> map sx (zip3 xs ys ms) = xs.
Proof.
  revert ys ms. induction xs as [|x xs IH]; intros [|y ys] [|m ms] L1 L2; try discriminate; [reflexivity|].
  unfold zip3. cbn [combine map sx fst]. f_equal. apply IH; cbn in *; lia.
Qed.
Lemma zip3_y xs ys (ms : list bool) : length ys = length xs -> length ms = length xs -> map sy (zip3 xs ys ms) = ys.
Proof.
  revert ys ms. induction xs as [|x xs IH]; intros [|y ys] [|m ms] L1 L2; try discriminate; [reflexivity|].
  unfold zip3. cbn [combine map sy fst snd]. f_equal. apply IH; cbn in *; lia.
Qed.
Lemma crop_prof_lemma p u w ks places : prof_ok p -> Forall2 (designates (length (px p))) ks places ->
  exists q xs ys, crop_prof p u w ks = Ok q /\ prof_ok q /\ pux q = u /\ puy q = w /\ taken places (px p) xs /\ taken places (yv p) ys /\
    Permutation (samples q) (zip3 xs ys (map isnan ys)) /\ (increasing (px p) -> going_up places -> px q = xs /\ yv q = ys).
Proof.
  intros OK D. assert (O0 : prof_ok (mkprof [] [] [] u w)) by (repeat split; intros i j _ Hj; cbn in Hj; lia).
  destruct (crop_points_lemma p OK ks places D _ O0) as (q & E & O & U & W & xs & ys & Tx & Ty & P).
  exists q, xs, ys. split; [exact E|]. split; [exact O|]. split; [exact U|]. split; [exact W|]. split; [exact Tx|]. split; [exact Ty|].
  assert (P' : Permutation (samples q) (zip3 xs ys (map isnan ys))) by (destruct ks; rewrite P; cbn [samples zip3 combine map px pm yv py nan_at app]; now rewrite app_nil_r).
  split; [exact P'|]. intros INC UP. destruct (ok_lengths q O) as (LY & LM & NDq).
  assert (Lx : length ys = length xs) by (rewrite (taken_length _ _ _ Tx), (taken_length _ _ _ Ty); reflexivity).
  assert (EQ : zip3 xs ys (map isnan ys) = samples q).
  { apply perm_nodup_sorted; [| |now symmetry].
    - rewrite zip3_x; [now apply (taken_up places (px p))|exact Lx|now rewrite map_length].
    - unfold samples. rewrite zip3_x; [exact NDq|exact LY|exact LM]. }
  assert (Ex := f_equal (map sx) EQ). assert (Ey := f_equal (map sy) EQ). unfold samples in Ex, Ey.
  rewrite !zip3_x in Ex by (rewrite ?map_length; auto). rewrite !zip3_y in Ey by (rewrite ?map_length; auto). auto.
Qed.
Lemma vects_lemma (vects : list (list num)) (n T : nat) ks places : length vects = T -> (forall r, In r vects -> length r = n) -> n <= T -> Forall2 (designates n) ks places ->
  exists v', mapM (fun i => let* row := py_get vects i in mapM (py_get row) ks) ks = Ok v' /\ length v' = length places /\ forall r, In r v' -> length r = length places.
Proof.
  intros L R LE D.
  set (f := fun i => let* row := py_get vects i in mapM (py_get row) ks).
  assert (G : forall i, In i ks -> exists r, f i = Ok r /\ length r = length places).
  { intros i Hi.
    assert (exists k, designates n i k) as (k & Hk & E).
    { clear -D Hi. induction D as [|a b ? ? H _ IH]; [destruct Hi|]. destruct Hi as [<- | Hi]; [eauto|now apply IH]. }
    destruct (py_get_ok vects i (if (i <? 0)%Z then k + T - n else k)) as (row & Er & Gr).
    { rewrite L. unfold designates. destruct (Z.ltb_spec i 0); split; try lia. }
    unfold f. rewrite Gr. cbn [bind]. destruct (py_get_all row ks places) as (r & E' & Tr); [rewrite (R row); [exact D|eapply nth_error_In; eauto]|].
    exists r. split; [exact E'|]. now rewrite (taken_length _ _ _ Tr). }
  destruct (mapM_total f ks) as (v' & E).
  { intros i Hi. destruct (G i Hi) as (r & Er & _). eauto. }
  exists v'. split; [exact E|]. apply mapM_forall2 in E. clearbody f. split.
  - rewrite <- (Forall2_len _ _ _ D). clear -E. induction E; cbn; congruence.
  - intros r Ir. clear -E G Ir. revert G. induction E as [|i r' ks' v' H E IH]; [destruct Ir|].
    intro G. destruct Ir as [<- | Ir].
    + destruct (G i (or_introl eq_refl)) as (r2 & E2 & L2). congruence.
    + apply IH; [exact Ir|]. intros j Hj. apply G. now right.
Qed.
Lemma crop_base_lemma {F} (mf : mfield F) ev vects ks places rem : base_ok mf ev vects -> Forall2 (designates (length (mf_modes mf))) ks places ->
  exists mf' ev' xs ys, crop_base mf (Some (SelArr ks)) rem = Ok mf' /\
    mf_kind mf' = Pod /\ mf_mean mf' = mf_mean mf /\ mf_times mf' = mf_times mf /\ mf_g mf' = mf_g mf /\
    taken places (mf_modes mf) (mf_modes mf') /\ taken places (mf_nmb mf) (mf_nmb mf') /\ taken places (mf_evo mf) (mf_evo mf') /\
    mf_eigvals mf' = Some ev' /\ prof_ok ev' /\ taken places (px ev) xs /\ taken places (yv ev) ys /\
    Permutation (samples ev') (zip3 xs ys (map isnan ys)) /\ (going_up places -> px ev' = xs /\ yv ev' = ys).
Proof.
  intros (K & NE & L1 & L2 & _ & _ & _ & EV & OE & IE & LE & EX & LV & LR & LT) D. unfold crop_base. cbn [kept bind]. rewrite K, EV, EX. cbn [attr bind].
  assert ((match ks with [] => Ok [] | _ => Ok vects end) = Ok (match ks with [] => [] | _ => vects end)) as -> by (destruct ks; reflexivity). cbn [bind].
  destruct (py_get_all (mf_modes mf) ks places D) as (modes & -> & T1). cbn [bind].
  destruct (py_get_all (mf_evo mf) ks places) as (evo & -> & T2); [now rewrite L2|]. cbn [bind].
  destruct (crop_prof_lemma ev (pux ev) (puy ev) ks places OE) as (q & xs & ys & -> & O & _ & _ & Tx & Ty & P & S); [now rewrite LE|]. cbn [bind].
  assert (exists v', mapM (fun i => let* row := py_get (match ks with [] => [] | _ => vects end) i in mapM (py_get row) ks) ks = Ok v') as (v' & ->).
  { destruct (vects_lemma vects (length (mf_modes mf)) (length (mf_times mf)) ks places LV LR LT D) as (v' & E & _). destruct ks; [exists []; reflexivity|eauto]. }
  cbn [bind]. destruct (py_get_all (mf_nmb mf) ks places) as (nmb & -> & T3); [now rewrite L1|]. cbn [bind].
  eexists _, q, xs, ys. split; [reflexivity|]. cbn. repeat (split; [first [reflexivity|assumption]|]). intro UP. now apply S.
Qed.
Lemma designates_first n m : n <= m -> Forall2 (designates m) (arange0 (Z.of_nat n)) (seq 0 n).
Proof.
  intro L. unfold arange0. rewrite Nat2Z.id. assert (G : forall a k, a + k <= m -> Forall2 (designates m) (map Z.of_nat (seq a k)) (seq a k)).
  { intros a k; revert a; induction k as [|k IH]; intros a H; [constructor|]. cbn [seq map]. constructor; [split; [lia|now left]|]. apply IH. lia. }
  apply G. lia.
Qed.
Lemma taken_seq_firstn {A} n (whole l : list A) : taken (seq 0 n) whole l -> l = firstn n whole.
Proof.
  intro T. apply (taken_fun (seq 0 n) whole); [exact T|]. assert (Ln := taken_length _ _ _ T). rewrite seq_length in Ln.
  assert (LE : n <= length whole).
  { destruct n; [lia|]. destruct (nth_error l n) eqn:E; [|apply nth_error_None in E; lia].
    pose proof (taken_nth _ _ _ n a n T) as H. rewrite (nth_error_nth' (seq 0 (S n)) 0) in H by (rewrite seq_length; lia). rewrite seq_nth in H by lia.
    specialize (H eq_refl E). now apply nth_error_Some_lt in H. }
  clear -LE. revert LE. revert whole. induction n as [|n IH]; intros whole LE; [constructor|]. destruct whole as [|a whole]; [cbn in LE; lia|].
  cbn [firstn seq]. constructor; [reflexivity|]. rewrite <- seq_shift. cbn in LE. specialize (IH whole ltac:(lia)). clear -IH. induction IH; constructor; auto.
Qed.
Lemma going_up_seq a n : going_up (seq a n).
Proof.
  revert a. induction n as [|n IH]; intro a; cbn; constructor; [apply IH|]. apply Forall_forall. intros x Hx. apply in_seq in Hx. lia.
Qed.
Lemma crop_base_first {F} (mf : mfield F) ev vects n rem : base_ok mf ev vects -> n <= length (mf_modes mf) ->
  exists mf' ev', crop_base mf (Some (SelInt (Z.of_nat n))) rem = Ok mf' /\
    mf_modes mf' = firstn n (mf_modes mf) /\ mf_nmb mf' = firstn n (mf_nmb mf) /\ mf_evo mf' = firstn n (mf_evo mf) /\
    mf_eigvals mf' = Some ev' /\ px ev' = firstn n (px ev) /\ yv ev' = firstn n (yv ev).
Proof.
  intros B L. destruct (crop_base_lemma mf ev vects (arange0 (Z.of_nat n)) (seq 0 n) rem B (designates_first n _ L)) as (mf' & ev' & xs & ys & E & _ & _ & _ & _ & T1 & T2 & T3 & E4 & _ & T5 & T6 & _ & S).
  exists mf', ev'. split; [exact E|]. destruct (S (going_up_seq 0 n)) as (-> & ->). repeat split; auto using taken_seq_firstn.
Qed.
Lemma crop_base_outside {F} (mf : mfield F) ev vects ks rem : base_ok mf ev vects -> (exists i, In i ks /\ ~ index_ok (length (mf_modes mf)) i) ->
  crop_base mf (Some (SelArr ks)) rem = Err IndexErr.
Proof.
  intros (K & NE & L1 & L2 & _ & _ & _ & EV & OE & IE & LE & EX & _) (i & Ii & NI). unfold crop_base. cbn [kept bind]. rewrite K, EV, EX. cbn [attr bind].
  assert ((match ks with [] => Ok [] | _ => Ok vects end) = Ok (match ks with [] => [] | _ => vects end)) as -> by (destruct ks; reflexivity). cbn [bind].
  assert (mapM (py_get (mf_modes mf)) ks = Err IndexErr) as ->; [|reflexivity].
  induction ks as [|j ks IH]; [destruct Ii|]. cbn [mapM]. unfold py_get at 1.
  destruct (((0 <=? (if (j <? 0)%Z then (j + Z.of_nat (length (mf_modes mf)))%Z else j)) && ((if (j <? 0)%Z then (j + Z.of_nat (length (mf_modes mf)))%Z else j) <? Z.of_nat (length (mf_modes mf))))%Z%bool) eqn:C; [|reflexivity].
  destruct (nth_error (mf_modes mf) _) eqn:En; [|reflexivity]. cbn [bind].
  destruct Ii as [-> | Ii].
  - exfalso. apply NI. apply andb_true_iff in C. destruct C as (C1 & C2). apply Z.leb_le in C1. apply Z.ltb_lt in C2. unfold index_ok. destruct (Z.ltb_spec i 0); lia.
  - now rewrite (IH Ii).
Qed.
Lemma crop_remove_fails {F} (mf : mfield F) sel : exists e, crop_base mf None (Some sel) = Err e.
Proof. destruct sel; eexists; reflexivity. Qed.
Lemma crop_dmd_fails {F} (mf : mfield F) keep rem : mf_kind mf = Dmd -> mf_eigvals mf = None -> exists e, crop_base mf keep rem = Err e.
Proof. intros K E. unfold crop_base. destruct (kept keep rem); [|eexists; reflexivity]. cbn [bind]. rewrite K, E. eexists; reflexivity. Qed.
