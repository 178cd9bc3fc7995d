From Verif Require Import Num Res ListLib SortLib Arr FieldModel ScalarFieldModel FieldSpec FieldProofs2 ScalarProofs ProfileModel ProfileSpec ProfileProofs ProfileProofs2 ProfileProofs3.

Lemma mul_num_lemma p c : prof_ok p -> exists r, prof_mul_num p c = Ok r /\ prof_ok r /\ pux r = pux p /\ puy r = puy p /\
  samples r = map (fun t => (sx t, oscale c (sy t), isnan (sy t))) (samples p).
Proof.
  intro OK. pose proof (ok_lengths p OK) as (L1 & L2 & S). unfold prof_mul_num. rewrite (aligned_ok p OK). cbn [negb guard].
  destruct (new_lemma (px p) (map (oscale c) (yv p)) None (pux p) (puy p)) as (r & N1 & N2 & N3 & N4 & _ & N5); [now rewrite map_length|exact I|].
  exists r. destruct (N5 S) as [_ N6]. repeat (split; [assumption|]). rewrite N6. unfold samples. revert L1 L2. generalize (px p) as x. generalize (yv p) as y. generalize (pm p) as m. clear.
  intros m y x. revert y m. induction x as [|a x IH]; intros [|b y] [|d m] L1 L2; try discriminate; [reflexivity|]. unfold zip3 in *. simpl in *. rewrite (IH y m) by lia. f_equal.
  unfold shown, sx, sy, smask. simpl. now rewrite oscale_isnan.
Qed.
Lemma integral_scale p c : prof_ok p -> prof_clean p ->
  exists r, prof_mul_num p c = Ok r /\ get_integral r = oscale c (get_integral p).
Proof.
  intros OK C. destruct (mul_num_lemma p c OK) as (r & E & O & _ & _ & Z). exists r. split; [exact E|].
  rewrite !integral_area by assumption. rewrite Z, <- area_scale. f_equal. unfold prof_clean in C. clear - C. revert C. generalize (samples p) as l.
  induction l as [|t l IH]; intro C; [reflexivity|]. cbn [map unmasked]. assert (E := C t (or_introl eq_refl)). unfold smask at 1. cbn [snd]. rewrite <- E.
  assert (IH' := IH (fun u H => C u (or_intror H))). destruct (smask t); [exact IH'|]. cbn [map]. rewrite IH'. reflexivity.
Qed.
Lemma area_add l : area (map (fun t => (fst (fst t), oadd (snd (fst t)) (snd t))) l) =
  oadd (area (map fst l)) (area (map (fun t => (fst (fst t), snd t)) l)) .
Proof.
  induction l as [|[[x y] z] l IH]; [simpl; f_equal; qring|]. destruct l as [|[[x1 y1] z1] l].
  - destruct y, z; simpl; try reflexivity.
  - cbn [map fst snd] in *.
    assert (E : forall x y x1 y1 l, area ((x, y) :: (x1, y1) :: l) = match y, y1, area ((x1, y1) :: l) with Some a, Some b, Some s => Some ((x1 - x) * (a + b) / 2 + s)%num | _, _, _ => None end) by (intros ? [?|] ? [?|] ?; reflexivity).
    rewrite !E. clear E. destruct y as [y|], z as [z|], y1 as [y1|], z1 as [z1|]; try reflexivity; cbn [oadd lift2] in *; try rewrite IH; try clear IH;
    repeat match goal with |- context [area ?k] => destruct (area k) end; simpl; try reflexivity. f_equal. qfield; discriminate.
Qed.
Lemma integral_add p q : prof_ok p -> prof_ok q -> prof_clean p -> prof_clean q -> px p = px q -> pm p = pm q ->
  dim (pux p) = dim (pux q) -> dim (puy p) = dim (puy q) -> sc (puy p) = sc (puy q) -> good_unit (puy p) ->
  exists r, prof_add p q = Ok r /\ get_integral r = oadd (get_integral p) (get_integral q).
Proof.
  intros OP OQ CP CQ EX EM D1 D2 S G. destruct (add_lemma p q OP OQ EX D1 D2 S G) as (r & E & O & _ & _ & _ & Z & _). exists r. split; [exact E|].
  rewrite !integral_area by assumption. rewrite Z.
  destruct (samples_fst p OP) as (X1 & _ & M1). destruct (samples_fst q OQ) as (X2 & _ & M2).
  assert (EX' : map sx (samples p) = map sx (samples q)) by congruence. assert (EM' : map smask (samples p) = map smask (samples q)) by congruence.
  unfold prof_clean in *. clear - EX' EM' CP CQ.
  assert (K : exists l, unmasked (map (fun st : sample * sample => (sx (fst st), oadd (sy (fst st)) (sy (snd st)), (isnan (oadd (sy (fst st)) (sy (snd st))) || smask (fst st) || smask (snd st))%bool)) (combine (samples p) (samples q))) = map (fun t => (fst (fst t), oadd (snd (fst t)) (snd t))) l /\
     unmasked (samples p) = map fst l /\ unmasked (samples q) = map (fun t : num * onum * onum => (fst (fst t), snd t)) l).
  { revert EX' EM' CP CQ. generalize (samples p) as a. generalize (samples q) as b. intros b a. revert b. induction a as [|s a IH]; intros [|t b] H1 H2 H3 H4; try discriminate; [exists []; auto|].
    simpl in H1, H2. injection H1 as F1 H1. injection H2 as F2 H2. destruct (IH b H1 H2 (fun u H => H3 u (or_intror H)) (fun u H => H4 u (or_intror H))) as (l & I1 & I2 & I3).
    pose proof (H3 s (or_introl eq_refl)) as C1. pose proof (H4 t (or_introl eq_refl)) as C2. destruct s as [[sa sb] sm]. destruct t as [[ta tb] tm]. unfold sx, sy, smask in F1, F2, C1, C2. cbn [fst snd] in *. subst ta tm.
    cbn [combine map unmasked]. unfold smask at 1 3 4. unfold sx at 1 3 4. unfold sy at 1 2. cbn [fst snd].
    destruct sm.
    - exists l. destruct sb as [?|]; [discriminate|]. simpl. auto.
    - exists ((sa, sb, tb) :: l). destruct sb as [sb|]; [|discriminate]. destruct tb as [tb|]; [|discriminate]. simpl. rewrite I1, I2, I3. auto. }
  destruct K as (l & -> & -> & ->). apply area_add.
Qed.
Lemma area_bound lo hi : forall l, (forall x y, In (x, y) l -> exists v, y = Some v /\ (lo <= v <= hi)%num) -> nondecreasing (map fst l) ->
  forall x0 y0 r, l = (x0, y0) :: r -> exists s, area l = Some s /\ (lo * (last (map fst l) 0 - x0) <= s <= hi * (last (map fst l) 0 - x0))%num.
Proof.
  induction l as [|[x y] l IH]; intros H S x0 y0 r E; [discriminate|]. injection E as <- <- <-. destruct l as [|[x1 y1] l].
  - destruct (H x y (or_introl eq_refl)) as (v & -> & _). exists 0%num. split; [reflexivity|]. simpl. split; qlra.
  - cbn [map fst] in S. apply nondecreasing_cons in S. destruct S as [S1 S2].
    destruct (IH (fun a b Q => H a b (or_intror Q)) S1 x1 y1 l eq_refl) as (s & A & B1 & B2).
    destruct (H x y (or_introl eq_refl)) as (v & -> & V1 & V2). destruct (H x1 y1 (or_intror (or_introl eq_refl))) as (w & -> & W1 & W2).
    assert (X : (x <= x1)%num) by (apply S2; now left).
    exists ((x1 - x) * (v + w) / 2 + s)%num. split.
    + change (area ((x, Some v) :: (x1, Some w) :: l)) with (match area ((x1, Some w) :: l) with Some s => Some ((x1 - x) * (v + w) / 2 + s)%num | _ => None end). now rewrite A.
    + change (last (map fst ((x, Some v) :: (x1, Some w) :: l)) 0%num) with (last (map fst ((x1, Some w) :: l)) 0%num). set (L := last (map fst ((x1, Some w) :: l)) 0%num) in *. clearbody L.
      assert (T1 : ((x1 - x) * lo <= (x1 - x) * (v + w) / 2)%num).
      { replace ((x1 - x) * lo)%num with ((x1 - x) * (lo + lo) / 2)%num by (qfield; discriminate). assert (0 <= (x1 - x) * ((v + w) - (lo + lo)))%num by (apply qmul_nonneg; qlra).
        assert (0 <= (x1 - x) * ((v + w) - (lo + lo)) / 2)%num by (apply qdiv_nonneg; [assumption|reflexivity]).
        replace ((x1 - x) * (v + w) / 2)%num with ((x1 - x) * (lo + lo) / 2 + (x1 - x) * ((v + w) - (lo + lo)) / 2)%num by (qfield; discriminate). qlra. }
      assert (T2 : ((x1 - x) * (v + w) / 2 <= (x1 - x) * hi)%num).
      { replace ((x1 - x) * hi)%num with ((x1 - x) * (hi + hi) / 2)%num by (qfield; discriminate). assert (0 <= (x1 - x) * ((hi + hi) - (v + w)))%num by (apply qmul_nonneg; qlra).
        assert (0 <= (x1 - x) * ((hi + hi) - (v + w)) / 2)%num by (apply qdiv_nonneg; [assumption|reflexivity]).
        replace ((x1 - x) * (hi + hi) / 2)%num with ((x1 - x) * (v + w) / 2 + (x1 - x) * ((hi + hi) - (v + w)) / 2)%num by (qfield; discriminate). qlra. }
      split.
      * replace (lo * (L - x))%num with ((x1 - x) * lo + lo * (L - x1))%num by qring. qlra.
      * replace (hi * (L - x))%num with ((x1 - x) * hi + hi * (L - x1))%num by qring. qlra.
Qed.
Lemma integral_bound p lo hi x0 y0 r : prof_ok p -> prof_clean p -> unmasked (samples p) = (x0, y0) :: r ->
  (forall t v, In t (samples p) -> sy t = Some v -> (lo <= v <= hi)%num) ->
  exists s, get_integral p = Some s /\ (lo * (last (map fst (unmasked (samples p))) 0 - x0) <= s <= hi * (last (map fst (unmasked (samples p))) 0 - x0))%num.
Proof.
  intros OK C U H. rewrite integral_area by exact OK. apply (area_bound lo hi) with (3 := U).
  - intros x y I. assert (K : exists m, In (x, y, m) (samples p) /\ m = false).
    { clear - I. induction (samples p) as [|t l IH]; [contradiction|]. cbn [unmasked] in I. destruct (smask t) eqn:M.
      - destruct (IH I) as (m & ? & ?). exists m. split; [now right|assumption].
      - destruct I as [I|I]; [|destruct (IH I) as (m & ? & ?); exists m; split; [now right|assumption]]. exists false. split; [|reflexivity]. left. destruct t as [[a b] c]. unfold sx, sy, smask in *. simpl in *. congruence. }
    destruct K as (m & K & ->). pose proof (C _ K) as Q. unfold smask, sy in Q. cbn [fst snd] in Q. destruct y as [v|]; [|discriminate]. exists v. split; [reflexivity|]. exact (H _ v K eq_refl).
  - destruct (samples_fst p OK) as (X & _ & _). assert (S := proj1 (proj2 (proj2 OK))). rewrite <- X in S.
    assert (T : map fst (unmasked (samples p)) = keep (map negb (map smask (samples p))) (map sx (samples p))).
    { generalize (samples p) as l. induction l as [|t l IH]; [reflexivity|]. simpl. destruct (smask t); simpl; [exact IH|now rewrite IH]. }
    rewrite T. now apply nondecreasing_keep.
Qed.

(** ** C08 for profiles *)
Lemma change_unit_x p new : prof_ok p -> good_unit (pux p) -> good_unit new -> dim (pux p) = dim new ->
  exists p', pstep p (PUnit AxX new) = (p', None) /\ prof_ok p' /\ pux p' = new /\ puy p' = puy p /\ yv p' = yv p /\ pm p' = pm p /\
    length (px p') = length (px p) /\ forall i, i < length (px p) -> (nths (px p') i * sc new = nths (px p) i * sc (pux p))%num.
Proof.
  intros OK G1 G2 D. pose proof OK as (K1 & K2 & K3 & K4). destruct (conv_spec (pux p) new G2) as [C1 _]. destruct (C1 D) as (k & Ek & Hk).
  unfold good_unit in *. cbn [pstep prof_change_unit]. rewrite Ek.
  assert (Pk : (0 < k)%num). { destruct (qltb_spec 0%num k) as [Q|Q]; [exact Q|]. exfalso. assert (k * sc new <= 0)%num by qnra. qlra. }
  assert (ND : nondecreasing (map (fun v => v * k)%num (px p))).
  { intros i j Hij Hj. rewrite map_length in Hj. rewrite !nths_map by lia. apply qmul_le_r; [now apply qlt_le|apply K3; lia]. }
  destruct (set_x_spec p (map (fun v => v * k)%num (px p))) as (q & E & O & _ & Z & U & W); [rewrite map_length; lia|lia|exact K4|].
  rewrite E. cbn [thenp]. eexists. split; [reflexivity|]. cbn [px py pm pux puy]. specialize (Z ND). destruct (samples_fst q O) as (X & Y & M). rewrite Z in X, Y, M.
  destruct (zip3_fst (map (fun v => v * k)%num (px p)) (yv p) (pm p)) as (X' & Y' & M'); [rewrite map_length, K4; lia|rewrite K4; lia|].
  rewrite X' in X. rewrite Y' in Y. rewrite M' in M.
  split; [exact O|]. split; [reflexivity|]. split; [exact W|]. split; [symmetry; exact Y|]. split; [now symmetry|]. rewrite <- X. rewrite map_length. split; [reflexivity|].
  intros i Hi. rewrite nths_map by exact Hi. rewrite <- Hk. qring.
Qed.
Lemma change_unit_y p new : prof_ok p -> good_unit new -> dim (puy p) = dim new ->
  exists p', pstep p (PUnit AxY new) = (p', None) /\ prof_ok p' /\ puy p' = new /\ pux p' = pux p /\ px p' = px p /\ length (yv p') = length (yv p) /\
    forall i, i < length (px p) -> oeq_phys (nth i (yv p') None) new (nth i (yv p) None) (puy p).
Proof.
  intros OK G D. pose proof OK as (K1 & K2 & K3 & K4). destruct (conv_spec (puy p) new G) as [C1 _]. destruct (C1 D) as (k & Ek & Hk).
  cbn [pstep prof_change_unit]. rewrite Ek, (aligned_ok p OK). unfold set_y. cbn [thenp px py pm pux puy]. eexists. split; [reflexivity|]. cbn [px py pm pux puy].
  unfold prof_ok. rewrite yv_isnan. cbn [px py pm pux puy]. rewrite !map_length, K4.
  repeat (split; [solve [auto|lia]|]). intros i Hi. rewrite (nth_map' (oscale k) _ _ _ None) by lia. destruct (nth i (py p) None) as [y|]; [|exact I]. simpl. rewrite <- Hk. qring.
Qed.
Lemma change_unit_bad p a new : good_unit new ->
  (match a with AxX => dim (pux p) <> dim new | AxY => dim (puy p) <> dim new | _ => True end) ->
  pstep p (PUnit a new) = (p, Some (match a with AxX | AxY => UnitErr | _ => ValueErr end)).
Proof.
  intros G D. cbn [pstep]. unfold prof_change_unit. destruct a; try reflexivity.
  - destruct (conv_spec (pux p) new G) as [_ C]. now rewrite (C D).
  - destruct (conv_spec (puy p) new G) as [_ C]. now rewrite (C D).
Qed.

(** ** inverse interpolation *)
Lemma inverse_lemma p v : prof_ok p -> increasing (px p) -> (forall t, In t (samples p) -> sy t <> Some v) ->
  (forall i a b, S i < length (px p) -> nth i (yv p) None = Some a -> nth (S i) (yv p) None = Some b -> (a < v < b)%num \/ (b < v < a)%num ->
     exists r, In (Some r) (interp_y p v) /\ (nths (px p) i < r < nths (px p) (S i))%num /\ on_line a b v (nths (px p) i) (nths (px p) (S i)) r) /\
  (forall o, In o (interp_y p v) -> exists i a b r, o = Some r /\ S i < length (px p) /\ nth i (yv p) None = Some a /\ nth (S i) (yv p) None = Some b /\
     ((a < v < b)%num \/ (b < v < a)%num) /\ on_line a b v (nths (px p) i) (nths (px p) (S i)) r).
Proof.
  intros OK Hi NE. pose proof (ok_lengths p OK) as (L1 & L2 & _). unfold interp_y, interp_list.
  assert (existsb (fun a => oeqv a v) (yv p) = false) as ->.
  { apply not_true_iff_false. rewrite existsb_exists. intros (a & Ha & E). destruct (samples_fst p OK) as (_ & Y & _). rewrite <- Y in Ha. apply in_map_iff in Ha. destruct Ha as (t & <- & Ht).
    destruct (sy t) as [w|] eqn:F; [|discriminate]. simpl in E. apply qeqb_eq in E. subst w. exact (NE t Ht F). }
  assert (BT : forall i a b, S i < length (px p) -> nth i (yv p) None = Some a -> nth (S i) (yv p) None = Some b -> (a < v < b)%num \/ (b < v < a)%num ->
     exists r, between (yv p) (map Some (px p)) v i = Some r /\ on_line a b v (nths (px p) i) (nths (px p) (S i)) r).
  { intros i a b Hl A B C. unfold between. rewrite A, B, !nth_some by lia. eexists. split; [reflexivity|]. unfold on_line.
    destruct C as [[C1 C2]|[C1 C2]].
    - destruct (qabs_spec (b - v)) as [[Q1 ->]|[Q1 ->]]; [|exfalso; qlra]. destruct (qabs_spec (a - v)) as [[Q2 ->]|[Q2 ->]]; [exfalso; qlra|]. destruct (qabs_spec (a - b)) as [[Q3 ->]|[Q3 ->]]; [exfalso; qlra|].
      qfield. apply qgt_neq. qlra.
    - destruct (qabs_spec (b - v)) as [[Q1 ->]|[Q1 ->]]; [exfalso; qlra|]. destruct (qabs_spec (a - v)) as [[Q2 ->]|[Q2 ->]]; [|exfalso; qlra]. destruct (qabs_spec (a - b)) as [[Q3 ->]|[Q3 ->]]; [|exfalso; qlra].
      qfield. apply qgt_neq. qlra. }
  split.
  - intros i a b Hl A B C. destruct (BT i a b Hl A B C) as (r & E & Lr). exists r. split.
    + rewrite <- E. apply in_map. apply filter_In. split; [apply in_seq; lia|]. unfold cross. rewrite A, B. simpl. apply orb_true_iff.
      destruct C as [[C1 C2]|[C1 C2]]; [right|left]; apply andb_true_iff; split; first [apply qltb_lt; qlra|apply qleb_le; qlra].
    + split; [|exact Lr]. pose proof (Hi i (S i) ltac:(lia) Hl) as M. unfold on_line in Lr. set (x0 := nths (px p) i) in *. set (x1 := nths (px p) (S i)) in *. clearbody x0 x1. clear - Lr M C.
      assert (E1 : ((r - x0) * (b - a) = (x1 - x0) * (v - a))%num) by qlra. assert (E2 : ((x1 - r) * (b - a) = (x1 - x0) * (b - v))%num) by qlra.
      split; [destruct (qltb_spec x0 r) as [Q|Q]; [exact Q|exfalso]|destruct (qltb_spec r x1) as [Q|Q]; [exact Q|exfalso]]; destruct C as [[C1 C2]|[C1 C2]].
      * assert (0 < (x1 - x0) * (v - a))%num by (apply qmul_pos; qlra). assert ((r - x0) * (b - a) <= 0)%num by qnra. qlra.
      * assert (0 < (x1 - x0) * (a - v))%num by (apply qmul_pos; qlra). assert (0 <= (x0 - r) * (a - b))%num by (apply qmul_nonneg; qlra). qlra.
      * assert (0 < (x1 - x0) * (b - v))%num by (apply qmul_pos; qlra). assert (0 <= (r - x1) * (b - a))%num by (apply qmul_nonneg; qlra). qlra.
      * assert (0 < (x1 - x0) * (v - b))%num by (apply qmul_pos; qlra). assert (0 <= (r - x1) * (a - b))%num by (apply qmul_nonneg; qlra). qlra.
  - intros o H. apply in_map_iff in H. destruct H as (i & E & H). apply filter_In in H. destruct H as [H1 H2]. apply in_seq in H1.
    unfold cross in H2. destruct (nth i (yv p) None) as [a|] eqn:A; [|rewrite andb_false_l in H2; discriminate]. destruct (nth (S i) (yv p) None) as [b|] eqn:B; [|simpl in H2; rewrite !andb_false_r in H2; discriminate].
    assert (NA : a <> v). { intros ->. apply (NE (nth i (samples p) (qz 0, None, false))); [apply nth_In; rewrite samples_length by exact OK; lia|]. rewrite samples_nth by exact OK. exact A. }
    assert (C : (a < v < b)%num \/ (b < v < a)%num).
    { simpl in H2. apply orb_true_iff in H2. destruct H2 as [H2|H2]; apply andb_true_iff in H2; destruct H2 as [U1 U2]; apply qleb_le in U1; apply qltb_lt in U2; [right|left]; split; auto; apply qle_lt_or_eq in U1; destruct U1; auto; congruence. }
    destruct (BT i a b ltac:(lia) A B C) as (r & F & Lr). exists i, a, b, r. rewrite F in E. split; [now symmetry|]. split; [lia|]. auto.
Qed.
Lemma inverse_exact p v : prof_ok p -> (exists t, In t (samples p) /\ sy t = Some v) ->
  interp_y p v = map Some (map sx (filter (fun t => match sy t with Some w => qeqb w v | None => false end) (samples p))).
Proof.
  intros OK (t & Ht & E). unfold interp_y, interp_list. destruct (samples_fst p OK) as (X & Y & _).
  assert (existsb (fun a => oeqv a v) (yv p) = true) as ->. { apply existsb_exists. exists (sy t). rewrite <- Y. split; [now apply in_map|]. rewrite E. simpl. apply qeqb_refl. }
  rewrite <- X, <- Y. generalize (samples p) as l. clear. induction l as [|s l IH]; [reflexivity|]. simpl. unfold oeqv at 1. destruct (sy s) as [w|]; [|exact IH]. destruct (qeqb w v); simpl; [now f_equal|exact IH].
Qed.
