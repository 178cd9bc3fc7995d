(** * Sf2Proofs5: the points given for the zones of a scalar field. *)
From Coq Require Import Lia QArith Qcanon List ZArith.
From Verif Require Import Num Res ListLib SortLib Arr FieldModel ScalarFieldModel VectorFieldModel FieldSpec PointsSpec FieldProofs FieldProofs2 GradProofs VpropModel VpropSpec VpropProofs VpropProofs2 VpropProofs3 TurbProofs3 ProfileModel BlModel Sf2Model Sf2Spec.
From Verif Require Import Sf2Proofs3 Sf2Proofs4.

Definition picks (pick : list cell -> cell) : Prop := forall l, l <> [] -> In (pick l) l.
(** a best value exists in a non-empty list of cells with values *)
Lemma best_exists f (lt : num -> num -> bool) z : (forall a b c, lt a b = false -> lt b c = false -> lt a c = false) -> (forall a b, lt a b = true -> lt b a = false) ->
  z <> [] -> (forall c, In c z -> at_cell (values f) c <> None) ->
  exists c, In c z /\ forall d, In d z -> match at_cell (values f) c, at_cell (values f) d with Some v, Some w => negb (lt w v) | _, _ => true end = true.
Proof.
  intros T A. induction z as [|c z IH]; intros NE HV; [congruence|]. destruct z as [|c' z].
  - exists c. split; [now left|]. intros d [<-|[]]. destruct (at_cell (values f) c) as [v|]; [|reflexivity]. destruct (lt v v) eqn:E; [|reflexivity]. pose proof (A _ _ E). congruence.
  - destruct (IH ltac:(discriminate)) as (b & I & B); [intros; apply HV; now right|].
    pose proof (HV c (or_introl eq_refl)) as H1. pose proof (HV b (or_intror I)) as H2. destruct (at_cell (values f) c) as [vc|] eqn:Ec; [|congruence]. destruct (at_cell (values f) b) as [vb|] eqn:Eb; [|congruence].
    destruct (lt vc vb) eqn:L.
    + exists c. split; [now left|]. rewrite Ec. intros d [<-|Id].
      * rewrite Ec. destruct (lt vc vc) eqn:E; [pose proof (A _ _ E); congruence|reflexivity].
      * specialize (B d Id). destruct (at_cell (values f) d) as [w|]; [|reflexivity]. apply negb_true_iff in B. apply negb_true_iff. apply (T w vb vc B). now apply A.
    + exists b. split; [now right|]. rewrite Eb. intros d [<-|Id]; [rewrite Ec; now rewrite L|]. exact (B d Id).
Qed.
Lemma best_cell_lemma f pick lt z : picks pick -> (forall a b c, lt a b = false -> lt b c = false -> lt a c = false) -> (forall a b, lt a b = true -> lt b a = false) ->
  z <> [] -> (forall c, In c z -> at_cell (values f) c <> None) ->
  In (best_cell pick lt (values f) z) z /\ forall v d w, at_cell (values f) (best_cell pick lt (values f) z) = Some v -> In d z -> at_cell (values f) d = Some w -> lt w v = false.
Proof.
  intros PK T A NE HV. unfold best_cell. match goal with |- context [pick ?l] => set (k := l) end.
  assert (N : k <> []). { destruct (best_exists f lt z T A NE HV) as (c & I & B). intro E. assert (X : In c k); [|rewrite E in X; contradiction]. apply filter_In. split; [exact I|]. apply forallb_forall. exact B. }
  assert (P := PK k N). apply filter_In in P. destruct P as [P1 P2]. split; [exact P1|]. intros v d w Ev Id Ew. rewrite forallb_forall in P2. specialize (P2 d Id). rewrite Ev, Ew in P2. now apply negb_true_iff in P2.
Qed.
Lemma zone_point_lemma pick f k lo hi z dx dy : picks pick -> sf_wf f -> sf_clean f -> regular_axis (ax (sg f)) dx -> regular_axis (ay (sg f)) dy -> (lo <= hi)%num -> k <> ZOther -> z <> [] ->
  (forall c, In c z -> between f lo hi c) -> (k = ZPonderated -> exists c, In c z /\ ~ shows_at f c (qz 0)) ->
  exists p, zone_point pick k (lo, hi) f z = Ok p /\ point_of f k lo hi z p.
Proof.
  intros PK W C RX RY LH KO NE HB HZ.
  assert (HS : forall c, In c z -> exists v, shows_at f c v /\ at_cell (values f) c = Some v) by (intros c I; destruct (HB c I) as (v & S0 & _); exists v; split; [exact S0|apply S0]).
  assert (HV : forall c, In c z -> at_cell (values f) c <> None) by (intros c I; destruct (HS c I) as (v & _ & E); congruence).
  assert (CX : forall c, In c z -> fst c < length (ax (sg f))) by (intros c I; destruct (HS c I) as (v & S0 & _); apply S0).
  assert (CY : forall c, In c z -> snd c < length (ay (sg f))) by (intros c I; destruct (HS c I) as (v & S0 & _); apply S0).
  unfold zone_point. destruct k; [| | |congruence]; cbn [zone_index bind fst snd].
  - match goal with |- context [best_cell pick ?b (values f) z] => set (better := b) end.
    assert (TB : forall a b c : num, qltb a b = false -> qltb b c = false -> qltb a c = false) by (intros a b c H1 H2; destruct (qltb_spec a b), (qltb_spec b c); try discriminate; destruct (qltb_spec a c); [qlra|reflexivity]).
    assert (AB : forall a b : num, qltb a b = true -> qltb b a = false) by (intros a b H1; apply qltb_lt in H1; destruct (qltb_spec b a); [qlra|reflexivity]).
    assert (BC : In (best_cell pick better (values f) z) z /\ forall v d w, at_cell (values f) (best_cell pick better (values f) z) = Some v -> In d z -> at_cell (values f) d = Some w -> better w v = false).
    { apply best_cell_lemma; auto; unfold better; match goal with |- context [if ?b then _ else _] => destruct b end; [exact TB|intros a b c H1 H2; now apply (TB c b a)|exact AB|intros a b H1; now apply AB]. }
    destruct BC as [I B]. set (c := best_cell pick better (values f) z) in *. clearbody c. rewrite (index_exact _ _ (CX c I)), (index_exact _ _ (CY c I)). cbn [bind]. eexists. split; [reflexivity|].
    destruct (HS c I) as (v & S0 & E). exists c, v. do 3 (split; [auto|]). intros d w Id Sd. assert (Q := B v d w E Id ltac:(apply Sd)). unfold better in Q. clear better B.
    split.
    + intro L0. assert (qltb (if qltb (qabs lo) (qabs hi) then hi else lo) 0%num = false) as X.
      { destruct (qltb (qabs lo) (qabs hi)); apply qltb_ge; qlra. }
      rewrite X in Q. destruct (qltb_spec v w); [discriminate|assumption].
    + intros H0 L0. assert (qltb (if qltb (qabs lo) (qabs hi) then hi else lo) 0%num = true) as X.
      { destruct (qltb_spec (qabs lo) (qabs hi)) as [Y|Y]; apply qltb_lt; [|exact L0]. exfalso. revert Y. unfold qabs. destruct (qleb_spec 0%num lo); [qlra|]. destruct (qleb_spec 0%num hi); intro; qlra. }
      rewrite X in Q. destruct (qltb_spec w v); [discriminate|assumption].
  - destruct (mean_index_pos _ _ z fst RX NE CX) as (x & Ex & Px). destruct (mean_index_pos _ _ z snd RY NE CY) as (y & Ey & Py). rewrite Ex, Ey. cbn [bind]. eexists. split; [reflexivity|]. split; assumption.
  - assert (P : (0 < cell_sum f (fun _ v => qabs v) z)%num).
    { destruct (HZ eq_refl) as (c & I & N). destruct (HS c I) as (v & S0 & E). apply (cell_sum_pos f z c v I E). intros ->. contradiction. }
    assert (HV' : forall c, In c z -> at_ (values f) (fst c) (snd c) <> None) by exact HV.
    destruct (mass_index_pos f _ _ z fst RX CX HV' P) as (x & Ex & Px). destruct (mass_index_pos f _ _ z snd RY CY HV' P) as (y & Ey & Py). rewrite Ex, Ey. cbn [bind]. eexists. split; [reflexivity|]. split; assumption.
Qed.
Lemma bounds_ordered f rel b0 b1 lo hi : bounds_meant f rel b0 b1 lo hi -> (lo <= hi)%num.
Proof.
  intros (a & b & _ & AB & K). destruct rel; [|destruct K as [-> ->]; qlra]. destruct K as (mn & mx & [(c & M1) _] & [_ M2] & _ & K). assert (LE : (0 <= mx - mn)%num) by (specialize (M2 c mn M1); qlra).
  assert (Q : ((mx - mn) * a <= (mx - mn) * b)%num) by (apply qmul_le_l; qlra). destruct K as [(_ & -> & ->)|(_ & -> & ->)]; qlra.
Qed.
Lemma joined_alone P c d : (forall e, P e <-> e = c) -> joined P c d <-> d = c.
Proof. intro H. split; [intro J; apply joined_in in J; now apply H|intros ->; constructor; now apply H]. Qed.
Lemma zones_centers_lemma pick f b0 b1 rel k lo hi dx dy : picks pick -> sf_wf f -> sf_clean f -> (exists c v, shows_at f c v) -> regular_axis (ax (sg f)) dx -> regular_axis (ay (sg f)) dy ->
  bounds_meant f rel b0 b1 lo hi -> k <> ZOther ->
  (k = ZPonderated -> forall c, between f lo hi c -> exists d, joined (between f lo hi) c d /\ ~ shows_at f d (qz 0)) ->
  exists zones pts, are_zones (between f lo hi) zones /\ Forall2 (point_of f k lo hi) zones pts /\
    fst (zones_centers pick f (b0, b1) rel k) = Ok (match pts with [] => None | _ => Some pts end).
Proof.
  intros PK W C SH RX RY BM KO HZ. assert (LH := bounds_ordered _ _ _ _ _ _ BM). destruct (bounds_lemma f rel b0 b1 lo hi W C SH BM) as (a & b & EN & AB & K).
  unfold zones_centers. rewrite EN. cbn [fst snd].
  assert (qeqb a b = false) as -> by (apply qeqb_neq; now apply qlt_neq). assert (qltb b a = false) as -> by (apply qltb_ge; qlra). cbn [guard].
  destruct K as [K|[K NB]]; rewrite K; cbn [bind].
  2:{ exists [], []. split; [|split; [constructor|reflexivity]]. split; [intros z []|]. split; [intros c Pc; destruct (NB c Pc)|]. intros i j z z' c E. destruct i; discriminate. }
  unfold zones_in. destruct W as [[R0 R1] W2]. assert (W : sf_wf f) by (split; [split|]; assumption). rewrite R0, R1. set (n := length (ax (sg f))) in *. set (m := length (ay (sg f))) in *.
  set (ok := fun c : cell => (within (values f) (lo, hi) c && negb (at_ (msk f) (fst c) (snd c)))%bool).
  assert (HP : forall e, between f lo hi e <-> fst e < n /\ snd e < m /\ ok e = true) by (intro e; now apply within_iff).
  assert (WB : forall e, In e (filter (within (values f) (lo, hi)) (all_cells n m)) <-> between f lo hi e).
  { intro e. rewrite filter_In, in_all, HP. unfold ok. split; [intros [[H1 H2] H3]|intros (H1 & H2 & H3)].
    - split; [exact H1|]. split; [exact H2|]. rewrite H3. cbn [andb]. unfold within, at_cell in H3. destruct (at_ (msk f) (fst e) (snd e)) eqn:M; [|reflexivity]. unfold values in H3. cbn [at_] in H3. rewrite M in H3. discriminate.
    - apply andb_true_iff in H3. tauto. }
  assert (LZ := label_are_zones n m ok (between f lo hi) HP).
  assert (MAIN : exists pts, mapM (zone_point pick k (lo, hi) f) (label_zones (all_cells n m) ok) = Ok pts /\ Forall2 (point_of f k lo hi) (label_zones (all_cells n m) ok) pts).
  { apply mapM_exists. intros z I. destruct LZ as (Z1 & _). destruct (Z1 z I) as [NE Z]. assert (HB : forall c, In c z -> between f lo hi c) by (intros c Ic; apply (proj2 (Z c Ic)) in Ic; now apply joined_in in Ic).
    apply (zone_point_lemma pick f k lo hi z dx dy); auto. intro KP. destruct z as [|c z]; [now destruct NE|]. destruct (HZ KP c (HB c (or_introl eq_refl))) as (d & J & N). exists d. split; [|exact N]. apply (proj2 (Z c (or_introl eq_refl))). exact J. }
  assert (GEN : exists zones pts, are_zones (between f lo hi) zones /\ Forall2 (point_of f k lo hi) zones pts /\
    (raise ValueErr when (match k with ZOther => true | _ => false end) ;; let* pts := mapM (zone_point pick k (lo, hi) f) (label_zones (all_cells n m) ok) in Ok (match pts with [] => None | _ => Some pts end)) = Ok (match pts with [] => None | _ => Some pts end)).
  { destruct MAIN as (pts & EM & F). exists (label_zones (all_cells n m) ok), pts. split; [exact LZ|]. split; [exact F|]. destruct k; [| | |congruence]; cbn [guard]; now rewrite EM. }
  destruct (filter (within (values f) (lo, hi)) (all_cells n m)) as [|c [|c' r]] eqn:EF; [exact GEN| |exact GEN].
  assert (ONE : forall e, between f lo hi e <-> e = c) by (intro e; rewrite <- WB; cbn; intuition auto). assert (Bc : between f lo hi c) by now apply ONE. destruct Bc as (v & Sv & V).
  exists [[c]], [(nths (ax (sg f)) (fst c), nths (ay (sg f)) (snd c))]. split; [|split; [|reflexivity]].
  - split; [|split].
    + intros z [<-|[]]. split; [discriminate|]. intros c' [<-|[]]. split; [repeat constructor; auto|]. intro d. rewrite (joined_alone _ c d ONE). cbn. intuition auto.
    + intros c' Pc. apply ONE in Pc. subst c'. exists [c]. split; now left.
    + intros i j z z' e Ei Ej _ _. destruct i as [|i]; [|destruct i; discriminate]. destruct j as [|j]; [reflexivity|destruct j; discriminate].
  - constructor; [|constructor]. destruct k; [| | |congruence]; cbn [point_of fst snd].
    + exists c, v. do 3 (split; [auto; now left|]). intros d w [<-|[]] Sd. assert (w = v) as -> by (destruct Sd as (_ & _ & _ & E1); destruct Sv as (_ & _ & _ & E2); congruence). split; intros; apply qle_refl.
    + unfold total, cell_x, cell_y. cbn [map fold_right length]. change (qn 1) with 1%num. split; qring.
    + unfold cell_sum, cell_x, cell_y, Num.qsum. cbn [map fold_right]. destruct Sv as (_ & _ & _ & E). rewrite E. split; qring.
Qed.
(** a zone of null values has no centre of mass: the conversion of the index to an integer raises *)
(** ** the default bounds after n calls *)
Lemma qabs_pos_eq a : (0 <= a)%num -> qabs a = a.
Proof. intro H. unfold qabs. now rewrite (proj2 (qleb_le _ _) H). Qed.
Fixpoint qpow (a : num) (n : nat) : num := match n with 0 => 1%num | S n => (a * qpow a n)%num end.
Lemma default_drift n : default_after n = (qq 3 4 * qpow (1 - qq 1 100000) n, qpow (1 + qq 1 100000) n)%num.
Proof.
  assert (P1 : (0 < qq 1 100000)%num) by reflexivity. assert (P2 : (0 < 1 - qq 1 100000)%num) by reflexivity. set (e := qq 1 100000) in *.
  assert (PP : forall a k, (0 < a)%num -> (0 < qpow a k)%num) by (intros a k P; induction k as [|k IH]; [reflexivity|cbn [qpow]; now apply qmul_pos]).
  induction n as [|n IH]; [cbn [default_after qpow]; f_equal; qring|]. cbn [default_after qpow]. rewrite IH. unfold nudge. cbn [fst snd]. fold e.
  rewrite (qabs_pos_eq (qq 3 4 * qpow (1 - e) n)%num) by (apply Qclt_le_weak, qmul_pos; [reflexivity|now apply PP]). rewrite (qabs_pos_eq (qpow (1 + e) n)) by (apply Qclt_le_weak, PP; qlra).
  f_equal; qring.
Qed.
(** the lower bound decreases at each call, under any positive threshold *)
Lemma default_decreases n : (fst (default_after (S n)) < fst (default_after n))%num.
Proof.
  rewrite !default_drift. cbn [fst qpow]. assert (P1 : (0 < qq 1 100000)%num) by reflexivity. assert (P2 : (0 < 1 - qq 1 100000)%num) by reflexivity. set (e := qq 1 100000) in *.
  assert (PP : (0 < qpow (1 - e) n)%num) by (induction n as [|n IH]; [reflexivity|cbn [qpow]; now apply qmul_pos]). set (w := qpow (1 - e) n) in *.
  assert (Q := qmul_pos _ _ (qmul_pos (qq 3 4) e ltac:(reflexivity) P1) PP). replace (qq 3 4 * ((1 - e) * w))%num with (qq 3 4 * w - qq 3 4 * e * w)%num by qring. qlra.
Qed.
Lemma default_vanishes t : (0 < t)%num -> exists n, (fst (default_after n) < t)%num.
Proof.
  intro T. assert (P1 : (0 < qq 1 100000)%num) by reflexivity. assert (P2 : (0 < 1 - qq 1 100000)%num) by reflexivity. 
  assert (B : forall n, (qpow (1 - qq 1 100000) n * (1 + qn n * qq 1 100000) <= 1)%num /\ (0 < qpow (1 - qq 1 100000) n)%num).
  { set (e := qq 1 100000) in *. induction n as [|n [IH IP]]; [split; [change (qn 0) with (qz 0); cbn; qlra|reflexivity]|]. cbn [qpow]. rewrite qn_S. split; [|now apply qmul_pos].
    set (w := qpow (1 - e) n) in *. assert (X : (0 <= w * (e * e * (qn n + 1)))%num) by (apply qmul_nonneg; [now apply Qclt_le_weak|]; apply qmul_nonneg; [apply qmul_nonneg; now apply Qclt_le_weak|pose proof (qn_nonneg n); qlra]).
    replace ((1 - e) * w * (1 + (qn n + 1) * e))%num with (w * (1 + qn n * e) - w * (e * e * (qn n + 1)))%num by qring. qlra. }
  set (q := (1 / (t * qq 1 100000))%num). assert (PT := qmul_pos _ _ T P1). assert (D := qdiv_mul 1%num (t * qq 1 100000)%num ltac:(apply qgt_neq; exact PT)). fold q in D.
  exists (Z.to_nat (qfloor q + 1)). set (n := Z.to_nat (qfloor q + 1)). assert (QP : (0 < q)%num) by (unfold q; apply qdiv_pos; [reflexivity|exact PT]).
  assert (F0 : (0 <= qfloor q)%Z) by (apply qfloor_iff; now apply Qclt_le_weak). assert (NQ : (q < qn n)%num) by (unfold qn, n; rewrite Z2Nat.id by lia; apply qfloor_lt).
  rewrite default_drift. cbn [fst]. destruct (B n) as [B1 B2]. set (w := qpow (1 - qq 1 100000) n) in *. clearbody w n q. set (e := qq 1 100000) in *. clearbody e.
  assert (X : (1 < qn n * (t * e))%num) by (rewrite <- D; now apply qmul_lt_r). destruct (Qclt_le_dec (qq 3 4 * w)%num t) as [|Z]; [assumption|]. exfalso.
  assert (Z1 : (t <= w)%num) by (assert (W34 : (qq 3 4 * w <= w)%num) by (replace w with (1 * w)%num at 2 by qring; apply qmul_le_r; [now apply Qclt_le_weak|discriminate]); qlra).
  assert (NE : (0 < qn n * e)%num) by (apply qmul_pos; [qlra|exact P1]). assert (Y := qmul_le_r _ _ _ (Qclt_le_weak _ _ NE) Z1). replace (t * (qn n * e))%num with (qn n * (t * e))%num in Y by qring.
  replace (w * (1 + qn n * e))%num with (w + w * (qn n * e))%num in B1 by qring. qlra.
Qed.
