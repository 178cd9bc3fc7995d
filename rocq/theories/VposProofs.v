(** * VposProofs: proofs about the positions of vortices. *)
From Coq Require Import Permutation Lia.
From Verif Require Import Num Res ListLib SortLib SeqSpec Arr FieldModel ScalarFieldModel VectorFieldModel FieldSpec ProfileModel ProfileSpec PointsModel PointsSpec BlModel BlSpec VpropModel VpropSpec VpropProofs2
  Sf2Model Sf2Spec Sf2Proofs4 Sf2Proofs5 CritModel CritSpec CritProofs6 VposModel VposSpec.

Lemma joined_ext P Q c d : (forall e, P e <-> Q e) -> joined P c d -> joined Q c d.
Proof. intros H J. induction J as [A|d e J IH A B]; [apply joined_here, H, A|apply (joined_step Q c d e IH A), H, B]. Qed.
Lemma are_zones_ext P Q zs : (forall e, P e <-> Q e) -> are_zones P zs -> are_zones Q zs.
Proof.
  intros H (A & B & C). split; [|split; [|exact C]].
  - intros z I. destruct (A z I) as [N Z]. split; [exact N|]. intros c Ic. destruct (Z c Ic) as [ND J]. split; [exact ND|]. intros d. rewrite (J d).
    split; apply joined_ext; [exact H|]. intros e. symmetry. apply H.
  - intros c Qc. apply B, H, Qc.
Qed.
Lemma qabs_neg_eq a : (0 <= a)%num -> qabs (- a)%num = a.
Proof. intros H. rewrite qabs_opp. now apply qabs_pos_eq. Qed.
Lemma qabs_bounds v m : (qabs v <= m)%num -> (- m <= v <= m)%num.
Proof. intros H. destruct (qabs_spec v) as [[A E]|[A E]]; rewrite E in H; split; qlra. Qed.
Section V.
Context (pick : list cell -> cell) (PK : picks pick) (s : sfield) (dx dy : num) (W : sf_wf s) (C : sf_clean s) (SH : exists c v, shows_at s c v)
  (RX : regular_axis (ax (sg s)) dx) (RY : regular_axis (ay (sg s)) dy).
Lemma zones_of b0 b1 lo hi P : widened b0 b1 lo hi -> (lo < hi)%num -> (forall c, between s lo hi c <-> P c) ->
  (forall c, P c -> exists d, joined P c d /\ ~ shows_at s d (qz 0)) ->
  exists zones l, are_zones P zones /\ Forall2 (weighted_centre s) zones l /\ fst (zones_centers pick s (b0, b1) false ZPonderated) = Ok (match l with [] => None | _ => Some l end).
Proof.
  intros WD LT EQ HZ. destruct (zones_centers_lemma pick s b0 b1 false ZPonderated lo hi dx dy PK W C SH RX RY) as (zs & l & A & B & E).
  - exists lo, hi. split; [exact WD|]. split; [exact LT|]. split; reflexivity.
  - discriminate.
  - intros _ c Bc. apply EQ in Bc. destruct (HZ c Bc) as (d & J & N). exists d. split; [|exact N]. revert J. apply joined_ext. intros e. symmetry. apply EQ.
  - exists zs, l. split; [exact (are_zones_ext _ _ _ EQ A)|]. split; [exact B|exact E].
Qed.
Lemma points_of P zs l : are_zones P zs -> Forall2 (weighted_centre s) zs l -> centres_of s P (as_points s (match l with [] => None | _ => Some l end)).
Proof.
  intros A B. exists zs, l. split; [exact A|]. split; [exact B|]. destruct l as [|p l]; [reflexivity|]. cbn. repeat split. discriminate.
Qed.
End V.

Lemma vort_lemma pick criterion f threshold rel s m dx dy : picks pick -> crit_field criterion f = Ok s -> sf_wf s -> sf_clean s -> regular_axis (ax (sg s)) dx -> regular_axis (ay (sg s)) dy ->
  strongest s m -> (0 <= threshold)%num -> (rel = true -> (threshold <= 1)%num) -> (0 < m \/ 0 < level rel threshold m)%num ->
  (forall c, reaches_up s (level rel threshold m) c -> exists d, joined (reaches_up s (level rel threshold m)) c d /\ ~ shows_at s d (qz 0)) ->
  (forall c, reaches_down s (level rel threshold m) c -> exists d, joined (reaches_down s (level rel threshold m)) c d /\ ~ shows_at s d (qz 0)) ->
  exists down up, vort_on_vf pick criterion f threshold rel = Ok (down, up) /\
    centres_of s (reaches_up s (level rel threshold m)) up /\ centres_of s (reaches_down s (level rel threshold m)) down.
Proof.
  intros PK E W C RX RY M T0 T1 POS HU HD.
  assert (SH : exists c v, shows_at s c v) by (destruct M as [(c & v & S0 & _) _]; eauto).
  assert (M0 : (0 <= m)%num) by (destruct M as [(c & v & _ & <-) _]; apply qabs_nonneg).
  destruct (strongest_lemma s W C SH) as (m' & EM & M'). assert (m' = m) as ->.
  { destruct M as [(c & v & S0 & <-) A], M' as [(c' & v' & S1 & <-) A']. apply Qcle_antisym; [exact (A _ _ S1)|exact (A' _ _ S0)]. }
  unfold vort_on_vf. assert (qltb threshold 0 = false) as -> by (apply qltb_ge; qlra). cbn [guard].
  assert ((rel && qltb 1 threshold)%bool = false) as -> by (destruct rel; [apply qltb_ge, T1; reflexivity|reflexivity]). cbn [guard]. rewrite E. cbn [bind]. rewrite EM. cbn [bind].
  fold (level rel threshold m). set (t := level rel threshold m) in *.
  assert (L0 : (0 <= t)%num) by (unfold t, level; destruct rel; [qnra|exact T0]). clearbody t.
  assert (BD : forall c v, shows_at s c v -> (- m <= v <= m)%num) by (intros c v Sv; apply qabs_bounds; exact (proj2 M c v Sv)).
  set (b := vort_bounds m t). assert (EB : exists g, (t <= g)%num /\ (m <= g)%num /\ (0 < g)%num /\ b = ((- g, - t), (t, g))%num).
  { unfold b, vort_bounds. destruct (qltb t m) eqn:Q; [apply qltb_lt in Q|apply qltb_ge in Q].
    - exists m. split; [qlra|]. split; [qlra|]. split; [qlra|reflexivity].
    - assert (0 < t)%num by (destruct POS; [qlra|assumption]). exists (t * qq 11 10)%num. assert (K : (qq 11 10 = 1 + qq 1 10)%num) by (apply Qc_is_canon; reflexivity). assert (K' : (0 < qq 1 10)%num) by reflexivity.
      split; [rewrite K; qnra|]. split; [rewrite K; qnra|]. split; [rewrite K; qnra|]. f_equal. f_equal. qring. }
  destruct EB as (g & G1 & G2 & G3 & ->). cbn [fst snd].
  assert (K : (0 < qq 1 100000)%num) by reflexivity. assert (K1 : (qq 1 100000 < 1)%num) by reflexivity. set (e := qq 1 100000) in *.
  destruct (zones_of pick PK s dx dy W C SH RX RY (- g)%num (- t)%num (- g - g * e)%num (- nearly t)%num (reaches_down s t)) as (zd & ld & AD & BDn & ED).
  { split; [rewrite qabs_neg_eq by qlra; reflexivity|]. rewrite qabs_neg_eq by exact L0. unfold nearly. fold e. qring. }
  { unfold nearly. fold e. qnra. }
  { intros c. split; intros (v & Sv & H); exists v; (split; [exact Sv|]); [apply H|]. split; [|exact H]. destruct (BD c v Sv). qnra. }
  { exact HD. }
  destruct (zones_of pick PK s dx dy W C SH RX RY t g (nearly t) (g + g * e)%num (reaches_up s t)) as (zu & lu & AU & BU & EU).
  { assert (A : qabs t = t) by (unfold qabs; now rewrite (proj2 (qleb_le _ _) L0)). assert (A' : qabs g = g) by (unfold qabs; now rewrite (proj2 (qleb_le 0 g) ltac:(qlra))). split; [rewrite A; reflexivity|rewrite A'; reflexivity]. }
  { unfold nearly. fold e. qnra. }
  { intros c. split; intros (v & Sv & H); exists v; (split; [exact Sv|]); [apply H|]. split; [exact H|]. destruct (BD c v Sv). qnra. }
  { exact HU. }
  rewrite ED, EU. cbn [bind]. do 2 eexists. split; [reflexivity|]. split; [exact (points_of s _ _ _ AU BU)|exact (points_of s _ _ _ AD BDn)].
Qed.

(** ** in time *)
Lemma track_lemma pick asort criterion threshold rel l : is_argsort asort -> forall c c', crit_ok c -> vort_loop pick asort criterion c l threshold rel = Ok c' ->
  crit_ok c' /\ exists rs, Forall2 (fun tf r => vort_on_vf pick criterion (snd tf) threshold rel = Ok r) l rs /\
    (forall t, In t (map fst l) -> ~ In t (ctimes c)) /\ NoDup (map fst l) /\
    forall k, exists ps, Forall2 (fun r p => given_set (vort_args r) k p) rs ps /\ Permutation (frames c' k) (combine (map fst l) ps ++ frames c k).
Proof.
  intros A. induction l as [|[t f] l IH]; intros c c' O E.
  - injection E as <-. split; [exact O|]. exists []. split; [constructor|]. split; [intros t []|]. split; [constructor|]. intros k. exists []. split; [constructor|reflexivity].
  - cbn [vort_loop] in E. unfold vort_add in E. destruct (vort_on_vf pick criterion f threshold rel) as [r|] eqn:R; [|discriminate E]. cbn [bind] in E.
    destruct (crit_add asort c (vort_args r) t) as [c1 [x|]] eqn:AD; [discriminate E|]. cbn [bind] in E.
    destruct (crit_add_lemma asort c _ t c1 A O AD) as (O1 & NT & F). destruct (IH c1 c' O1 E) as (O2 & rs & RS & NI & ND & PS). split; [exact O2|].
    assert (TM : forall x, In x (ctimes c1) <-> x = t \/ In x (ctimes c)).
    { destruct (F Foc) as (p & _ & P). apply (Permutation_map fst) in P. unfold frames in P. cbn [map] in P.
      assert (MC : forall d : crit, crit_ok d -> map fst (combine (ctimes d) (cpts d Foc)) = ctimes d).
      { intros d [_ L]. specialize (L Foc). revert L. generalize (cpts d Foc). generalize (ctimes d). clear. induction l as [|a l IH]; intros [|q r] L; try discriminate L; [reflexivity|]. cbn. f_equal. apply IH. injection L as L. exact L. }
      rewrite !MC in P by assumption. cbn [fst] in P. intros x. split; intros H.
      - apply (Permutation_in _ P) in H. cbn in H. intuition auto.
      - apply (Permutation_in _ (Permutation_sym P)). cbn. intuition auto. }
    exists (r :: rs). split; [constructor; [exact R|exact RS]|]. split; [|split].
    + intros x [<-|I]; [exact NT|]. intros Ix. apply (NI x I). apply TM. right. exact Ix.
    + cbn [map]. constructor; [|exact ND]. intros I. apply (NI _ I). apply TM. left. reflexivity.
    + intros k. destruct (F k) as (p & GP & P). destruct (PS k) as (ps & FP & PP). exists (p :: ps). split; [constructor; [exact GP|exact FP]|]. cbn [map combine app fst].
      rewrite PP, P. symmetry. apply Permutation_middle.
Qed.
Lemma add_units_kept asort c new t c' : crit_add asort c new t = (c', None) -> ctimes c <> [] -> cux c' = cux c /\ cuy c' = cuy c.
Proof.
  unfold crit_add. destruct (existsb (qeqb t) (ctimes c)); [discriminate|]. destruct (ctimes c) as [|a q] eqn:Et; [contradiction|]. destruct (existsb _ kinds); [discriminate|].
  intros E _. injection E as <-. split; reflexivity.
Qed.
Lemma track_accepts pick asort criterion threshold rel l u w : is_argsort asort -> forall c, crit_ok c -> (ctimes c <> [] -> cux c = u /\ cuy c = w) ->
  (ctimes c = [] -> match l with [] => True | (t, f) :: _ => exists r k p, vort_on_vf pick criterion f threshold rel = Ok r /\ vort_args r k = Some p end) ->
  NoDup (map fst l) -> (forall t, In t (map fst l) -> ~ In t (ctimes c)) ->
  (forall t f, In (t, f) l -> exists r, vort_on_vf pick criterion f threshold rel = Ok r /\ forall k p, vort_args r k = Some p -> ptx p = u /\ pty p = w) ->
  exists c', vort_loop pick asort criterion c l threshold rel = Ok c'.
Proof.
  intros A. induction l as [|[t f] l IH]; intros c O U FI ND NI OK; [eexists; reflexivity|]. cbn [vort_loop]. unfold vort_add.
  destruct (OK t f (or_introl eq_refl)) as (r & R & UN). rewrite R. cbn [bind].
  destruct (crit_add_accepts asort c (vort_args r) t (NI t (or_introl eq_refl))) as (c1 & AD); [exists u, w; split; [exact U|exact UN]|]. rewrite AD. cbn [bind].
  destruct (crit_add_lemma asort c _ t c1 A O AD) as (O1 & NT & F). inversion ND as [|? ? N1 N2]; subst. assert (NE : ctimes c1 <> []).
  { intros Z. destruct (F Foc) as (q & _ & P). unfold frames in P. rewrite Z in P. apply Permutation_nil in P. discriminate P. }
  apply IH; [exact O1| |intros Z; contradiction|exact N2| |].
  - intros _. destruct (ctimes c) as [|a q] eqn:Et.
    + destruct (FI eq_refl) as (r' & k & p & R' & EP). rewrite R in R'. injection R' as <-. destruct (crit_add_units asort c _ t c1 k p AD EP) as [<- <-]. exact (UN k p EP).
    + destruct (add_units_kept asort c _ t c1 AD) as [-> ->]; [rewrite Et; discriminate|]. apply U. discriminate.
  - intros x I Ix. destruct (F Foc) as (q & _ & P).
    assert (TX : In x (map fst (frames c1 Foc))).
    { destruct O1 as [_ L]. specialize (L Foc). unfold frames. revert L Ix. generalize (cpts c1 Foc). generalize (ctimes c1). clear. induction l as [|a l IH]; intros [|q r] L I; try discriminate L; [destruct I|]. cbn. destruct I as [->|I]; [left; reflexivity|right]. apply IH; [injection L as L; exact L|exact I]. }
    apply (Permutation_in _ (Permutation_map fst P)) in TX. destruct TX as [E|TX]; [cbn in E; subst x; apply N1, I|].
    apply (NI x (or_intror I)). apply in_map_iff in TX as ([a b] & <- & IN). apply in_combine_l in IN. exact IN.
  - intros t' f' I. apply (OK t' f'). right. exact I.
Qed.
