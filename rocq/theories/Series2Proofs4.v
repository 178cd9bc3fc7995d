(** * Series2Proofs4: the weird fields of a series (C146). *)
From Coq Require Import Lia ZArith.
From Verif Require Import Num Res ListLib SortLib Arr FieldModel ScalarFieldModel VectorFieldModel FieldSpec ProfileModel ProfileSpec Prof2Model Prof2Spec
  SeqSpec PointsSpec TemporalModel TemporalSpec TemporalProofs TemporalProofs2 TemporalProofs6 PodModel PodProofs Prof2Proofs3 GradProofs Series2Model Series2Spec Series2Proofs Series2Proofs2.

(** ** the frames found *)
Lemma vf_clean_idx f : TemporalSpec.vf_clean f -> forall i j, i < length (ax (vg f)) -> j < length (ay (vg f)) ->
  (at_ (cx f) i j = None <-> at_ (vmsk f) i j = true) /\ (at_ (cy f) i j = None <-> at_ (vmsk f) i j = true).
Proof.
  intros C i j Hi Hj. apply (C (nths (ax (vg f)) i) (nths (ay (vg f)) j)). exists i, j. repeat split; apply nths_nth_error; assumption.
Qed.
Lemma magnitudes_norms root f : vf_wf f -> TemporalSpec.vf_clean f -> magnitudes root f = Some (Num.qsum (norms root f)).
Proof.
  intros ((X0 & X1) & _) C. unfold magnitudes. rewrite X0, X1. rewrite <- osum_some. f_equal. unfold norms.
  assert (Q : forall l, (forall c, In c l -> fst c < length (ax (vg f)) /\ snd c < length (ay (vg f))) ->
    flat_map (fun c => if at_ (vmsk f) (fst c) (snd c) then [] else [option_map root (oadd (omul (at_ (cx f) (fst c) (snd c)) (at_ (cx f) (fst c) (snd c))) (omul (at_ (cy f) (fst c) (snd c)) (at_ (cy f) (fst c) (snd c))))]) l =
    map Some (flat_map (fun c => if at_ (vmsk f) (fst c) (snd c) then [] else match at_ (cx f) (fst c) (snd c), at_ (cy f) (fst c) (snd c) with Some a, Some b => [root (a * a + b * b)%num] | _, _ => [] end) l)).
  { induction l as [|c l IH]; intro H; [reflexivity|]. cbn [map flat_map]. rewrite IH by (intros; apply H; now right). rewrite map_app. f_equal.
    destruct (H c (or_introl eq_refl)) as [Hi Hj]. destruct (vf_clean_idx f C _ _ Hi Hj) as [CX CY]. destruct (at_ (vmsk f) (fst c) (snd c)); [reflexivity|].
    destruct (at_ (cx f) (fst c) (snd c)); [|assert (Y := proj1 CX eq_refl); discriminate]. destruct (at_ (cy f) (fst c) (snd c)); [|assert (Y := proj1 CY eq_refl); discriminate]. reflexivity. }
  apply Q. intros [i j] I. apply in_prod_iff in I. destruct I as [I J]. apply in_seq in I, J. cbn. lia.
Qed.
Lemma weird_inds_spec root coef t : (0 <= coef)%num -> (forall f, In f (tff t) -> vf_wf f /\ TemporalSpec.vf_clean f) ->
  let ws := weird_inds (map (magnitudes root) (tff t)) coef in NoDup ws /\ (forall k, In k ws <-> weird root coef t k) /\ forall k, In k ws -> k < length (tff t).
Proof.
  intros C W. cbv zeta. assert (E : map (magnitudes root) (tff t) = map Some (norm_sums root t)).
  { unfold norm_sums. rewrite map_map. apply map_ext_in. intros f I. destruct (W f I). now apply magnitudes_norms. }
  rewrite E. unfold weird_inds. rewrite all_numbers_some. cbv zeta. rewrite variance_eq, mean_average.
  assert (L : length (norm_sums root t) = length (tff t)) by apply map_length.
  split; [apply NoDup_filter, seq_NoDup|]. split.
  - intro k. rewrite filter_In, in_seq, beyond_both by exact C. unfold weird. rewrite marginal_iff. split.
    + intros [H M]. exists (nths (norm_sums root t) k). split; [apply nths_nth_error; lia|exact M].
    + intros (v & Ev & M). assert (K := nth_error_Some_lt _ _ _ Ev). split; [lia|]. rewrite (nth_error_nths _ _ _ Ev). exact M.
  - intros k I. apply filter_In in I. destruct I as [I _]. apply in_seq in I. lia.
Qed.

(** ** the distance *)
Lemma memz_spec k ws : memz (Z.of_nat k) (map Z.of_nat ws) = true <-> In k ws.
Proof.
  unfold memz. rewrite existsb_exists. split.
  - intros (z & I & E). apply in_map_iff in I. destruct I as (x & <- & I). apply Z.eqb_eq in E. apply Nat2Z.inj in E. now subst.
  - intro I. exists (Z.of_nat k). split; [now apply in_map|apply Z.eqb_refl].
Qed.
Lemma memz_in k ws : memz k ws = true <-> In k ws.
Proof. unfold memz. rewrite existsb_exists. split; [intros (z & I & E); apply Z.eqb_eq in E; now subst|intro I; exists k; split; [exact I|apply Z.eqb_refl]]. Qed.
Lemma eps_cases w ws : forall fuel e,
  (exists r, weird_eps fuel w ws e = Ok r /\ (e <= r)%Z /\ ~ In (w + r)%Z ws /\ ~ In (w - r)%Z ws /\ forall x, (e <= x < r)%Z -> In (w + x)%Z ws \/ In (w - x)%Z ws) \/
  (weird_eps fuel w ws e = Err OutOfFuel /\ forall x, (e <= x < e + Z.of_nat fuel)%Z -> In (w + x)%Z ws \/ In (w - x)%Z ws).
Proof.
  induction fuel as [|fuel IH]; intro e; cbn [weird_eps].
  - right. split; [reflexivity|]. intros; lia.
  - destruct (memz (w + e) ws || memz (w - e) ws)%bool eqn:B.
    + assert (BE : In (w + e)%Z ws \/ In (w - e)%Z ws) by (apply orb_true_iff in B; rewrite !memz_in in B; exact B).
      destruct (IH (e + 1)%Z) as [(r & E & L & N1 & N2 & A)|[E A]].
      * left. exists r. split; [exact E|]. split; [lia|]. split; [exact N1|]. split; [exact N2|]. intros x X. destruct (Z.eq_dec x e) as [->|]; [exact BE|]. apply A. lia.
      * right. split; [exact E|]. intros x X. destruct (Z.eq_dec x e) as [->|]; [exact BE|]. apply A. lia.
    + left. exists e. apply orb_false_iff in B. destruct B as [B1 B2]. split; [reflexivity|]. split; [lia|].
      split; [intro I; apply memz_in in I; congruence|]. split; [intro I; apply memz_in in I; congruence|]. intros; lia.
Qed.
Lemma eps_total w ws : exists r, weird_eps (S (length ws)) w ws 1 = Ok r /\ (1 <= r)%Z /\ ~ In (w + r)%Z ws /\ ~ In (w - r)%Z ws /\ forall x, (1 <= x < r)%Z -> In (w + x)%Z ws \/ In (w - x)%Z ws.
Proof.
  destruct (eps_cases w ws (S (length ws)) 1%Z) as [H|[_ A]]; [exact H|exfalso].
  set (pick := fun x : nat => if memz (w + Z.of_nat x) ws then (w + Z.of_nat x)%Z else (w - Z.of_nat x)%Z).
  assert (I : incl (map pick (seq 1 (S (length ws)))) ws).
  { intros z Iz. apply in_map_iff in Iz. destruct Iz as (x & <- & Ix). apply in_seq in Ix. unfold pick. destruct (memz (w + Z.of_nat x) ws) eqn:M; [now apply memz_in|].
    destruct (A (Z.of_nat x)) as [K|K]; [lia| |exact K]. apply memz_in in K. congruence. }
  assert (N : NoDup (map pick (seq 1 (S (length ws))))).
  { assert (G : forall l, NoDup l -> (forall x, In x l -> 1 <= x) -> NoDup (map pick l)).
    { induction l as [|a l IH]; intros ND P; [constructor|]. inversion ND as [|? ? Na NDl]; subst. cbn [map]. constructor; [|apply IH; [exact NDl|intros x Ix; apply P; now right]].
      intro Ia. apply in_map_iff in Ia. destruct Ia as (b & E & Ib). assert (Pa := P a (or_introl eq_refl)). assert (Pb := P b (or_intror Ib)).
      assert (a <> b) by (intros ->; contradiction). unfold pick in E. destruct (memz (w + Z.of_nat a) ws), (memz (w + Z.of_nat b) ws); lia. }
    apply G; [apply seq_NoDup|]. intros x Ix. apply in_seq in Ix. lia. }
  assert (L := NoDup_incl_length N I). rewrite map_length, seq_length in L. lia.
Qed.
Lemma eps_surrounded ws len k e : surrounded (fun i => In i ws) len k e -> weird_eps (S (length (map Z.of_nat ws))) (Z.of_nat k) (map Z.of_nat ws) 1 = Ok (Z.of_nat e).
Proof.
  intros (E1 & E2 & N1 & N2 & A). destruct (eps_total (Z.of_nat k) (map Z.of_nat ws)) as (r & E & L & M1 & M2 & B). rewrite E. f_equal.
  assert (inm : forall i, In (Z.of_nat i) (map Z.of_nat ws) <-> In i ws).
  { intro i. split; [|apply in_map]. intro I. apply in_map_iff in I. destruct I as (x & Ex & I). apply Nat2Z.inj in Ex. now subst. }
  destruct (Z.lt_trichotomy r (Z.of_nat e)) as [H|[H|H]]; [exfalso|exact H|exfalso].
  - destruct (A (Z.to_nat r)) as [K|K]; [lia| |].
    + apply M1. replace (Z.of_nat k + r)%Z with (Z.of_nat (k + Z.to_nat r)) by lia. now apply inm.
    + apply M2. replace (Z.of_nat k - r)%Z with (Z.of_nat (k - Z.to_nat r)) by lia. now apply inm.
  - destruct (B (Z.of_nat e)) as [K|K]; [lia| |].
    + apply N1. apply inm. now replace (Z.of_nat (k + e)) with (Z.of_nat k + Z.of_nat e)%Z by lia.
    + apply N2. apply inm. now replace (Z.of_nat (k - e)) with (Z.of_nat k - Z.of_nat e)%Z by lia.
Qed.

(** ** the loop *)
Lemma py_get_nth {A} (l : list A) k a : nth_error l k = Some a -> py_get l (Z.of_nat k) = Ok a.
Proof.
  intro E. assert (L := nth_error_Some_lt _ _ _ E). unfold py_get. replace (Z.of_nat k <? 0)%Z with false by lia. cbv zeta.
  replace ((0 <=? Z.of_nat k)%Z && (Z.of_nat k <? Z.of_nat (length l))%Z)%bool with true by lia. now rewrite Nat2Z.id, E.
Qed.
Lemma replace_len {A} k (a : A) l : length (replace_at k a l) = length l.
Proof. revert k; induction l as [|x l IH]; intros [|k]; cbn; auto. Qed.
Lemma replace_nth {A} k (a : A) l i : nth_error (replace_at k a l) i = if (Nat.eqb i k && Nat.ltb i (length l))%bool then Some a else nth_error l i.
Proof.
  revert k i; induction l as [|x l IH]; intros [|k] [|i]; cbn; try reflexivity.
  - now rewrite andb_false_r.
  - rewrite IH. reflexivity.
Qed.
Lemma middle_half a b s : vg b = vg a -> good_unit (vuv a) -> vf_wf a -> dim (vuv a) = dim (vuv b) -> vf_plus a b = Ok s -> middle a b (vf_div_num s 2%num).
Proof.
  intros Eg Gu W D E. destruct (vf_add_cells a b Eg D Gu W) as (s' & k & E' & Hk & Gs & Us & Ws & V). rewrite E in E'. injection E' as <-.
  unfold middle, vf_div_num. cbn [vg vuv vmsk cx cy]. split; [exact Gs|]. split; [now rewrite Us|]. intros i j Hi Hj. destruct (V i j) as (V0 & V1 & V2). split; [exact V0|].
  intros M ax1 ay1 bx by1 A1 A2 B1 B2. unfold nanify. cbn [at_ amap]. rewrite M in V1, V2. rewrite M, V1, V2, A1, A2, B1, B2. cbn [oscale option_map oadd odiv].
  assert (T : qeqb 2%num 0%num = false) by reflexivity. rewrite ?T. cbn [oadd odiv option_map]. rewrite ?T. do 2 eexists. split; [reflexivity|]. split; [reflexivity|]. rewrite Us.
  assert (N2 : (2 <> 0)%num) by (now apply qeqb_neq). split.
  - set (v := ((ax1 + bx * k) / 2)%num). assert (X : (v * 2 = ax1 + bx * k)%num) by (now apply qdiv_mul). clearbody v. rewrite <- Hk.
    replace (2 * (v * sc (vuv a)))%num with (v * 2 * sc (vuv a))%num by qring. rewrite X. qring.
  - set (v := ((ay1 + by1 * k) / 2)%num). assert (X : (v * 2 = ay1 + by1 * k)%num) by (now apply qdiv_mul). clearbody v. rewrite <- Hk.
    replace (2 * (v * sc (vuv a)))%num with (v * 2 * sc (vuv a))%num by qring. rewrite X. qring.
Qed.
Lemma replace_loop g (orig : list vfield) ws : (forall f, In f orig -> vg f = g /\ vf_wf f /\ good_unit (vuv f)) -> (forall f h, In f orig -> In h orig -> dim (vuv f) = dim (vuv h)) ->
  forall todo fs, incl todo ws -> NoDup todo -> (forall k, In k todo -> exists e, surrounded (fun i => In i ws) (length orig) k e) ->
  length fs = length orig -> (forall k, ~ In k ws -> nth_error fs k = nth_error orig k) ->
  exists fs', weird_replace (map Z.of_nat ws) fs todo = Ok fs' /\ length fs' = length orig /\
    (forall k, ~ In k todo -> nth_error fs' k = nth_error fs k) /\
    (forall k e a b, In k todo -> surrounded (fun i => In i ws) (length orig) k e -> nth_error orig (k + e) = Some a -> nth_error orig (k - e) = Some b ->
       exists f, nth_error fs' k = Some f /\ middle a b f).
Proof.
  intros W D. induction todo as [|w todo IH]; intros fs I ND Su L K.
  - exists fs. cbn. repeat split; auto. intros k e a b [].
  - destruct (Su w (or_introl eq_refl)) as (e & Se). assert (Se' := Se). destruct Se' as (E1 & E2 & N1 & N2 & _).
    destruct (nth_error orig (w + e)) as [a|] eqn:Ea; [|apply nth_error_None in Ea; lia]. destruct (nth_error orig (w - e)) as [b|] eqn:Eb; [|apply nth_error_None in Eb; lia].
    cbn [weird_replace]. rewrite (eps_surrounded ws (length orig) w e Se). cbn [bind].
    replace (Z.of_nat w + Z.of_nat e)%Z with (Z.of_nat (w + e)) by lia. replace (Z.of_nat w - Z.of_nat e)%Z with (Z.of_nat (w - e)) by lia.
    rewrite (py_get_nth fs (w + e) a) by (now rewrite K). cbn [bind]. rewrite (py_get_nth fs (w - e) b) by (now rewrite K). cbn [bind].
    destruct (W a (nth_error_In _ _ Ea)) as (Ga & Wa & Ua). destruct (W b (nth_error_In _ _ Eb)) as (Gb & Wb & Ub).
    assert (Dab := D a b (nth_error_In _ _ Ea) (nth_error_In _ _ Eb)).
    destruct (vf_add_cells a b ltac:(congruence) Dab Ua Wa) as (s & k0 & Es & _). rewrite Es. cbn [bind].
    inversion ND as [|? ? Nw NDt]; subst.
    destruct (IH (replace_at w (vf_div_num s 2%num) fs)) as (fs' & E' & L' & Out & In'); auto.
    + intros x Ix. apply I. now right.
    + intros k Ik. apply Su. now right.
    + now rewrite replace_len.
    + intros k Nk. rewrite replace_nth. destruct (Nat.eqb_spec k w) as [->|]; [exfalso; apply Nk, I; now left|]. cbn [andb]. now apply K.
    + exists fs'. split; [exact E'|]. split; [exact L'|]. split.
      * intros k Nk. rewrite Out by (intro; apply Nk; now right). rewrite replace_nth. destruct (Nat.eqb_spec k w) as [->|]; [exfalso; apply Nk; now left|]. reflexivity.
      * intros k e' a' b' [<-|Ik] Sk Ea' Eb'; [|now apply (In' k e')].
        rewrite Out by exact Nw. rewrite replace_nth, Nat.eqb_refl. replace (Nat.ltb w (length fs)) with true by (symmetry; apply Nat.ltb_lt; lia). cbn [andb].
        eexists. split; [reflexivity|]. assert (e' = e).
        { assert (X := eps_surrounded ws (length orig) w e Se). rewrite (eps_surrounded ws (length orig) w e' Sk) in X. injection X as X. lia. }
        subst e'. rewrite Ea in Ea'. rewrite Eb in Eb'. injection Ea' as <-. injection Eb' as <-. apply middle_half; auto; congruence.
Qed.
Lemma surrounded_ext (P Q : nat -> Prop) len k e : (forall i, P i <-> Q i) -> surrounded P len k e -> surrounded Q len k e.
Proof. intros H (A & B & C & D & E). split; [exact A|]. split; [exact B|]. split; [now rewrite <- H|]. split; [now rewrite <- H|]. intros x X. rewrite <- !H. now apply E. Qed.
Lemma weird_interpolate root coef t : vf_series_ok t -> (0 <= coef)%num ->
  (forall k, weird root coef t k -> exists e, surrounded (weird root coef t) (length (tff t)) k e) ->
  exists t', remove_weird root t coef WInterpolate = Ok t' /\ tft t' = tft t /\ tfu t' = tfu t /\ tfg t' = tfg t /\ length (tff t') = length (tff t) /\
    forall k, (~ weird root coef t k -> nth_error (tff t') k = nth_error (tff t) k) /\
      (forall e a b, weird root coef t k -> surrounded (weird root coef t) (length (tff t)) k e -> nth_error (tff t) (k + e) = Some a -> nth_error (tff t) (k - e) = Some b ->
         exists f, nth_error (tff t') k = Some f /\ middle a b f).
Proof.
  intros (G & OG & W & D) C Su. destruct (weird_inds_spec root coef t C) as (ND & Sp & Lt); [intros f I; destruct (W f I) as (A & B & _); auto|].
  unfold remove_weird. set (ws := weird_inds _ coef) in *.
  destruct (replace_loop (tfg t) (tff t) ws) with (todo := ws) (fs := tff t) as (fs' & E & L & Out & In'); auto.
  - intros f I. destruct (W f I) as (A & _ & B). split; [exact (OG f I)|auto].
  - apply incl_refl.
  - intros k Ik. destruct (Su k) as (e & Se); [now apply Sp|]. exists e. apply (surrounded_ext (weird root coef t)); [intro; now rewrite Sp|exact Se].
  - rewrite E. cbn [bind]. eexists. split; [reflexivity|]. cbn [tft tfu tfg tff]. do 3 (split; [reflexivity|]). split; [exact L|]. intro k. split.
    + intro Nk. apply Out. now rewrite Sp.
    + intros e a b Wk Sk Ea Eb. apply (In' k e); auto; [now apply Sp|]. apply (surrounded_ext (weird root coef t)); [intro; now rewrite Sp|exact Sk].
Qed.
Lemma weird_remove root coef t k : vf_series_ok t -> tf_ok t -> (0 <= coef)%num -> (forall i, weird root coef t i <-> i = k) ->
  exists t', remove_weird root t coef WRemove = Ok t' /\ tfu t' = tfu t /\ tfg t' = tfg t /\ keeps (fun i => i <> k) (frames t) (frames t').
Proof.
  intros (G & OG & W & D) O C H. destruct (weird_inds_spec root coef t C) as (ND & Sp & Lt); [intros f I; destruct (W f I) as (A & B & _); auto|].
  unfold remove_weird. set (ws := weird_inds _ coef) in *.
  assert (E : ws = [k]).
  { assert (Ik : In k ws) by (apply Sp, H; reflexivity). destruct ws as [|a [|b l]]; [contradiction| |].
    - f_equal. apply H, Sp. now left.
    - exfalso. assert (a = k) by (apply H, Sp; now left). assert (b = k) by (apply H, Sp; right; now left). subst. inversion ND as [|? ? Na _]; subst. apply Na. now left. }
  assert (Lk := Lt k ltac:(apply Sp, H; reflexivity)). rewrite E. cbn [map].
  destruct (tf_remove_lemma t (Z.of_nat k) O) as (t' & Et & _ & Eu & Eg & K); [unfold index_ok; lia|].
  rewrite Et. cbn [out_res]. exists t'. split; [reflexivity|]. split; [exact Eu|]. split; [exact Eg|]. eapply keeps_ext; [|exact K].
  intros i Li. unfold PointsSpec.designates. unfold frames in Li. rewrite combine_length in Li. destruct O as [O _]. lia.
Qed.
Lemma weird_none root coef t w : w = WInterpolate \/ w = WRemove -> vf_series_ok t -> (0 <= coef)%num -> (forall i, ~ weird root coef t i) -> remove_weird root t coef w = Ok t.
Proof.
  intros Hw (G & OG & W & D) C H. destruct (weird_inds_spec root coef t C) as (ND & Sp & Lt); [intros f I; destruct (W f I) as (A & B & _); auto|].
  unfold remove_weird. set (ws := weird_inds _ coef) in *.
  assert (E : ws = []) by (destruct ws as [|a l]; [reflexivity|]; exfalso; apply (H a), Sp; now left). rewrite E. destruct Hw as [-> | ->]; cbn; now destruct t.
Qed.
