(** * TemporalProofs: sorting, adding, removing and cropping the frames of a series. *)
From Verif Require Import Num Res ListLib SortLib Arr FieldModel ScalarFieldModel VectorFieldModel ProfileModel FieldSpec SeqSpec
  PointsModel PointsSpec PointsProofs PointsProofs2 PointsProofs6 TemporalModel TemporalSpec.
Require Import Sorted.

(** ** selection by positions *)
Lemma pick_gather {A} (d : A) o l : (forall i, In i o -> i < length l) -> pick o l = gather d o l.
Proof.
  induction o as [|i o IH]; intro H; [reflexivity|]. unfold pick in *. cbn [flat_map gather map].
  destruct (nth_error l i) as [x|] eqn:E.
  - cbn [app]. rewrite IH by (intros; apply H; now right). rewrite (nth_error_nth _ _ d E). reflexivity.
  - apply nth_error_None in E. specialize (H i (or_introl eq_refl)). lia.
Qed.
Lemma pick_seq {A} (l : list A) : pick (seq 0 (length l)) l = l.
Proof.
  destruct l as [|a l]; [reflexivity|]. rewrite (pick_gather a) by (intros i I; apply in_seq in I; lia). apply gather_seq.
Qed.
(** a strictly increasing list has only one sorting *)
Lemma argsort_increasing asort l : is_argsort asort -> increasing l -> asort l = seq 0 (length l).
Proof.
  intros AS I. destruct (AS l) as [P S0].
  assert (Lo : length (asort l) = length l) by (apply Permutation_length in P; rewrite seq_length in P; exact P).
  assert (ND : NoDup (asort l)) by (eapply Permutation_NoDup; [symmetry; exact P|apply seq_NoDup]).
  assert (B : forall i, In i (asort l) -> i < length l) by (intros i H; eapply perm_seq_lt; eauto).
  apply ssorted_ext; [|apply ssorted_seq|].
  - (* strictly sorted *)
    clear P Lo. revert S0 ND B. generalize (asort l). intro o. induction o as [|i o IH]; intros S0 ND B; constructor.
    + cbn [gather map] in S0. apply nondecreasing_cons in S0. apply IH; [apply S0|inversion ND; assumption|intros; apply B; now right].
    + cbn [gather map] in S0. apply nondecreasing_cons in S0. destruct S0 as [_ S0]. rewrite Forall_forall. intros j J.
      assert (Hle : (nths l i <= nths l j)%num) by (apply S0; apply (in_map (fun k => nths l k)); exact J).
      apply (increasing_le_inv l i j I (B i (or_introl eq_refl)) (B j (or_intror J))) in Hle.
      inversion ND; subst. assert (i <> j) by (intro; subst; contradiction). lia.
  - intro i. split; intro H; [eapply Permutation_in; [exact P|exact H]|eapply Permutation_in; [symmetry; exact P|exact H]].
Qed.

(** ** sorting *)
Lemma tf_sort_lemma {F} asort (t : tfield F) : is_argsort asort -> length (tft t) = length (tff t) ->
  exists t', tf_sort asort t = (t', None) /\ tf_ok t' /\ Permutation (frames t') (frames t) /\
    tfg t' = tfg t /\ tfu t' = tfu t /\ tfa t' = tfa t.
Proof.
  intros AS L. unfold tf_sort. destruct (Nat.leb_spec (length (tff t)) 1) as [H|H].
  - exists t. split; [reflexivity|]. split; [split; [exact L|]|repeat split; auto].
    intros i j L1 L2. assert (i = j) as -> by lia. apply qle_refl.
  - destruct (AS (tft t)) as [P S0].
    assert (Lo : length (asort (tft t)) = length (tff t)) by (apply Permutation_length in P; rewrite seq_length in P; lia).
    rewrite (proj2 (Nat.eqb_eq _ _) Lo). cbn [negb]. eexists. split; [reflexivity|].
    assert (B : forall i, In i (asort (tft t)) -> i < length (tft t)) by (intros i I; eapply perm_seq_lt; eauto).
    destruct (tff t) as [|f0 fs] eqn:Ef; [cbn in H; lia|]. rewrite <- Ef in *.
    rewrite (pick_gather f0) by (rewrite <- L; exact B).
    split; [split; cbn [tft tff]; [rewrite !gather_length; reflexivity|exact S0]|].
    split; [|repeat split; reflexivity]. unfold frames; cbn [tft tff].
    rewrite gather_combine; [|auto|auto]. apply gather_perm. rewrite combine_length, <- L, Nat.min_id. exact P.
Qed.
Lemma tf_sort_id {F} asort (t : tfield F) : is_argsort asort -> length (tft t) = length (tff t) -> increasing (tft t) ->
  tf_sort asort t = (t, None).
Proof.
  intros AS L I. unfold tf_sort. destruct (Nat.leb_spec (length (tff t)) 1) as [H|H]; [reflexivity|].
  rewrite (argsort_increasing asort _ AS I), seq_length, L, Nat.eqb_refl. cbn [negb].
  rewrite pick_seq, <- L, gather_seq. destruct t; reflexivity.
Qed.

(** ** addition *)
Lemma dim_eqb_refl d : dim_eqb d d = true.
Proof. unfold dim_eqb. destruct (list_eq_dec Z.eq_dec d d); congruence. Qed.
Lemma list_eqb_refl l : list_eqb l l = true.
Proof. unfold list_eqb. destruct (list_eq_dec Qc_eq_dec l l); congruence. Qed.
Lemma tf_add_ok {F} (ops : fops F) asort t f time u : is_argsort asort -> tf_ok t -> tf_ok (fst (tf_add ops asort t f time u)).
Proof.
  intros AS [L S0]. unfold tf_add. destruct (tff t) as [|f0 fs] eqn:Ef.
  - destruct (tf_sort_lemma asort (mktf (o_grid ops f) [f] true [time] u) AS eq_refl) as (t' & -> & O & _). exact O.
  - destruct (_ && _)%bool; [cbn [fst]; split; [rewrite L, Ef; reflexivity|exact S0]|].
    destruct (negb _); [cbn [fst]; split; [rewrite L, Ef; reflexivity|exact S0]|].
    match goal with |- context [tf_sort asort ?x] => destruct (tf_sort_lemma asort x AS) as (t' & -> & O & _) end; [|exact O].
    cbn [tft tff]. rewrite !app_length, L. reflexivity.
Qed.
Lemma tf_add_lemma {F} (ops : fops F) asort t f time u : is_argsort asort -> tf_ok t -> (0 < sc u)%num ->
  tff t = [] \/ (u = tfu t /\ o_grid ops f = tfg t) ->
  exists t', tf_add ops asort t f time u = (t', None) /\ tf_ok t' /\ tfu t' = u /\ tfg t' = o_grid ops f /\
    Permutation (frames t') ((time, f) :: frames t).
Proof.
  intros AS [L S0] G U. unfold tf_add. destruct (tff t) as [|f0 fs] eqn:Ef.
  - destruct (tf_sort_lemma asort (mktf (o_grid ops f) [f] true [time] u) AS eq_refl) as (t' & E & O & P & Eg & Eu & Ea).
    exists t'. split; [exact E|]. split; [exact O|]. split; [exact Eu|]. split; [exact Eg|].
    etransitivity; [exact P|]. unfold frames. rewrite Ef, combine_nil. cbn. apply Permutation_refl.
  - destruct U as [|[U Gf]]; [discriminate|]. subst u. rewrite Gf, !list_eqb_refl, dim_eqb_refl. cbn [negb andb].
    assert (E1 : (time * (sc (tfu t) / sc (tfu t)))%num = time) by (qfield; apply qgt_neq; exact G). rewrite E1, <- Ef.
    destruct (tf_sort_lemma asort (mktf (tfg t) (tff t ++ [f]) true (tft t ++ [time]) (tfu t)) AS) as (t' & E & O & P & Eg & Eu & Ea).
    { cbn [tft tff]. rewrite !app_length, L, Ef. reflexivity. }
    exists t'. split; [exact E|]. split; [exact O|]. split; [exact Eu|]. split; [exact Eg|].
    etransitivity; [exact P|]. unfold frames; cbn [tft tff]. rewrite combine_app' by (rewrite L, Ef; reflexivity).
    symmetry. apply Permutation_cons_append.
Qed.
(** a frame later than all the others comes last *)
Lemma tf_add_last {F} (ops : fops F) asort t f time u : is_argsort asort -> tf_ok t -> increasing (tft t) -> (0 < sc u)%num ->
  tff t = [] \/ (u = tfu t /\ o_grid ops f = tfg t) -> (forall x, In x (tft t) -> (x < time)%num) ->
  tf_add ops asort t f time u = (mktf (o_grid ops f) (tff t ++ [f]) true (tft t ++ [time]) u, None).
Proof.
  intros AS [L S0] I G U B. unfold tf_add. destruct (tff t) as [|f0 fs] eqn:Ef.
  - cbn in L. destruct (tft t) as [|? ?]; [|discriminate]. unfold tf_sort; cbn. reflexivity.
  - destruct U as [|[U Gf]]; [discriminate|]. subst u. rewrite Gf, !list_eqb_refl, dim_eqb_refl. cbn [negb andb].
    assert (E1 : (time * (sc (tfu t) / sc (tfu t)))%num = time) by (qfield; apply qgt_neq; exact G). rewrite E1, <- Ef.
    apply tf_sort_id; [exact AS| |]; cbn [tft tff].
    + rewrite !app_length, L, Ef. reflexivity.
    + clear -I B. induction (tft t) as [|x l IH]; [intros i j; cbn; lia|]. cbn [app]. apply increasing_cons in I. destruct I as [I1 I2].
      apply increasing_cons. split; [apply IH; [exact I1|intros; apply B; now right]|].
      intros z Z0. apply in_app_iff in Z0. destruct Z0 as [Z0|[<-|[]]]; [apply I2; exact Z0|apply B; now left].
Qed.

(** ** removal *)
Lemma norm_ind_ok n i : index_ok n i -> exists k, norm_ind n i = Some k /\ k < n.
Proof.
  intros [A B]. unfold norm_ind. destruct (Z.leb_spec 0 i); destruct (Z.ltb_spec i (Z.of_nat n)); cbn [andb]; try lia.
  - eexists; split; [reflexivity|lia].
  - destruct (Z.ltb_spec i 0); [|lia]. destruct (Z.leb_spec (- Z.of_nat n) i); [|lia]. cbn. eexists; split; [reflexivity|lia].
Qed.
Lemma np_delete_out {A} i (l : list A) : norm_ind (length l) i = None -> np_delete [i] l = Err IndexErr.
Proof. intro H. unfold np_delete. cbn [mapM]. rewrite H. reflexivity. Qed.
Lemma nondecreasing_keeps P l l' : keeps P l l' -> nondecreasing l -> nondecreasing l'.
Proof.
  intros (o & So & Io & F) S0 a b La Lb.
  assert (Lo : length o = length l') by (eapply Forall2_len; eauto).
  assert (N : forall k, k < length l' -> nth_error l (nth k o 0) = Some (nths l' k)).
  { clear -F. induction F as [|x y o' t' H F IH]; intros k Lk; [cbn in Lk; lia|]. destruct k; cbn; [exact H|]. apply IH. cbn in Lk; lia. }
  assert (M : forall k l, k <= l -> l < length o -> nth k o 0 <= nth l o 0).
  { clear -So. induction So as [|x o' So IH F]; intros k l Lk Ll; [cbn in Ll; lia|]. destruct l; [replace k with 0 by lia; lia|].
    destruct k; cbn; [|apply IH; cbn in Ll; lia]. rewrite Forall_forall in F. apply Nat.lt_le_incl. apply F. apply nth_In. cbn in Ll; lia. }
  pose proof (N a ltac:(lia)) as Na. pose proof (N b Lb) as Nb.
  pose proof (nth_error_nths _ _ _ Na) as <-. pose proof (nth_error_nths _ _ _ Nb) as <-.
  apply S0; [apply M; lia|]. apply nth_error_Some. congruence.
Qed.
Lemma tf_remove_lemma {F} (t : tfield F) i : tf_ok t -> index_ok (length (tff t)) i ->
  exists t', tf_remove t [i] = (t', None) /\ tf_ok t' /\ tfu t' = tfu t /\ tfg t' = tfg t /\
    keeps (fun k => ~ designates (length (tff t)) i k) (frames t) (frames t').
Proof.
  intros [L S0] I.
  destruct (np_delete_ok [i] (tff t) (Forall_cons _ I (Forall_nil _))) as (fs & E1 & K1).
  pose proof I as I'. rewrite <- L in I'. destruct (np_delete_ok [i] (tft t) (Forall_cons _ I' (Forall_nil _))) as (times & E2 & K2).
  rewrite L in K2.
  exists (mktf (tfg t) fs true times (tfu t)). split; [unfold tf_remove; cbn [del_each]; rewrite E2, E1; reflexivity|].
  assert (LL : length times = length fs) by (eapply keeps_length; eauto).
  split; [split; [exact LL|]|].
  - cbn [tft]. eapply nondecreasing_keeps; eauto.
  - split; [reflexivity|]. split; [reflexivity|]. unfold frames; cbn [tft tff].
    eapply keeps_ext; [|apply keeps_combine; [exact L|exact K2|exact K1]].
    intros k Lk. unfold is_designated. split; [intros H D; apply H; exists i; split; [now left|exact D]|intros H (j & [<-|[]] & D); auto].
Qed.
Lemma tf_remove_out {F} (t : tfield F) i : tf_ok t -> norm_ind (length (tff t)) i = None ->
  tf_remove t [i] = (t, Some IndexErr).
Proof.
  intros [L S0] N. unfold tf_remove. cbn [del_each]. rewrite np_delete_out by (rewrite L; exact N). destruct t; reflexivity.
Qed.
Lemma norm_ind_cases n i : index_ok n i \/ norm_ind n i = None.
Proof.
  unfold index_ok, norm_ind. destruct (Z.leb_spec 0 i); destruct (Z.ltb_spec i (Z.of_nat n)); cbn [andb]; [left; lia| | |];
  destruct (Z.ltb_spec i 0); cbn [andb]; try (right; reflexivity); try (left; lia);
  destruct (Z.leb_spec (- Z.of_nat n) i); cbn; [left; lia|right; reflexivity].
Qed.

(** ** histories *)
Lemma tfstep_ok {F} (ops : fops F) asort t o : is_argsort asort -> tf_ok t -> tf_ok (tfstep ops asort t o).
Proof.
  intros AS O. destruct o as [f time u|i]; cbn [tfstep]; [apply tf_add_ok; assumption|].
  destruct (norm_ind_cases (length (tff t)) i) as [I|N].
  - destruct (tf_remove_lemma t i O I) as (t' & -> & O' & _). exact O'.
  - rewrite (tf_remove_out t i O N). exact O.
Qed.
Lemma tf_new_ok {F} : tf_ok (@tf_new F).
Proof. split; [reflexivity|]. intros i j; cbn; lia. Qed.
Lemma tf_history_ok {F} (ops : fops F) asort (h : list (tfop F)) : is_argsort asort -> tf_ok (fold_left (tfstep ops asort) h tf_new).
Proof.
  intro AS. assert (forall t, tf_ok t -> tf_ok (fold_left (tfstep ops asort) h t)) as H; [|apply H, tf_new_ok].
  induction h as [|o h IH]; intros t O; cbn; [exact O|]. apply IH, tfstep_ok; assumption.
Qed.
Lemma keeps_incl {A} P (l l' : list A) x : keeps P l l' -> In x l' -> In x l.
Proof.
  intros (o & _ & _ & F) I. induction F as [|i y o l' E F IH]; [destruct I|]. destruct I as [<-|I]; [eapply nth_error_In; eauto|auto].
Qed.
Lemma tf_history_times {F} (ops : fops F) asort u (h : list (tfop F)) : is_argsort asort -> (0 < sc u)%num -> adds_in u h ->
  forall time f, In (time, f) (frames (fold_left (tfstep ops asort) h tf_new)) -> In (TFAdd f time u) h.
Proof.
  intros AS G. assert (H : forall h0 t, tf_ok t -> adds_in u h0 -> (tff t = [] \/ tfu t = u) ->
    forall time f, In (time, f) (frames (fold_left (tfstep ops asort) h0 t)) -> In (time, f) (frames t) \/ In (TFAdd f time u) h0).
  { induction h0 as [|o h0 IH]; intros t O AD U time f I; cbn in I; [left; exact I|].
    assert (AD' : adds_in u h0) by (intros f' x w J; apply (AD f' x w); now right).
    assert (O' : tf_ok (tfstep ops asort t o)) by (apply tfstep_ok; assumption).
    assert ((tff (tfstep ops asort t o) = [] \/ tfu (tfstep ops asort t o) = u) /\
            (forall s, In s (frames (tfstep ops asort t o)) -> In s (frames t) \/ o = TFAdd (snd s) (fst s) u)) as [U' Inc].
    { destruct o as [f0 time0 w|i]; cbn [tfstep].
      - assert (w = u) as -> by (apply (AD f0 time0 w); now left).
        unfold tf_add. destruct (tff t) as [|f1 fs] eqn:Ef.
        + destruct (tf_sort_lemma asort (mktf (o_grid ops f0) [f0] true [time0] u) AS eq_refl) as (t' & -> & _ & P & _ & Eu & _).
          cbn [fst]. split; [right; exact Eu|]. intros s J. apply (Permutation_in _ P) in J. cbn in J. destruct J as [<-|[]]. right; reflexivity.
        + destruct U as [U|U]; [discriminate|].
          destruct (_ && _)%bool; [cbn [fst]; rewrite Ef; split; [auto|intros; left; assumption]|].
          destruct (negb _); [cbn [fst]; rewrite Ef; split; [auto|intros; left; assumption]|].
          match goal with |- context [tf_sort asort ?x] => destruct (tf_sort_lemma asort x AS) as (t' & -> & _ & P & _ & Eu & _) end.
          { destruct O as [L _]. cbn [tft tff]. rewrite !app_length, L, Ef. reflexivity. }
          cbn [fst]. split; [right; rewrite Eu; exact U|]. intros s J. apply (Permutation_in _ P) in J. unfold frames in J; cbn [tft tff] in J.
          rewrite <- Ef in J. rewrite combine_app' in J by (destruct O as [L _]; exact L). apply in_app_iff in J.
          destruct J as [J|[<-|[]]]; [left; exact J|right]. cbn [fst snd]. f_equal. rewrite U. qfield. apply qgt_neq; exact G.
      - destruct (norm_ind_cases (length (tff t)) i) as [I0|N].
        + destruct (tf_remove_lemma t i O I0) as (t' & E & _ & Eu & _ & K). rewrite E; cbn [fst]. split.
          * destruct U as [U|U]; [left|right; congruence].
            destruct (tff t) as [|] eqn:Ef; [|discriminate]. destruct I0; cbn in *; lia.
          * intros s J. left. eapply keeps_incl; eauto.
        + rewrite (tf_remove_out t i O N). cbn [fst]. split; [exact U|]. intros; left; assumption. }
    destruct (IH _ O' AD' U' time f I) as [J|J]; [|right; now right].
    destruct (Inc _ J) as [J'|J']; [left; exact J'|right; left; rewrite J'; reflexivity]. }
  intros AD time f I. destruct (H h tf_new tf_new_ok AD (or_introl eq_refl) time f I) as [J|J]; [destruct J|exact J].
Qed.

(** ** removal of a list of positions *)
Lemma keep_app {A} (f g : list bool) (l m : list A) : length f = length l -> keep (f ++ g) (l ++ m) = keep f l ++ keep g m.
Proof. revert l; induction f as [|b f IH]; intros [|a l] L; cbn in *; try discriminate; [reflexivity|]. injection L as L. destruct b; cbn; rewrite IH by exact L; reflexivity. Qed.
Lemma keep_true_map {A B} (h : B -> bool) (idx : list B) (l : list A) : length idx = length l -> (forall i, In i idx -> h i = true) -> keep (map h idx) l = l.
Proof. revert l; induction idx as [|i idx IH]; intros [|a l] L H; cbn in *; try discriminate; [reflexivity|]. rewrite (H i) by now left. f_equal. apply IH; [lia|intros; apply H; now right]. Qed.
Lemma np_delete_mid {A} (a : list A) x b : np_delete [Z.of_nat (length a)] (a ++ x :: b) = Ok (a ++ b).
Proof.
  unfold np_delete. cbn [mapM]. unfold norm_ind. rewrite app_length; cbn [length].
  destruct (Z.leb_spec 0 (Z.of_nat (length a))); [|lia]. destruct (Z.ltb_spec (Z.of_nat (length a)) (Z.of_nat (length a + S (length b)))); [|lia].
  cbn [andb bind]. rewrite Nat2Z.id. f_equal. rewrite seq_app, map_app, keep_app by (rewrite map_length, seq_length; reflexivity).
  cbn [seq map existsb]. rewrite Nat.eqb_refl. cbn [orb negb keep]. f_equal.
  - apply keep_true_map; [rewrite seq_length; reflexivity|]. intros i I. apply in_seq in I. rewrite (proj2 (Nat.eqb_neq i (length a))) by lia. reflexivity.
  - apply keep_true_map; [rewrite seq_length; reflexivity|]. intros i I. apply in_seq in I. rewrite (proj2 (Nat.eqb_neq i (length a))) by lia. reflexivity.
Qed.
Lemma np_delete_prefix {A} i (a b : list A) : (0 <= i < Z.of_nat (length a))%Z ->
  exists a1 x a2, a = a1 ++ x :: a2 /\ Z.of_nat (length a1) = i /\ np_delete [i] a = Ok (a1 ++ a2) /\ np_delete [i] (a ++ b) = Ok (a1 ++ a2 ++ b).
Proof.
  intros [H1 H2]. destruct (nth_error a (Z.to_nat i)) as [x|] eqn:E; [|apply nth_error_None in E; lia].
  apply nth_error_split in E. destruct E as (a1 & a2 & -> & L). exists a1, x, a2. assert (Z.of_nat (length a1) = i) by lia. subst i.
  split; [reflexivity|]. split; [reflexivity|]. split; [apply np_delete_mid|]. rewrite <- app_assoc. cbn [app]. apply np_delete_mid.
Qed.
Lemma sdec_cons i r : strictly_decreasing (i :: r) -> strictly_decreasing r /\ (forall j, In j r -> (j < i)%Z).
Proof.
  intro H. split.
  - intros a b x y Lt A B. apply (H (S a) (S b) x y); [lia|exact A|exact B].
  - intros j I. apply In_nth_error in I. destruct I as (n & E). apply (H 0 (S n) i j); [lia|reflexivity|exact E].
Qed.
Lemma del_each_app {A} inds : forall (a b : list A), strictly_decreasing inds -> (forall i, In i inds -> (0 <= i < Z.of_nat (length a))%Z) ->
  exists a', del_each a inds = (a', None) /\ del_each (a ++ b) inds = (a' ++ b, None) /\
     a' = keep (map (fun k => negb (existsb (Z.eqb (Z.of_nat k)) inds)) (seq 0 (length a))) a.
Proof.
  induction inds as [|i r IH]; intros a b D B.
  - exists a. split; [reflexivity|]. split; [reflexivity|]. symmetry. apply keep_true_map; [apply seq_length|reflexivity].
  - apply sdec_cons in D. destruct D as [D LT]. cbn [del_each].
    destruct (np_delete_prefix i a b (B i (or_introl eq_refl))) as (a1 & x & a2 & Ea & Li & E1 & E2). rewrite E1, E2.
    assert (B1 : forall j, In j r -> (0 <= j < Z.of_nat (length a1))%Z).
    { intros j J. specialize (LT j J). specialize (B j (or_intror J)). lia. }
    destruct (IH a1 a2 D B1) as (c & C1 & C2 & C3). destruct (IH a1 (a2 ++ b) D B1) as (c' & C1' & C2' & _).
    assert (c' = c) as -> by congruence. exists (c ++ a2). split; [exact C2|]. split; [rewrite C2', app_assoc; reflexivity|].
    rewrite Ea, app_length. cbn [length]. rewrite seq_app, map_app, keep_app by (rewrite map_length, seq_length; reflexivity).
    cbn [seq map keep]. cbn [existsb]. rewrite Nat.add_0_l, Li, Z.eqb_refl. cbn [orb negb]. f_equal.
    + rewrite C3. f_equal. apply map_ext_in. intros k K. apply in_seq in K. cbn [existsb]. rewrite (proj2 (Z.eqb_neq (Z.of_nat k) i)) by lia. reflexivity.
    + symmetry. apply keep_true_map; [apply seq_length|]. intros k K. apply in_seq in K. cbn [existsb].
      rewrite (proj2 (Z.eqb_neq (Z.of_nat k) i)) by lia. cbn [orb]. apply Bool.negb_true_iff. apply Bool.not_true_is_false. intro X.
      apply existsb_exists in X. destruct X as (j & J & X). apply Z.eqb_eq in X. specialize (B1 j J). lia.
Qed.
Lemma tf_remove_list {F} (t : tfield F) inds : tf_ok t -> strictly_decreasing inds ->
  (forall i, In i inds -> (0 <= i < Z.of_nat (length (tff t)))%Z) ->
  exists t', tf_remove t inds = (t', None) /\ tf_ok t' /\ tfu t' = tfu t /\
    keeps (fun k => ~ In (Z.of_nat k) inds) (frames t) (frames t').
Proof.
  intros [L S0] D B. destruct (del_each_app inds (tff t) [] D B) as (fs & E1 & _ & K1).
  rewrite <- L in B. destruct (del_each_app inds (tft t) [] D B) as (ts & E2 & _ & K2).
  unfold tf_remove. rewrite E2, E1. eexists. split; [reflexivity|].
  split; [split|split; [reflexivity|]]; cbn [tft tff].
  - rewrite K1, K2, L. apply keep_length_eq. exact L.
  - rewrite K2. apply nondecreasing_keep. exact S0.
  - unfold frames; cbn [tft tff].
    assert (EX : forall k, negb (existsb (Z.eqb (Z.of_nat k)) inds) = true <-> ~ In (Z.of_nat k) inds).
    { intro k. rewrite Bool.negb_true_iff. split.
      - intros H I. apply Bool.not_true_iff_false in H. apply H. apply existsb_exists. exists (Z.of_nat k). split; [exact I|apply Z.eqb_refl].
      - intro H. apply Bool.not_true_is_false. intro X. apply existsb_exists in X. destruct X as (j & J & X). apply Z.eqb_eq in X. subst. contradiction. }
    eapply keeps_ext; [intros i _; apply EX|].
    rewrite K1, K2, L, keep_combine.
    replace (length (tff t)) with (length (combine (tft t) (tff t))) by (rewrite combine_length, L; apply Nat.min_id).
    apply (keeps_seq (fun k => negb (existsb (Z.eqb (Z.of_nat k)) inds))).
Qed.
