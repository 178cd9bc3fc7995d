(** * PointsProofs6: oriented and temporal point sets. *)
From Coq Require Import Permutation Sorted.
From Verif Require Import Num Res ListLib SortLib SeqSpec Arr FieldModel ScalarFieldModel FieldSpec FieldProofs FieldProofs2 ProfileModel ProfileSpec ProfileProofs ProfileProofs2 PointsModel PointsSpec PointsProofs PointsProofs2.

Lemma triples_len p : pts_ok p -> length (triples p) = length (xy p).
Proof.
  intros [E|L]; unfold triples; destruct (pv p) as [|z l] eqn:V; rewrite ?map_length; try reflexivity; try discriminate.
  rewrite combine_length, map_length. lia.
Qed.
Lemma op_add_lemma o pt d v : op_ok o -> v_matches (opt o) v -> (forall d', In d' (ori o) -> length d' = length d) ->
  exists o', op_add o pt d v = (o', None) /\ op_ok o' /\ same_units (opt o') (opt o) /\ oriented o' = oriented o ++ [((pt, v), d)].
Proof.
  intros [OK L] M D. destruct (pts_add_lemma (opt o) pt v OK M) as (p' & E & OK' & U & T).
  assert (Lx : length (xy p') = S (length (xy (opt o)))).
  { rewrite <- !triples_len by assumption. rewrite T, app_length. cbn. lia. }
  exists (mkop p' (ori o ++ [d])). split.
  - unfold op_add. rewrite E. destruct (ori o) as [|d0 l] eqn:EO.
    + unfold op_set_ori; cbn [opt ori app length]. rewrite Lx. cbn in L. rewrite <- L. reflexivity.
    + rewrite (D d0) by now left. rewrite Nat.eqb_refl. unfold op_set_ori; cbn [opt ori]. rewrite Lx, app_length, L. cbn [length].
      rewrite Nat.add_1_r, Nat.eqb_refl, orb_true_r. reflexivity.
  - split; [split; cbn [opt ori]; [exact OK'|rewrite app_length, Lx, L; cbn; lia]|]. split; [exact U|].
    unfold oriented; cbn [opt ori]. rewrite T. rewrite combine_app'; [reflexivity|]. rewrite triples_len by assumption. symmetry; exact L.
Qed.
Lemma op_remove_lemma o inds : op_ok o -> Forall (index_ok (length (xy (opt o)))) inds ->
  exists o', op_remove o inds = (o', None) /\ op_ok o' /\ same_units (opt o') (opt o) /\
    keeps (fun k => ~ is_designated (length (xy (opt o))) inds k) (combine (xy (opt o)) (ori o)) (combine (xy (opt o')) (ori o')) /\
    (pv (opt o) = [] -> keeps (fun k => ~ is_designated (length (xy (opt o))) inds k) (oriented o) (oriented o')).
Proof.
  intros [OK L] F. destruct (remove_lemma (opt o) inds OK F) as (p' & E & OK' & U & K1 & K2).
  rewrite <- L in F. destruct (np_delete_ok inds (ori o) F) as (l' & E2 & K3). rewrite L in F, K3.
  assert (LL : length l' = length (xy p')) by (eapply keeps_length; eauto).
  exists (mkop p' l'). split.
  - unfold op_remove. rewrite E, E2. unfold op_set_ori; cbn [opt ori]. rewrite LL, Nat.eqb_refl, orb_true_r. reflexivity.
  - split; [split; assumption|]. split; [exact U|]. cbn [opt ori]. split.
    + apply keeps_combine; auto.
    + intro V. unfold oriented; cbn [opt ori]. apply keeps_combine; auto. rewrite triples_len by assumption. auto.
Qed.
Lemma crop_mask_triples p ivx ivy ivv : pts_ok p -> map negb (crop_mask p ivx ivy ivv) = map (in_box ivx ivy ivv) (triples p).
Proof.
  intro OK. unfold crop_mask. destruct (pv p) as [|z l] eqn:V.
  - cbn [length Nat.eqb]. rewrite triples_none by assumption. rewrite !map_map. apply map_ext. intro t.
    unfold in_box; cbn. rewrite negb_orb, !out_in, andb_true_r. reflexivity.
  - cbn [length Nat.eqb]. destruct OK as [E|L]; [congruence|]. rewrite triples_some by assumption. rewrite <- V.
    rewrite map_combine2, !map_map. apply map_ext. intros [q v]; cbn. unfold in_box; cbn. rewrite !negb_orb, !out_in. reflexivity.
Qed.
Lemma keep_map2 {A B} (f : A -> bool) (a : list A) (b : list B) : length a = length b -> keep (map f a) (combine a b) = filter (fun t => f (fst t)) (combine a b).
Proof. revert b; induction a as [|x a IH]; intros [|y b] L; try discriminate; cbn; auto. destruct (f x); rewrite IH by (cbn in L; lia); reflexivity. Qed.
Lemma op_crop_lemma o ivx ivy ivv : op_ok o ->
  exists o', op_crop o ivx ivy ivv = (o', None) /\ op_ok o' /\ same_units (opt o') (opt o) /\
    oriented o' = filter (fun t => in_box ivx ivy ivv (fst t)) (oriented o).
Proof.
  intros [OK L]. destruct (crop_lemma (opt o) ivx ivy ivv OK) as (OK' & T & U). unfold op_crop.
  destruct (Nat.eqb_spec (length (xy (opt o))) 0) as [Z|NZ].
  - exists o. split; [reflexivity|]. split; [split; assumption|]. split; [repeat split|].
    assert (oriented o = []) as ->; [|reflexivity]. unfold oriented. rewrite Z in L. destruct (ori o); [|discriminate]. apply combine_nil.
  - set (m := map negb (crop_mask (opt o) ivx ivy ivv)).
    assert (Em : m = map (in_box ivx ivy ivv) (triples (opt o))) by (apply crop_mask_triples; exact OK).
    assert (Lk : length (keep m (ori o)) = length (xy (pts_crop (opt o) ivx ivy ivv))).
    { unfold pts_crop, apply_mask; cbn [xy]. fold m. apply keep_length_eq. exact L. }
    exists (mkop (pts_crop (opt o) ivx ivy ivv) (keep m (ori o))). split.
    + unfold op_set_ori; cbn [opt ori]. rewrite Lk, Nat.eqb_refl, orb_true_r. reflexivity.
    + split; [split; assumption|]. split; [exact U|]. unfold oriented; cbn [opt ori]. rewrite T.
      rewrite <- keep_map, <- Em, keep_combine, Em. apply keep_map2. rewrite triples_len by assumption. auto.
Qed.
Lemma flat_map_single {A B} (f : A -> B) l : flat_map (fun x => [f x]) l = map f l.
Proof. induction l; cbn; congruence. Qed.
Lemma op_iter_actual o t0 : op_ok o -> hd_error (triples (opt o)) = Some t0 -> op_iter o = map (fun d => (t0, d)) (ori o).
Proof.
  intros [OK L] H. unfold op_iter. rewrite <- L.
  assert (H0 : exists q, nth_error (xy (opt o)) 0 = Some q /\ t0 = (q, nth_error (pv (opt o)) 0)).
  { destruct (xy (opt o)) as [|q l] eqn:X.
    - unfold triples in H. rewrite X in H. destruct (pv (opt o)); discriminate.
    - exists q. split; [reflexivity|]. unfold triples in H. rewrite X in H. destruct (pv (opt o)); cbn in *; congruence. }
  destruct H0 as (q & -> & ->). generalize (q, nth_error (pv (opt o)) 0). intro t0. clear.
  assert (G : forall pre l, flat_map (fun i => match nth_error (pre ++ l) i with Some d => [(t0, d)] | None => [] end) (seq (length pre) (length l)) = map (fun d : orient => (t0, d)) l).
  { intros pre l; revert pre; induction l as [|d l IH]; intro pre; [reflexivity|]. cbn [length seq flat_map map].
    rewrite nth_error_app2, Nat.sub_diag by lia. cbn [nth_error app]. f_equal.
    specialize (IH (pre ++ [d])). rewrite app_length, <- app_assoc in IH. cbn in IH. rewrite Nat.add_1_r in IH. exact IH. }
  apply (G [] (ori o)).
Qed.
Lemma op_iter_iff o : op_ok o -> (op_iter o = oriented o <-> forall t, In t (triples (opt o)) -> hd_error (triples (opt o)) = Some t).
Proof.
  intro OK. pose proof (proj2 OK) as L. rewrite <- (triples_len _ (proj1 OK)) in L.
  destruct (triples (opt o)) as [|t0 l] eqn:T.
  - split; [contradiction|]. intros _. unfold oriented. rewrite T. cbn. destruct OK as [OK L']. rewrite <- (triples_len _ OK), T in L'.
    unfold op_iter. rewrite <- (triples_len _ OK), T. reflexivity.
  - rewrite (op_iter_actual o t0 OK) by (rewrite T; reflexivity). unfold oriented. rewrite T. cbn [hd_error].
    assert (G : forall (a : list triple) (b : list orient), length b = length a -> (map (fun d => (t0, d)) b = combine a b <-> forall t, In t a -> t0 = t)).
    { induction a as [|x a IH]; intros [|y b] LL; try discriminate; cbn; [split; [contradiction|reflexivity]|]. injection LL as LL.
      destruct (IH b LL) as [I1 I2]. split.
      - intros E t [<-|I]; [congruence|]. apply I1; [congruence|exact I].
      - intro H. rewrite (H x) by auto. f_equal. rewrite <- (H x) by auto. apply I2. auto. }
    rewrite (G (t0 :: l) (ori o) L). split; intros H t I; [f_equal|]; [apply H; exact I|]. specialize (H t I). congruence.
Qed.

(** ** Temporal point sets *)
Lemma gather_perm' {A} (d : A) o l : Permutation o (seq 0 (length l)) -> Permutation (gather d o l) l.
Proof. apply gather_perm. Qed.
Lemma tp_sort_lemma asort t : is_argsort asort -> length (ttimes t) = length (tsets t) ->
  tp_ok (tp_sort asort t) /\ Permutation (snapshots (tp_sort asort t)) (snapshots t) /\ tunit (tp_sort asort t) = tunit t.
Proof.
  intros AS L. unfold tp_sort. destruct (Nat.leb_spec (length (tsets t)) 1) as [H|H].
  - split; [split; [exact L|]|split; [apply Permutation_refl|reflexivity]].
    intros i j L1 L2. assert (i = j) as -> by lia. apply qle_refl.
  - destruct (AS (ttimes t)) as [P S0].
    assert (B : forall i, In i (asort (ttimes t)) -> i < length (ttimes t)) by (intros i I; eapply perm_seq_lt; eauto).
    split; [split; cbn [ttimes tsets]; [rewrite !gather_length; reflexivity|exact S0]|]. split; [|reflexivity].
    unfold snapshots; cbn [ttimes tsets]. rewrite gather_combine; [|auto|auto]. apply gather_perm. rewrite combine_length, <- L, Nat.min_id. exact P.
Qed.
Lemma tp_add_lemma asort t p time u : is_argsort asort -> tp_ok t -> tarr t = false -> tsets t = [] \/ u = tunit t -> (0 < sc u)%num ->
  exists t', tp_add asort t p time u = (t', None) /\ tp_ok t' /\ tarr t' = false /\ tunit t' = u /\ Permutation (snapshots t') ((time, p) :: snapshots t).
Proof.
  intros AS [L S0] A U G. unfold tp_add. rewrite A. destruct (tsets t) as [|q l] eqn:TS.
  - eexists. split; [reflexivity|]. destruct (tp_sort_lemma asort (mktp [p] false [time] u) AS eq_refl) as (O & P & UU).
    split; [exact O|]. split; [reflexivity|]. split; [exact UU|]. etransitivity; [exact P|].
    unfold snapshots. rewrite TS. cbn. rewrite combine_nil. apply Permutation_refl.
  - destruct U as [|U]; [discriminate|]. subst u. unfold dim_eqb. destruct (list_eq_dec Z.eq_dec (dim (tunit t)) (dim (tunit t))) as [_|NE]; [|congruence]. cbn [negb].
    assert (E1 : (time * (sc (tunit t) / sc (tunit t)))%num = time) by (qfield; apply qgt_neq; exact G).
    rewrite E1. eexists. split; [reflexivity|].
    destruct (tp_sort_lemma asort (mktp (tsets t ++ [p]) false (ttimes t ++ [time]) (tunit t)) AS) as (O & P & UU).
    { cbn [ttimes tsets]. rewrite !app_length, L, TS. reflexivity. }
    rewrite <- TS. split; [exact O|]. split; [|split; [exact UU|]].
    + unfold tp_sort. destruct (Nat.leb _ _); reflexivity.
    + etransitivity; [exact P|]. unfold snapshots; cbn [ttimes tsets]. rewrite combine_app' by (rewrite L, TS; reflexivity).
      symmetry. apply Permutation_cons_append.
Qed.
Lemma tp_remove_lemma t i : tp_ok t -> index_ok (length (tsets t)) i ->
  exists t', tp_remove t [i] = (t', None) /\ tp_ok t' /\ tunit t' = tunit t /\
    keeps (fun k => ~ designates (length (tsets t)) i k) (snapshots t) (snapshots t').
Proof.
  intros [L S0] I.
  destruct (np_delete_ok [i] (tsets t) (Forall_cons _ I (Forall_nil _))) as (sets & E1 & K1).
  pose proof I as I'. rewrite <- L in I'. destruct (np_delete_ok [i] (ttimes t) (Forall_cons _ I' (Forall_nil _))) as (times & E2 & K2).
  rewrite L in K2.
  exists (mktp sets true times (tunit t)). split; [cbn [tp_remove]; rewrite E2, E1; reflexivity|].
  assert (LL : length times = length sets) by (eapply keeps_length; eauto).
  split; [split; [exact LL|]|].
  - cbn [ttimes]. destruct K2 as (o & So & Io & F). intros a b La Lb.
    assert (Lo : length o = length times) by (eapply Forall2_len; eauto).
    assert (N : forall k, k < length times -> nth_error (ttimes t) (nth k o 0) = Some (nths times k)).
    { clear -F. induction F as [|x y o' t' H F IH]; intros k Lk; [cbn in Lk; lia|]. destruct k; cbn; [exact H|]. apply IH. cbn in Lk; lia. }
    assert (M : forall k l, k <= l -> l < length o -> nth k o 0 <= nth l o 0).
    { clear -So. induction So as [|x o' So IH F]; intros k l Lk Ll; [cbn in Ll; lia|]. destruct l; [replace k with 0 by lia; lia|].
      destruct k; cbn; [|apply IH; cbn in Ll; lia]. rewrite Forall_forall in F. apply Nat.lt_le_incl. apply F. apply nth_In. cbn in Ll; lia. }
    pose proof (N a ltac:(lia)) as Na. pose proof (N b Lb) as Nb.
    pose proof (nth_error_nths _ _ _ Na) as <-. pose proof (nth_error_nths _ _ _ Nb) as <-.
    apply S0; [apply M; lia|]. apply nth_error_Some. congruence.
  - split; [reflexivity|]. unfold snapshots; cbn [ttimes tsets].
    eapply keeps_ext; [|apply keeps_combine; [exact L|exact K2|exact K1]].
    intros k Lk. unfold is_designated. split; [intros H D; apply H; exists i; split; [now left|exact D]|intros H (j & [<-|[]] & D); auto].
Qed.
Lemma slice_filter {A} (P : A -> bool) a b (l : list A) : (forall k x, nth_error l k = Some x -> (P x = true <-> a <= k < b)) -> slice a b l = filter P l.
Proof.
  intro H. rewrite <- keep_slice.
  assert (map (fun k => (Nat.leb a k && Nat.ltb k b)%bool) (seq 0 (length l)) = map P l) as ->; [|apply keep_map].
  assert (G : forall pre r, pre ++ r = l -> map (fun k => (Nat.leb a k && Nat.ltb k b)%bool) (seq (length pre) (length r)) = map P r).
  { intros pre r; revert pre; induction r as [|x r IH]; intros pre E; [reflexivity|]. cbn [length seq map]. f_equal.
    - specialize (H (length pre) x). rewrite <- E, nth_error_app2, Nat.sub_diag in H by lia. specialize (H eq_refl).
      destruct (P x).
      + assert (a <= length pre < b) as [A1 A2] by (apply H; reflexivity). apply Nat.leb_le in A1. apply Nat.ltb_lt in A2. rewrite A1, A2. reflexivity.
      + destruct (Nat.leb_spec a (length pre)); [|reflexivity]. destruct (Nat.ltb_spec (length pre) b); [|reflexivity].
        assert (false = true) by (apply H; lia). discriminate.
    - specialize (IH (pre ++ [x])). rewrite app_length, Nat.add_1_r in IH. apply IH. rewrite <- app_assoc. exact E. }
  apply (G [] l eq_refl).
Qed.
Lemma ssorted_filter (P : nat -> bool) l : StronglySorted lt l -> StronglySorted lt (filter P l).
Proof.
  induction 1 as [|x l S0 IH F]; cbn; [constructor|]. destruct (P x); [|exact IH]. constructor; [exact IH|].
  rewrite Forall_forall in *. intros y I. apply filter_In in I. apply F. apply I.
Qed.
Lemma ssorted_seq n : forall a, StronglySorted lt (seq a n).
Proof. induction n; intro a; cbn; constructor; auto. rewrite Forall_forall. intros x Hx. apply in_seq in Hx. lia. Qed.
Lemma filter_seq_head (P : nat -> bool) n i r : filter P (seq 0 n) = i :: r -> i < n /\ P i = true /\ forall k, k < i -> P k = false.
Proof.
  intro E. assert (I : In i (filter P (seq 0 n))) by (rewrite E; now left). apply filter_In in I. destruct I as [I Pi]. apply in_seq in I.
  split; [lia|split; [exact Pi|]]. intros k Lk. destruct (P k) eqn:Pk; [|reflexivity]. exfalso.
  assert (Ik : In k (filter P (seq 0 n))) by (apply filter_In; split; [apply in_seq; lia|exact Pk]).
  assert (SS : StronglySorted lt (filter P (seq 0 n))).
  { apply ssorted_filter. apply ssorted_seq. }
  rewrite E in *. inversion SS; subst. rewrite Forall_forall in H2. destruct Ik as [->|Ik]; [lia|]. specialize (H2 _ Ik). lia.
Qed.

Lemma filter_seq_last (P : nat -> bool) n i r : rev (filter P (seq 0 n)) = i :: r -> i < n /\ P i = true /\ forall k, i < k -> k < n -> P k = false.
Proof.
  intro E. assert (E' : filter P (seq 0 n) = rev r ++ [i]) by (rewrite <- (rev_involutive (filter _ _)), E; reflexivity).
  assert (I : In i (filter P (seq 0 n))) by (rewrite E'; apply in_or_app; right; now left). apply filter_In in I. destruct I as [I Pi]. apply in_seq in I.
  split; [lia|split; [exact Pi|]]. intros k Lk Ln. destruct (P k) eqn:Pk; [|reflexivity]. exfalso.
  assert (Ik : In k (filter P (seq 0 n))) by (apply filter_In; split; [apply in_seq; lia|exact Pk]).
  assert (SS : StronglySorted lt (filter P (seq 0 n))) by (apply ssorted_filter; apply ssorted_seq).
  rewrite E' in *. apply in_app_or in Ik. destruct Ik as [Ik|[->|[]]]; [|lia].
  clear -SS Ik Lk. induction (rev r) as [|y l IH]; [contradiction|]. cbn in SS. inversion SS; subst. rewrite Forall_forall in H2.
  destruct Ik as [->|Ik]; [|apply IH; auto]. specialize (H2 i). rewrite in_app_iff in H2. specialize (H2 ltac:(right; now left)). lia.
Qed.
Lemma filter_nil_false {A} (P : A -> bool) l : filter P l = [] -> forall x, In x l -> P x = false.
Proof. intros E x I. destruct (P x) eqn:Px; [|reflexivity]. assert (In x (filter P l)) as H by (apply filter_In; auto). rewrite E in H. contradiction. Qed.
Lemma window_lemma l t1 t2 : nondecreasing l -> l <> [] -> (t1 <= last l (qz 0))%num -> (nths l 0 <= t2)%num ->
  exists i1 i2, tp_window l t1 t2 = Ok (i1, i2) /\ forall k, k < length l -> (i1 <= k < i2 + 1 <-> (t1 <= nths l k /\ nths l k <= t2)%num).
Proof.
  intros S0 NE H1 H2. unfold tp_window.
  assert ((match l with [] => true | _ :: _ => false end) = false) as -> by (destruct l; [congruence|reflexivity]). cbn [guard].
  assert (Ln : 0 < length l) by (destruct l; [congruence|cbn; lia]).
  assert (EL : last l (qz 0) = nths l (length l - 1)).
  { clear -Ln. induction l as [|x l IH]; [cbn in Ln; lia|]. destruct l as [|y l]; [reflexivity|].
    cbn [last length]. replace (S (S (length l)) - 1) with (S (length (y :: l) - 1)) by (cbn; lia). cbn [nth]. apply IH. cbn; lia. }
  assert (exists i1, (if qltb t1 (nths l 0) then Ok 0 else if qltb (last l (qz 0)) t1 then Err ValueErr
              else match filter (fun i => qleb t1 (nths l i)) (seq 0 (length l)) with
                   | i :: _ => Ok i | [] => Err IndexErr end) = Ok i1 /\ forall k, k < length l -> (i1 <= k <-> (t1 <= nths l k)%num)) as (i1 & E1 & I1).
  { destruct (qltb_spec t1 (nths l 0)) as [A|A].
    - exists 0. split; [reflexivity|]. intros k Lk. split; [intros _|lia]. assert (nths l 0 <= nths l k)%num by (apply S0; lia). qlra.
    - destruct (qltb_spec (last l (qz 0)) t1) as [B|B]; [qlra|].
      destruct (filter (fun i => qleb t1 (nths l i)) (seq 0 (length l))) as [|i r] eqn:F.
      + pose proof (filter_nil_false _ _ F (length l - 1)) as X. rewrite in_seq in X. specialize (X ltac:(lia)). cbv beta in X. apply qleb_gt in X. rewrite EL in H1. qlra.
      + apply filter_seq_head in F. destruct F as (Fi & Fp & Fk). exists i. split; [reflexivity|]. intros k Lk. apply qleb_le in Fp. split.
        * intro LE. assert (nths l i <= nths l k)%num by (apply S0; lia). qlra.
        * intro LE. destruct (Nat.le_gt_cases i k) as [C|C]; [exact C|]. specialize (Fk k C). cbv beta in Fk. apply qleb_gt in Fk. qlra. }
  assert (exists i2, (if qltb (last l (qz 0)) t2 then Ok (length l - 1) else if qltb t2 (nths l 0) then Err ValueErr
              else match rev (filter (fun i => qleb (nths l i) t2) (seq 0 (length l))) with
                   | i :: _ => Ok i | [] => Err IndexErr end) = Ok i2 /\ forall k, k < length l -> (k < i2 + 1 <-> (nths l k <= t2)%num)) as (i2 & E2 & I2).
  { rewrite EL. destruct (qltb_spec (nths l (length l - 1)) t2) as [A|A].
    - exists (length l - 1). split; [reflexivity|]. intros k Lk. split; [intros _|lia]. assert (nths l k <= nths l (length l - 1))%num by (apply S0; lia). qlra.
    - destruct (qltb_spec t2 (nths l 0)) as [B|B]; [qlra|].
      destruct (rev (filter (fun i => qleb (nths l i) t2) (seq 0 (length l)))) as [|i r] eqn:F.
      + assert (F' : filter (fun i => qleb (nths l i) t2) (seq 0 (length l)) = []) by (rewrite <- (rev_involutive (filter _ _)), F; reflexivity).
        pose proof (filter_nil_false _ _ F' 0) as X. rewrite in_seq in X. specialize (X ltac:(lia)). cbv beta in X. apply qleb_gt in X. qlra.
      + apply filter_seq_last in F. destruct F as (Fi & Fp & Fk). exists i. split; [reflexivity|]. intros k Lk. apply qleb_le in Fp. split.
        * intro LE. assert (nths l k <= nths l i)%num by (apply S0; lia). qlra.
        * intro LE. destruct (Nat.le_gt_cases k i) as [C|C]; [lia|]. specialize (Fk k C Lk). cbv beta in Fk. apply qleb_gt in Fk. qlra. }
  exists i1, i2. rewrite E1. cbn [bind]. rewrite E2. cbn [bind]. split; [reflexivity|]. intros k Lk. specialize (I1 k Lk). specialize (I2 k Lk). tauto.
Qed.
Lemma combine_map_r {A B C} (f : B -> C) (a : list A) (b : list B) : combine a (map f b) = map (fun t => (fst t, f (snd t))) (combine a b).
Proof. revert b; induction a as [|x a IH]; intros [|y b]; cbn; congruence. Qed.
Lemma window_snapshots t t1 t2 : tp_ok t -> ttimes t <> [] -> (t1 <= last (ttimes t) (qz 0))%num -> (nths (ttimes t) 0 <= t2)%num ->
  exists i1 i2, tp_window (ttimes t) t1 t2 = Ok (i1, i2) /\
    snapshots (mktp (slice i1 (i2 + 1) (tsets t)) (tarr t) (slice i1 (i2 + 1) (ttimes t)) (tunit t)) = filter (fun s => in_iv (Some (t1, t2)) (fst s)) (snapshots t) /\
    tp_ok (mktp (slice i1 (i2 + 1) (tsets t)) (tarr t) (slice i1 (i2 + 1) (ttimes t)) (tunit t)).
Proof.
  intros [L S0] NE H1 H2. destruct (window_lemma _ _ _ S0 NE H1 H2) as (i1 & i2 & E & I). exists i1, i2. split; [exact E|]. split.
  - unfold snapshots; cbn [ttimes tsets]. rewrite slice_combine by exact L. apply slice_filter. intros k [a p] N. cbn [fst].
    assert (Na : nth_error (ttimes t) k = Some a).
    { clear -N. revert k N. generalize (tsets t). induction (ttimes t) as [|x l IH]; intros [|y m] [|k] N; try discriminate; cbn in *; [congruence|]. eapply IH; eauto. }
    assert (k < length (ttimes t)) as Lk by (apply nth_error_Some; congruence). specialize (I k Lk). rewrite (nth_error_nths _ _ _ Na) in I.
    rewrite I. unfold in_iv. rewrite andb_true_iff, !qleb_le. reflexivity.
  - split; cbn [ttimes tsets]; [rewrite !slice_length, L; reflexivity|].
    intros i j Li Lj. rewrite slice_length in Lj. 
    assert (N : forall k, k <= j -> nths (slice i1 (i2 + 1) (ttimes t)) k = nths (ttimes t) (i1 + k)).
    { intros k Lk. apply nth_error_nths. rewrite nth_error_slice by lia. apply nths_nth_error. lia. }
    rewrite !N by lia. apply S0; lia.
Qed.
Lemma tp_crop_inplace t ivx ivy ivv t1 t2 : tp_ok t -> ttimes t <> [] -> (t1 <= last (ttimes t) (qz 0))%num -> (nths (ttimes t) 0 <= t2)%num ->
  exists c, tp_crop t ivx ivy ivv (Some (t1, t2)) true = Ok (c, c) /\ tp_ok c /\ tunit c = tunit t /\
    snapshots c = map (crop_snapshot ivx ivy ivv) (filter (fun s => in_iv (Some (t1, t2)) (fst s)) (snapshots t)).
Proof.
  intros OK NE H1 H2. destruct (window_snapshots t t1 t2 OK NE H1 H2) as (i1 & i2 & E & S1 & O1).
  unfold tp_crop. rewrite E. cbn [bind]. eexists. split; [reflexivity|]. split; [|split; [reflexivity|]].
  - destruct O1 as [O1 O2]. split; cbn [ttimes tsets] in *; [rewrite map_length; exact O1|exact O2].
  - rewrite <- S1. unfold snapshots; cbn [ttimes tsets]. rewrite combine_map_r. reflexivity.
Qed.
Lemma tp_crop_inplace_all t ivx ivy ivv : tp_ok t ->
  exists c, tp_crop t ivx ivy ivv None true = Ok (c, c) /\ tp_ok c /\ tunit c = tunit t /\ snapshots c = map (crop_snapshot ivx ivy ivv) (snapshots t).
Proof.
  intros [O1 O2]. eexists. split; [reflexivity|]. split; [split; cbn [ttimes tsets]; [rewrite map_length; exact O1|exact O2]|]. split; [reflexivity|].
  unfold snapshots; cbn [ttimes tsets]. rewrite combine_map_r. reflexivity.
Qed.
Lemma pts_crop_none p : pts_ok p -> pts_crop p None None None = p.
Proof.
  intro OK. unfold pts_crop, apply_mask.
  assert (E : map negb (crop_mask p None None None) = repeat true (length (xy p))).
  { rewrite crop_mask_triples by exact OK. rewrite <- triples_len by exact OK. induction (triples p) as [|[q [v|]] l IH]; cbn; congruence. }
  rewrite E, keep_const. destruct p as [q v u w z]; cbn in *. f_equal. destruct v; [reflexivity|]. cbn [length Nat.eqb].
  destruct OK as [F|L]; cbn in *; [discriminate|]. rewrite <- L. apply (keep_const (_ :: _)).
Qed.
Lemma tp_crop_copy t t1 t2 : tp_ok t -> Forall pts_ok (tsets t) -> ttimes t <> [] -> (t1 <= last (ttimes t) (qz 0))%num -> (nths (ttimes t) 0 <= t2)%num ->
  exists c, tp_crop t None None None (Some (t1, t2)) false = Ok (c, t) /\ tp_ok c /\ tunit c = tunit t /\
    snapshots c = filter (fun s => in_iv (Some (t1, t2)) (fst s)) (snapshots t).
Proof.
  intros OK F NE H1 H2. destruct (window_snapshots t t1 t2 OK NE H1 H2) as (i1 & i2 & E & S1 & O1).
  unfold tp_crop. rewrite E. cbn [bind]. eexists. split; [|split; [exact O1|split; [reflexivity|exact S1]]].
  f_equal. f_equal. destruct t as [s ar ti un]; cbn in *. f_equal. clear -F. induction F as [|p l OK F IH]; cbn; [reflexivity|]. rewrite IH, pts_crop_none by exact OK. reflexivity.
Qed.
