(** * FilesProofs: proofs about FilesModel. *)
From Coq Require Import String Sorted.
From Verif Require Import Num Res ListLib SortLib SeqSpec FieldModel PointsModel PointsSpec PointsProofs2 PointsProofs6 TemporalModel TemporalSpec TemporalProofs TemporalProofs10 TemporalProofs11 FilesModel FilesSpec.

Lemma path_eqb_spec p q : BoolSpec (p = q) (p <> q) (path_eqb p q).
Proof. unfold path_eqb. destruct (list_eq_dec string_dec p q); constructor; auto. Qed.

Lemma combine_app' {A B} (a a' : list A) (b b' : list B) : length a = length b ->
  combine (a ++ a') (b ++ b') = combine a b ++ combine a' b'.
Proof. revert b; induction a as [|x a IH]; intros [|y b] L; cbn in *; try discriminate; auto. f_equal; auto. Qed.

Lemma entries_app ps es ds ps' es' ds' : length es = length ps -> length ds = length ps ->
  entries {| fpaths := ps ++ ps'; fexist := es ++ es'; fisdir := ds ++ ds' |} =
  entries {| fpaths := ps; fexist := es; fisdir := ds |} ++ entries {| fpaths := ps'; fexist := es'; fisdir := ds' |}.
Proof.
  intros L1 L2. unfold entries; cbn. rewrite combine_app' by congruence. apply combine_app'.
  rewrite combine_length. lia.
Qed.
Lemma entries_eta f : entries {| fpaths := fpaths f; fexist := fexist f; fisdir := fisdir f |} = entries f.
Proof. destruct f; reflexivity. Qed.

Lemma f_add_ok w f p : files_ok f ->
  (look w p <> None \/ writable w p = true ->
    exists f', f_add w f p = (f', None) /\ files_ok f' /\ entries f' = entries f ++ [seen w p]) /\
  (look w p = None -> writable w p = false -> f_add w f p = (f, Some GenericErr)).
Proof.
  intros [L1 L2]. unfold f_add, seen. split.
  - intro H. destruct (look w p) as [d|] eqn:E.
    + eexists; split; [reflexivity|]. split.
      * split; cbn; rewrite !app_length, ?L1, ?L2; reflexivity.
      * rewrite entries_app by assumption. rewrite entries_eta. reflexivity.
    + destruct H as [H|H]; [congruence|]. rewrite H.
      eexists; split; [reflexivity|]. split.
      * split; cbn; rewrite !app_length, ?L1, ?L2; reflexivity.
      * rewrite entries_app by assumption. rewrite entries_eta. reflexivity.
  - intros E1 E2. rewrite E1, E2. reflexivity.
Qed.

Lemma f_concat_ok f g : files_ok f -> files_ok g ->
  files_ok (f_concat f g) /\ entries (f_concat f g) = entries f ++ entries g.
Proof.
  intros [A B] [C D]. split.
  - split; cbn; rewrite !app_length; congruence.
  - unfold f_concat. rewrite entries_app by assumption. rewrite !entries_eta. reflexivity.
Qed.


Definition skip_at (k j : nat) : nat := if j <? k then j else S j.
Lemma nth_error_del {A} k (l : list A) j : k < length l -> nth_error (firstn k l ++ skipn (S k) l) j = nth_error l (skip_at k j).
Proof.
  intro L. unfold skip_at. destruct (Nat.ltb_spec j k).
  - rewrite nth_error_app1 by (rewrite firstn_length; lia). apply nth_error_firstn; lia.
  - rewrite nth_error_app2 by (rewrite firstn_length; lia). rewrite firstn_length, nth_error_skipn. f_equal. lia.
Qed.
Lemma ssorted_skip k o : StronglySorted lt o -> StronglySorted lt (map (skip_at k) o).
Proof.
  induction 1 as [|a o S IH F]; cbn; constructor; auto. rewrite Forall_forall in *. intros x I.
  apply in_map_iff in I. destruct I as (y & <- & I). apply F in I. unfold skip_at. destruct (Nat.ltb_spec a k), (Nat.ltb_spec y k); lia.
Qed.
Lemma del_length {A} k (l : list A) : k < length l -> length (firstn k l ++ skipn (S k) l) = length l - 1.
Proof. intro L. rewrite app_length, firstn_length, skipn_length. lia. Qed.
(** selecting in a list with one element removed *)
Lemma keeps_del_then {A} (P : nat -> Prop) k (l l2 : list A) : k < length l ->
  keeps P (firstn k l ++ skipn (S k) l) l2 -> keeps (fun j => j <> k /\ P (if j <? k then j else j - 1)) l l2.
Proof.
  intros L (o & So & Io & Fo). exists (map (skip_at k) o). split; [apply ssorted_skip; exact So|split].
  - intro i. rewrite in_map_iff. split.
    + intros (j & <- & J). apply Io in J. rewrite del_length in J by exact L. destruct J as [J1 J2]. unfold skip_at.
      destruct (Nat.ltb_spec j k).
      * split; [lia|split; [lia|]]. destruct (Nat.ltb_spec j k); [exact J2|lia].
      * split; [lia|split; [lia|]]. destruct (Nat.ltb_spec (S j) k); [lia|]. replace (S j - 1) with j by lia. exact J2.
    + intros (Hi & Hk & HP). exists (if i <? k then i else i - 1). split.
      * unfold skip_at. destruct (Nat.ltb_spec i k); [destruct (Nat.ltb_spec i k); lia|]. destruct (Nat.ltb_spec (i - 1) k); lia.
      * apply Io. rewrite del_length by exact L. split; [|exact HP]. destruct (Nat.ltb_spec i k); lia.
  - clear - Fo L. induction Fo; cbn; constructor; auto. rewrite <- nth_error_del by exact L. exact H.
Qed.
Lemma keeps_self {A} (l : list A) : keeps (fun _ => True) l l.
Proof.
  exists (seq 0 (length l)). split; [apply ssorted_seq|split].
  - intro i. rewrite in_seq. intuition lia.
  - apply Forall2_nth_seq.
Qed.
Lemma keeps_del {A} (k : nat) (l : list A) : k < length l -> keeps (fun i => i <> k) l (firstn k l ++ skipn (S k) l).
Proof.
  intro L. pose proof (keeps_del_then (fun _ => True) k l _ L (keeps_self _)) as H. eapply keeps_ext; [|exact H]. cbn. tauto.
Qed.

Lemma combine_firstn' {A B} k (a : list A) (b : list B) : combine (firstn k a) (firstn k b) = firstn k (combine a b).
Proof. revert a b; induction k; intros [|x a] [|y b]; cbn; auto. f_equal; auto. Qed.
Lemma combine_skipn' {A B} k (a : list A) (b : list B) : length a = length b -> combine (skipn k a) (skipn k b) = skipn k (combine a b).
Proof. revert a b; induction k; intros [|x a] [|y b] L; cbn in *; try discriminate; auto. Qed.
Lemma combine_del {A B} k (a : list A) (b : list B) : length a = length b ->
  combine (firstn k a ++ skipn (S k) a) (firstn k b ++ skipn (S k) b) = firstn k (combine a b) ++ skipn (S k) (combine a b).
Proof.
  intro L. rewrite combine_app' by (rewrite !firstn_length, L; reflexivity). rewrite combine_firstn', combine_skipn' by exact L. reflexivity.
Qed.
Lemma entries_length f : files_ok f -> length (entries f) = length (fpaths f).
Proof. intros [A B]. unfold entries. rewrite !combine_length. lia. Qed.
Lemma f_del_some f i k : files_ok f -> norm_ind (length (fpaths f)) i = Some k ->
  exists f', f_del f i = (f', None) /\ files_ok f' /\ k < length (fpaths f) /\
    entries f' = firstn k (entries f) ++ skipn (S k) (entries f) /\ length (fpaths f') = length (fpaths f) - 1.
Proof.
  intros [L1 L2] N. assert (K : k < length (fpaths f)) by (apply norm_ind_spec in N; destruct N; lia).
  unfold f_del, del_at. rewrite L1, L2, N. eexists; split; [reflexivity|]. split; [|split; [exact K|split]].
  - unfold files_ok; cbn [fpaths fexist fisdir]. rewrite !del_length by lia. lia.
  - unfold entries; cbn [fpaths fexist fisdir]. rewrite combine_del by lia. apply combine_del. rewrite combine_length. lia.
  - cbn [fpaths]. apply del_length; exact K.
Qed.
Lemma f_del_none f i : norm_ind (length (fpaths f)) i = None -> f_del f i = (f, Some IndexErr).
Proof. intro N. unfold f_del, del_at. rewrite N. reflexivity. Qed.

(** C55: one index *)
Lemma files_remove_one f i : files_ok f -> index_ok (length (entries f)) i ->
  exists f', f_remove f (FInt i) = (f', None) /\ files_ok f' /\
    keeps (fun k => ~ designates (length (entries f)) i k) (entries f) (entries f').
Proof.
  intros OK I. rewrite entries_length in * by exact OK.
  destruct (norm_ind (length (fpaths f)) i) as [k|] eqn:N; [|apply norm_ind_none in N; contradiction].
  destruct (f_del_some f i k OK N) as (f' & E & OK' & K & EN & _). exists f'. split; [exact E|split; [exact OK'|]].
  rewrite EN. eapply keeps_ext; [|apply keeps_del; rewrite entries_length by exact OK; exact K].
  apply norm_ind_spec in N. unfold designates in *. intros j J. cbn beta. lia.
Qed.
Lemma files_remove_out f i : files_ok f -> ~ index_ok (length (entries f)) i -> f_remove f (FInt i) = (f, Some IndexErr).
Proof. intros OK I. rewrite entries_length in I by exact OK. apply f_del_none. apply norm_ind_none. exact I. Qed.

(** C55: several indices *)
Lemma f_remove_cons f x l : f_remove f (FList (x :: l)) =
  match f_remove f x with (f', None) => f_remove f' (FList l) | (f', Some e) => (f', Some e) end.
Proof. reflexivity. Qed.
Lemma files_remove_list inds : forall f, files_ok f -> strictly_decreasing inds ->
  (forall i, In i inds -> (0 <= i < Z.of_nat (length (entries f)))%Z) ->
  exists f', f_remove f (FList (map FInt inds)) = (f', None) /\ files_ok f' /\
    keeps (fun k => ~ In (Z.of_nat k) inds) (entries f) (entries f').
Proof.
  induction inds as [|i r IH]; intros f OK D B.
  - exists f. split; [reflexivity|split; [exact OK|]]. eapply keeps_ext; [|apply keeps_self]. cbn. tauto.
  - apply sdec_cons in D. destruct D as [D LT]. cbn [map]. rewrite f_remove_cons.
    pose proof (B i (or_introl eq_refl)) as Bi. rewrite entries_length in * by exact OK.
    assert (N : norm_ind (length (fpaths f)) i = Some (Z.to_nat i)) by (apply norm_ind_spec; unfold designates; lia).
    destruct (f_del_some f i _ OK N) as (f' & E & OK' & K & EN & LN). change (f_remove f (FInt i)) with (f_del f i). rewrite E.
    destruct (IH f' OK' D) as (f2 & E2 & OK2 & K2).
    { intros j J. rewrite entries_length by exact OK'. specialize (LT j J). specialize (B j (or_intror J)). lia. }
    exists f2. split; [exact E2|split; [exact OK2|]]. rewrite EN in K2.
    apply keeps_del_then in K2; [|rewrite entries_length by exact OK; exact K].
    eapply keeps_ext; [|exact K2]. intros j J. cbn beta. cbn [In].
    destruct (Nat.ltb_spec j (Z.to_nat i)).
    + split; [intros [_ H1] [H2|H2]; [lia|auto]|]. intro H1. split; [lia|]. tauto.
    + split.
      * intros [H1 H2] [H3|H3]; [lia|]. specialize (LT _ H3). lia.
      * intro H1. split; [intro; subst j; apply H1; left; lia|]. intro H3. specialize (LT _ H3). lia.
Qed.

(** C55: a regular expression *)
Lemma f_del_regex_lemma r is : forall f, (forall i, In i is -> i < length (fpaths f)) ->
  f_del_regex r is f = (f, if existsb r (map (fun i => nth i (fpaths f) []) is) then Some TypeErr else None).
Proof.
  induction is as [|i is IH]; intros f B; [reflexivity|]. cbn [f_del_regex map existsb].
  rewrite (nth_error_nth' _ []) by (apply B; now left). destruct (r (nth i (fpaths f) [])) eqn:E; [reflexivity|].
  apply IH. intros j J; apply B; now right.
Qed.
Lemma files_remove_regex f r : f_remove f (FRegex r) = (f, if existsb r (fpaths f) then Some TypeErr else None).
Proof.
  cbn [f_remove]. rewrite f_del_regex_lemma by (intros i I; apply in_rev, in_seq in I; lia). f_equal.
  replace (existsb r (map _ (rev (seq 0 (length (fpaths f)))))) with (existsb r (fpaths f)); [reflexivity|].
  apply Bool.eq_true_iff_eq. rewrite !existsb_exists. split; intros (p & I & R).
  - apply In_nth with (d := []) in I. destruct I as (i & L & <-). exists (nth i (fpaths f) []). split; [|exact R].
    apply in_map_iff. exists i. split; [reflexivity|]. apply in_rev. rewrite rev_involutive. apply in_seq. lia.
  - apply in_map_iff in I. destruct I as (i & <- & I). apply in_rev, in_seq in I. exists (nth i (fpaths f) []). split; [|exact R].
    apply nth_In. lia.
Qed.

(** C55: histories *)
Lemma f_remove_inv : forall a f, files_ok f -> files_ok (fst (f_remove f a)) /\ (forall e, In e (entries (fst (f_remove f a))) -> In e (entries f)).
Proof.
  fix IH 1. intros a f OK. destruct a as [i|i|r|l|]; try (cbn [f_remove f_del_np fst]; auto).
  - destruct (norm_ind (length (fpaths f)) i) as [k|] eqn:N.
    + destruct (f_del_some f i k OK N) as (f' & E & OK' & K & EN & _). rewrite E. cbn [fst]. split; [exact OK'|].
      rewrite EN. intros e I. apply in_app_iff in I.
      rewrite <- (firstn_skipn k (entries f)). apply in_app_iff. destruct I as [I|I]; [left; exact I|].
      assert (K' : k < length (entries f)) by (rewrite entries_length by exact OK; exact K). revert K' I. clear.
      generalize (entries f). intro l. revert k. induction l as [|x l IH]; intros [|k] K I; cbn in *; try lia.
      * right; right; exact I.
      * destruct (IH k ltac:(lia) I) as [H|H]; auto.
    + rewrite f_del_none by exact N. auto.
  - change (f_del_regex r (rev (seq 0 (length (fpaths f)))) f) with (f_remove f (FRegex r)).
    rewrite files_remove_regex. auto.
  - revert f OK. induction l as [|x l IHl]; intros f OK; [cbn; auto|].
    cbn [f_remove]. pose proof (IH x f OK) as [A B]. destruct (f_remove f x) as [f' [e|]]; cbn [fst] in *; [auto|].
    specialize (IHl f' A). cbn [f_remove] in IHl. destruct IHl as [C D]. split; [exact C|]. intros e I. apply B, D, I.
Qed.
Lemma files_history h : (forall g, In (FConcat g) h -> files_ok g) ->
  files_ok (fold_left fstep h f_new) /\
  forall e, In e (entries (fold_left fstep h f_new)) ->
    (exists w p, In (FAdd w p) h /\ e = seen w p) \/ (exists g, In (FConcat g) h /\ In e (entries g)).
Proof.
  induction h as [|o h IH] using rev_ind; intro G; [cbn; split; [split; reflexivity|tauto]|].
  rewrite fold_left_app. cbn [fold_left]. destruct IH as [OK IH]; [intros; apply G, in_app_iff; now left|].
  set (f := fold_left fstep h f_new) in *. clearbody f.
  assert (OLD : forall e, In e (entries f) -> (exists w p, In (FAdd w p) (h ++ [o]) /\ e = seen w p) \/ (exists g, In (FConcat g) (h ++ [o]) /\ In e (entries g))).
  { intros e I. destruct (IH e I) as [(w & p & J & E)|(g & J & E)]; [left; exists w, p|right; exists g]; split; auto; apply in_app_iff; now left. }
  destruct o as [w p|a|g]; cbn [fstep].
  - destruct (f_add_ok w f p OK) as [H1 H2].
    assert (D : (look w p <> None \/ writable w p = true) \/ (look w p = None /\ writable w p = false)).
    { destruct (look w p); [left; left; discriminate|]. destruct (writable w p); auto. }
    destruct D as [D|[D1 D2]].
    + destruct (H1 D) as (f' & E & OK' & EN). rewrite E. cbn [fst]. split; [exact OK'|]. rewrite EN. intros e I.
      apply in_app_iff in I. destruct I as [I|[<-|[]]]; [apply OLD; exact I|]. left; exists w, p; split; [apply in_app_iff; right; now left|reflexivity].
    + rewrite (H2 D1 D2). cbn [fst]. auto.
  - destruct (f_remove_inv a f OK) as [A B]. split; [exact A|]. intros e I. apply OLD, B, I.
  - destruct (f_concat_ok f g OK) as [A B]; [apply G, in_app_iff; right; now left|]. split; [exact A|]. rewrite B. intros e I.
    apply in_app_iff in I. destruct I as [I|I]; [apply OLD; exact I|]. right; exists g; split; [apply in_app_iff; right; now left|exact I].
Qed.
