(** * FilesProofs2: loading from a tree and deleting from the disk. *)
From Coq Require Import String Sorted.
From Verif Require Import Num Res ListLib SortLib SeqSpec FieldModel PointsModel PointsSpec FilesModel FilesSpec FilesProofs.

Lemma NoDup_app' {A} (a b : list A) : NoDup a -> NoDup b -> (forall x, In x a -> In x b -> False) -> NoDup (a ++ b).
Proof.
  induction a as [|x a IH]; intros Ha Hb D; cbn; [exact Hb|]. inversion Ha; subst. constructor.
  - rewrite in_app_iff. intros [H|H]; [contradiction|]. apply (D x); [now left|exact H].
  - apply IH; auto. intros y I J. apply (D y); [now right|exact J].
Qed.
Lemma NoDup_map' {A B} (f : A -> B) l : (forall x y, In x l -> In y l -> f x = f y -> x = y) -> NoDup l -> NoDup (map f l).
Proof.
  intros Inj N. induction N as [|x l H N IH]; cbn; constructor.
  - intro I. apply in_map_iff in I. destruct I as (y & E & J). apply Inj in E; [subst; contradiction|now right|now left].
  - apply IH. intros; apply Inj; auto; now right.
Qed.
Lemma NoDup_app_l {A} (a b : list A) : NoDup (a ++ b) -> NoDup a /\ NoDup b /\ (forall x, In x a -> In x b -> False).
Proof.
  induction a as [|x a IH]; cbn; intro N; [split; [constructor|split; [exact N|tauto]]|]. inversion N; subst.
  destruct (IH H2) as (A1 & A2 & A3). split; [|split; [exact A2|]].
  - constructor; [|exact A1]. intro; apply H1, in_app_iff; now left.
  - intros y [<-|I] J; [apply H1, in_app_iff; now right|eauto].
Qed.
Lemma NoDup_fst_eq {A B} (l : list (A * B)) a b c : NoDup (map fst l) -> In (a, b) l -> In (a, c) l -> b = c.
Proof.
  induction l as [|[x y] l IH]; cbn; intros N I J; [destruct I|]. inversion N; subst.
  destruct I as [I|I], J as [J|J].
  - congruence.
  - exfalso; apply H1, in_map_iff. exists (a, c). split; [cbn; congruence|exact J].
  - exfalso; apply H1, in_map_iff. exists (a, b). split; [cbn; congruence|exact I].
  - auto.
Qed.
Lemma flat_map_flat_map' {A B C} (f : B -> list C) (g : A -> list B) l : flat_map f (flat_map g l) = flat_map (fun a => flat_map f (g a)) l.
Proof. induction l as [|a l IH]; cbn; [reflexivity|]. rewrite flat_map_app, IH. reflexivity. Qed.
Lemma NoDup_flat_map {A B} (f : A -> list B) l : NoDup l -> (forall a, In a l -> NoDup (f a)) ->
  (forall a b x, In a l -> In b l -> In x (f a) -> In x (f b) -> a = b) -> NoDup (flat_map f l).
Proof.
  induction 1 as [|a l NI N IH]; intros H D; cbn; [constructor|]. apply NoDup_app'.
  - apply H; now left.
  - apply IH; [intros; apply H; now right|intros; eapply D; eauto; now right].
  - intros x I J. apply in_flat_map in J. destruct J as (b & J & K). assert (a = b) by (eapply D; eauto; [now left|now right]). subst. contradiction.
Qed.

Fixpoint dtree_ind' (P : dtree -> Prop) (H : forall ds fs, (forall n t, In (n, t) ds -> P t) -> P (Dir ds fs)) (t : dtree) : P t.
Proof.
  destruct t as [ds fs]. apply H. induction ds as [|[m u] ds IH]; intros n t [].
  - injection H0 as <- <-. apply dtree_ind'; exact H.
  - eapply IH; exact H0.
Defined.

(** the sub-directory [s] of [t] at [rel] *)
Inductive subdir : dtree -> path -> list (string * dtree) -> list string -> Prop :=
| sub_here ds fs : subdir (Dir ds fs) [] ds fs
| sub_in ds fs n t p ds' fs' : In (n, t) ds -> subdir t p ds' fs' -> subdir (Dir ds fs) (n :: p) ds' fs'.

Lemma walk_spec t : forall root r dn fn, In (r, dn, fn) (walk root t) <->
  exists rel ds fs, subdir t rel ds fs /\ r = root ++ rel /\ dn = map fst ds /\ fn = fs.
Proof.
  induction t as [ds fs IH] using dtree_ind'. intros root r dn fn. cbn [walk In]. split.
  - intros [E|I].
    + injection E as <- <- <-. exists [], ds, fs. split; [constructor|]. rewrite app_nil_r. auto.
    + apply in_flat_map in I. destruct I as ([n t] & I & J). cbn [fst snd] in J. apply (IH n t I) in J.
      destruct J as (rel & ds' & fs' & S & -> & -> & ->). exists (n :: rel), ds', fs'. split; [econstructor; eauto|].
      rewrite <- app_assoc. auto.
  - intros (rel & ds' & fs' & S & -> & -> & ->). inversion S; subst.
    + left. rewrite app_nil_r. reflexivity.
    + right. apply in_flat_map. exists (n, t). split; [assumption|]. cbn [fst snd]. apply (IH n t); [assumption|].
      exists p, ds', fs'. split; [assumption|]. rewrite <- app_assoc. auto.
Qed.
Lemma entry_at_subdir t : forall rel b, entry_at t rel b <->
  exists r n ds fs, rel = r ++ [n] /\ subdir t r ds fs /\ if b then In n (map fst ds) else In n fs.
Proof.
  induction t as [ds fs IH] using dtree_ind'. intros rel b. split.
  - intro H. inversion H; subst.
    + exists [], n, ds, fs. split; [reflexivity|split; [constructor|assumption]].
    + exists [], n, ds, fs. split; [reflexivity|split; [constructor|]]. apply in_map_iff. exists (n, t). auto.
    + apply (IH n t) in H5; [|assumption]. destruct H5 as (r & m & ds' & fs' & -> & S & I).
      exists (n :: r), m, ds', fs'. split; [reflexivity|split; [econstructor; eauto|exact I]].
  - intros (r & n & ds' & fs' & -> & S & I). inversion S; subst.
    + cbn. destruct b; [|constructor; exact I]. apply in_map_iff in I. destruct I as ([m u] & E & I). cbn in E; subst. econstructor; exact I.
    + cbn. econstructor; [eassumption|]. apply (IH n0 t); [assumption|]. exists p, n, ds', fs'. auto.
Qed.

Definition anyp (_ : path) := true.
Definition wanted_entry (regex : path -> bool) (lf ld : bool) (e : path * bool) : bool := (regex (fst e) && (if snd e then ld else lf))%bool.
Lemma filter_map_true {A} (g : A -> bool) l : (forall x, In x l -> g x = true) -> filter g l = l.
Proof. induction l as [|x l IH]; intro H; cbn; [reflexivity|]. rewrite H by now left. f_equal. apply IH; intros; apply H; now right. Qed.
Lemma filter_map_false {A} (g : A -> bool) l : (forall x, In x l -> g x = false) -> filter g l = [].
Proof. induction l as [|x l IH]; intro H; cbn; [reflexivity|]. rewrite H by now left. apply IH; intros; apply H; now right. Qed.
Lemma found_filter regex lf ld top x : found regex lf ld top x = filter (wanted_entry regex lf ld) (found anyp true true top x).
Proof.
  destruct x as [[rel dn] fn]. unfold found. rewrite !filter_app. rewrite !(filter_map_true (fun e => anyp (fst e))) by reflexivity.
  assert (D : forall l (b c : bool), (if c then filter (fun e : path * bool => regex (fst e)) (map (fun d : string => (top ++ rel ++ [d], b)) l) else []) =
     filter (fun e => (regex (fst e) && c)%bool) (map (fun d : string => (top ++ rel ++ [d], b)) l)).
  { intros l b c. destruct c.
    - apply filter_ext. intro. symmetry. apply Bool.andb_true_r.
    - symmetry. apply filter_map_false. intros. apply Bool.andb_false_r. }
  f_equal; rewrite D; apply filter_ext_in; intros e I; apply in_map_iff in I; destruct I as (m & <- & _); reflexivity.
Qed.
Lemma load_all_filter regex lf ld top l :
  load_loop regex lf ld None top l = filter (wanted_entry regex lf ld) (flat_map (found anyp true true top) l).
Proof.
  induction l as [|x l IH]; [reflexivity|]. cbn [load_loop flat_map]. rewrite filter_app, IH, found_filter. reflexivity.
Qed.
Lemma in_found top r dn fn p b : In (p, b) (found anyp true true top (r, dn, fn)) <-> exists n, p = top ++ r ++ [n] /\ if b then In n dn else In n fn.
Proof.
  unfold found. rewrite !(filter_map_true (fun e => anyp (fst e))) by reflexivity. rewrite in_app_iff, !in_map_iff. split.
  - intros [(n & E & I)|(n & E & I)]; injection E as <- <-; exists n; auto.
  - intros (n & -> & I). destruct b; [left|right]; exists n; auto.
Qed.
Lemma in_all_entries top root t p b : In (p, b) (flat_map (found anyp true true top) (walk root t)) <->
  exists rel, p = top ++ root ++ rel /\ entry_at t rel b.
Proof.
  rewrite in_flat_map. split.
  - intros ([[r dn] fn] & I & J). apply walk_spec in I. destruct I as (rel & ds & fs & S & -> & -> & ->).
    apply in_found in J. destruct J as (n & -> & J). exists (rel ++ [n]). split; [rewrite <- !app_assoc; reflexivity|].
    apply entry_at_subdir. exists rel, n, ds, fs. auto.
  - intros (rel & -> & E). apply entry_at_subdir in E. destruct E as (r & n & ds & fs & -> & S & I).
    exists (root ++ r, map fst ds, fs). split.
    + apply walk_spec. exists r, ds, fs. auto.
    + apply in_found. exists n. split; [rewrite <- !app_assoc; reflexivity|exact I].
Qed.
Lemma all_entries_NoDup top t : wf_tree t -> forall root, NoDup (flat_map (found anyp true true top) (walk root t)).
Proof.
  induction t as [ds fs IH] using dtree_ind'. intros W root. inversion W as [? ? ND WS]; subst. cbn [walk flat_map].
  destruct (NoDup_app_l _ _ ND) as (N1 & N2 & N3).
  apply NoDup_app'.
  - unfold found. rewrite !(filter_map_true (fun e => anyp (fst e))) by reflexivity.
    assert (Inj : forall b l, NoDup l -> NoDup (map (fun d : string => (top ++ root ++ [d], b : bool)) l)).
    { intros b l. apply NoDup_map'. intros x y _ _ E. injection E as E. apply app_inv_head, app_inv_head in E. congruence. }
    apply NoDup_app'; auto. intros x I J. apply in_map_iff in I. apply in_map_iff in J. destruct I as (a & <- & _), J as (b & E & _). discriminate.
  - rewrite flat_map_flat_map'. apply NoDup_flat_map.
    + eapply NoDup_map_inv. exact N1.
    + intros [n t] I. cbn [fst snd]. apply (IH n t I). eapply WS; exact I.
    + intros [n t] [m u] [p b] I J K L. cbn [fst snd] in *. apply in_all_entries in K. apply in_all_entries in L.
      destruct K as (r1 & -> & _), L as (r2 & E & _). apply app_inv_head in E. rewrite <- !app_assoc in E. apply app_inv_head in E.
      injection E as -> _. f_equal.
      eapply NoDup_fst_eq; eassumption.
  - intros [p b] I J. apply in_found in I. destruct I as (n & -> & _). rewrite flat_map_flat_map' in J. apply in_flat_map in J.
    destruct J as ([m u] & _ & K). cbn [fst snd] in K. apply in_all_entries in K. destruct K as (r & E & H).
    apply app_inv_head in E. rewrite <- !app_assoc in E. apply app_inv_head in E. cbn in E.
    assert (r <> []) by (inversion H; discriminate). destruct r; [congruence|]. discriminate.
Qed.

Lemma files_load_all regex lf ld top t f : files_ok f -> wf_tree t ->
  exists es, entries (f_load regex lf ld None top t f) = entries f ++ map (fun e => (fst e, true, Some (snd e))) es /\
    files_ok (f_load regex lf ld None top t f) /\ NoDup es /\
    forall p b, In (p, b) es <-> exists rel, p = top ++ rel /\ entry_at t rel b /\ regex p = true /\ (if b then ld else lf) = true.
Proof.
  intros [L1 L2] W. exists (load_loop regex lf ld None top (walk [] t)). unfold f_load. split; [|split; [|split]].
  - rewrite entries_app by assumption. rewrite entries_eta. f_equal. unfold entries; cbn [fpaths fexist fisdir].
    induction (load_loop regex lf ld None top (walk [] t)) as [|e l IH]; cbn; [reflexivity|]. f_equal. exact IH.
  - split; cbn; rewrite !app_length, !map_length; congruence.
  - rewrite load_all_filter. apply NoDup_filter. apply all_entries_NoDup. exact W.
  - intros p b. rewrite load_all_filter, filter_In, in_all_entries. unfold wanted_entry. cbn [fst snd app]. rewrite Bool.andb_true_iff.
    split; [intros [(rel & -> & E) H]; exists rel; tauto|intros (rel & -> & E & H); split; [exists rel; tauto|exact H]].
Qed.

Lemma load_depth_in regex lf ld d top l e : In e (load_loop regex lf ld (Some d) top l) ->
  exists x, In x l /\ walk_depth (fst (fst x)) <= d /\ In e (found regex lf ld top x).
Proof.
  induction l as [|x l IH]; cbn [load_loop]; [intros []|]. destruct (Nat.ltb_spec d (walk_depth (fst (fst x)))) as [H|H]; [intros []|].
  intro I. apply in_app_iff in I. destruct I as [I|I]; [exists x; split; [now left|auto]|].
  destruct (IH I) as (y & Y & Z0). exists y; split; [now right|exact Z0].
Qed.
Lemma files_load_depth regex lf ld d top t p b :
  In (p, b) (load_loop regex lf ld (Some d) top (walk [] t)) ->
  exists rel, p = top ++ rel /\ entry_at t rel b /\ regex p = true /\ (if b then ld else lf) = true /\ length rel <= d + 2.
Proof.
  intro I. apply load_depth_in in I. destruct I as ([[r dn] fn] & I & D & J). cbn [fst] in D.
  rewrite found_filter in J. apply filter_In in J. destruct J as [J K]. unfold wanted_entry in K. cbn [fst snd] in K. apply Bool.andb_true_iff in K.
  apply walk_spec in I. destruct I as (rel & ds & fs & S & -> & -> & ->). apply in_found in J. destruct J as (n & -> & J). cbn [app] in *.
  exists (rel ++ [n]). split; [reflexivity|]. split; [apply entry_at_subdir; exists rel, n, ds, fs; auto|].
  split; [tauto|]. split; [tauto|]. unfold walk_depth in D. rewrite app_length; cbn. lia.
Qed.
Lemma files_load_depth_lemma regex lf ld d top t f : files_ok f ->
  exists es, entries (f_load regex lf ld (Some d) top t f) = entries f ++ map (fun e => (fst e, true, Some (snd e))) es /\
    files_ok (f_load regex lf ld (Some d) top t f) /\
    forall p b, In (p, b) es -> exists rel, p = top ++ rel /\ entry_at t rel b /\ regex p = true /\ (if b then ld else lf) = true /\ length rel <= d + 2.
Proof.
  intros [L1 L2]. exists (load_loop regex lf ld (Some d) top (walk [] t)). unfold f_load. split; [|split].
  - rewrite entries_app by assumption. rewrite entries_eta. f_equal. unfold entries; cbn [fpaths fexist fisdir].
    induction (load_loop regex lf ld (Some d) top (walk [] t)) as [|e l IH]; cbn; [reflexivity|]. f_equal. exact IH.
  - split; cbn; rewrite !app_length, !map_length; congruence.
  - intros p b I. eapply files_load_depth; exact I.
Qed.

(** ** Deletion *)
Lemma is_prefix_under p q : is_prefix p q = true <-> under p q.
Proof.
  revert q; induction p as [|a p IH]; intro q; cbn.
  - split; [intros _; exists q; reflexivity|reflexivity].
  - destruct q as [|b q]; [split; [discriminate|intros (r & E); discriminate]|].
    destruct (string_dec a b) as [->|N]; [|split; [discriminate|intros (r & E); cbn in E; congruence]].
    rewrite IH. split; intros (r & E); exists r; cbn in *; congruence.
Qed.
Lemma d_kind_in d p b : disk_ok d -> (d_kind d p = Some b <-> In (p, b) d).
Proof.
  intro N. unfold d_kind. split.
  - destruct (find _ d) as [[q c]|] eqn:E; [|discriminate]. cbn. intro H; injection H as ->. apply find_some in E. destruct E as [I H].
    cbn in H. destruct (path_eqb_spec q p); [subst; exact I|discriminate].
  - intro I. destruct (find _ d) as [[q c]|] eqn:E.
    + cbn. apply find_some in E. destruct E as [J H]. cbn in H. destruct (path_eqb_spec q p); [subst|discriminate].
      f_equal. eapply NoDup_fst_eq; eauto.
    + apply find_none with (x := (p, b)) in E; [|exact I]. cbn in E. destruct (path_eqb_spec p p); congruence.
Qed.
Lemma disk_ok_filter P (d : disk) : disk_ok d -> disk_ok (filter P d).
Proof.
  unfold disk_ok. induction d as [|e d IH]; cbn; intro N; [constructor|]. inversion N; subst.
  destruct (P e); [|auto]. cbn. constructor; [|auto]. intro I. apply H1. apply in_map_iff in I. destruct I as (x & E & J).
  apply filter_In in J. apply in_map_iff. exists x. tauto.
Qed.
Lemma del_files_lemma ps : forall d, disk_ok d -> NoDup ps -> (forall p, In p ps -> In (p, false) d) ->
  exists d', del_paths os_remove d ps = (d', None) /\ disk_ok d' /\ forall q b, In (q, b) d' <-> In (q, b) d /\ ~ In q ps.
Proof.
  induction ps as [|p ps IH]; intros d D N H; [exists d; cbn; split; [reflexivity|split; [exact D|tauto]]|].
  cbn [del_paths]. unfold os_remove at 1. rewrite (proj2 (d_kind_in d p false D)) by (apply H; now left).
  inversion N; subst. destruct (IH (filter (fun e => negb (path_eqb (fst e) p)) d)) as (d' & E & D' & HH).
  - apply disk_ok_filter; exact D.
  - assumption.
  - intros q I. apply filter_In. split; [apply H; now right|]. cbn. destruct (path_eqb_spec q p); [subst; contradiction|reflexivity].
  - exists d'. split; [exact E|split; [exact D'|]]. intros q b. rewrite HH, filter_In. cbn [fst In].
    destruct (path_eqb_spec q p); cbn [negb]; split; intros A; intuition congruence.
Qed.
Lemma del_dirs_lemma ps : forall d, disk_ok d -> NoDup ps -> (forall p, In p ps -> In (p, true) d) ->
  (forall p q, In p ps -> In q ps -> under p q -> p = q) ->
  exists d', del_paths os_rmtree d ps = (d', None) /\ disk_ok d' /\
    forall q b, In (q, b) d' <-> In (q, b) d /\ ~ exists p, In p ps /\ under p q.
Proof.
  induction ps as [|p ps IH]; intros d D N H U.
  { exists d; cbn; split; [reflexivity|split; [exact D|]]. intros; split; [intro; split; [assumption|intros (p & [] & _)]|tauto]. }
  cbn [del_paths]. unfold os_rmtree at 1. rewrite (proj2 (d_kind_in d p true D)) by (apply H; now left).
  inversion N; subst. destruct (IH (filter (fun e => negb (is_prefix p (fst e))) d)) as (d' & E & D' & HH).
  - apply disk_ok_filter; exact D.
  - assumption.
  - intros q I. apply filter_In. split; [apply H; now right|]. cbn. destruct (is_prefix p q) eqn:P; [|reflexivity].
    apply is_prefix_under in P. apply U in P; [subst; contradiction|now left|now right].
  - intros; apply U; auto; now right.
  - exists d'. split; [exact E|split; [exact D'|]]. intros q b. rewrite HH, filter_In. cbn [fst].
    rewrite Bool.negb_true_iff, <- Bool.not_true_iff_false, is_prefix_under. split.
    + intros [[A B] C]. split; [exact A|]. intros (r & [<-|R] & V); [contradiction|]. apply C; exists r; auto.
    + intros [A B]. split; [split; [exact A|]|].
      * intro V. apply B. exists p. split; [now left|exact V].
      * intros (r & R & V). apply B. exists r. split; [now right|exact V].
Qed.
Lemma f_existing_in f p o : files_ok f -> (In (p, o) (f_existing f) <-> In (p, true, o) (entries f)).
Proof.
  intros [L1 L2]. unfold f_existing, entries. revert L1 L2. generalize (fpaths f) (fexist f) (fisdir f).
  intro ps. induction ps as [|q ps IH]; intros [|e es] [|i ds] A B; cbn in *; try discriminate; [tauto|].
  destruct e; cbn [map fst In]; rewrite IH by lia.
  - split; intros [H|H]; auto; left; congruence.
  - split; [auto|intros [H|H]; [discriminate|exact H]].
Qed.
Lemma f_existing_nodup f : files_ok f -> NoDup (fpaths f) -> NoDup (map fst (f_existing f)).
Proof.
  intros [L1 L2] N. revert L1 L2. unfold f_existing. generalize (fexist f) (fisdir f). induction N as [|p ps I N IH]; intros [|e es] [|i ds] A B; cbn in *; try discriminate; try constructor.
  destruct e; cbn; [|apply IH; lia]. constructor; [|apply IH; lia]. intro J. apply I.
  rewrite map_map in J. apply in_map_iff in J. destruct J as ([[q o] e] & E & J). cbn in E. subst q. apply filter_In in J. destruct J as [J _].
  apply in_combine_l in J. apply in_combine_l in J. exact J.
Qed.
Definition isd (e : path * option bool) : bool := match snd e with Some true => true | _ => false end.
Lemma in_sub f (b : bool) p : files_ok f -> (forall q o, In (q, true, o) (entries f) -> o <> None) ->
  (In p (map fst (filter (fun e => if b then isd e else negb (isd e)) (f_existing f))) <-> lists f p b).
Proof.
  intros OK T. unfold lists. rewrite in_map_iff. split.
  - intros ([q o] & E & I). cbn in E. subst q. apply filter_In in I. destruct I as [I J]. apply f_existing_in in I; [|exact OK].
    pose proof (T p o I) as X. destruct o as [c|]; [|congruence]. unfold isd in J. cbn in J. destruct b, c; try discriminate; exact I.
  - intro I. exists (p, Some b). split; [reflexivity|]. apply filter_In. split; [apply f_existing_in; assumption|]. unfold isd; cbn. destruct b; reflexivity.
Qed.
Lemma NoDup_map_filter {A B} (f : A -> B) P l : NoDup (map f l) -> NoDup (map f (filter P l)).
Proof.
  induction l as [|x l IH]; cbn; intro N; [constructor|]. inversion N; subst. destruct (P x); cbn; [|auto]. constructor; [|auto].
  intro I. apply H1. apply in_map_iff in I. destruct I as (y & E & J). apply filter_In in J. apply in_map_iff. exists y. tauto.
Qed.
Lemma truthful_some d f : truthful d f -> forall q o, In (q, true, o) (entries f) -> o <> None.
Proof. intros T q o I. destruct (T q o I) as (b & -> & _). discriminate. Qed.

Lemma files_delete_recursive d f : disk_ok d -> files_ok f -> fpaths f <> [] -> NoDup (fpaths f) -> truthful d f ->
  (forall p q, lists f p true -> lists f q true -> under p q -> p = q) ->
  exists d' f', f_delete true true d f = (d', f', None) /\
    (forall q b, In (q, b) d' <-> In (q, b) d /\ ~ lists f q false /\ ~ exists p, lists f p true /\ under p q) /\
    fpaths f' = fpaths f /\ Forall (fun e => e = false) (fexist f') /\ files_ok f'.
Proof.
  intros D OK NE N T U. pose proof (truthful_some d f T) as TS. unfold f_delete. destruct (fpaths f) as [|p0 ps0] eqn:EP; [congruence|]. rewrite <- EP in *. clear NE.
  change (fun e : path * option bool => negb match snd e with Some true => true | _ => false end) with (fun e => negb (isd e)).
  change (fun e : path * option bool => match snd e with Some true => true | _ => false end) with isd.
  assert (FI : forall p, In p (map fst (filter (fun e => negb (isd e)) (f_existing f))) <-> lists f p false) by (intro p; apply (in_sub f false p OK TS)).
  assert (DI : forall p, In p (map fst (filter isd (f_existing f))) <-> lists f p true) by (intro p; apply (in_sub f true p OK TS)).
  destruct (del_files_lemma (map fst (filter (fun e => negb (isd e)) (f_existing f))) d D) as (d1 & E1 & D1 & H1).
  { apply NoDup_map_filter, f_existing_nodup; assumption. }
  { intros p I. apply FI in I. destruct (T _ _ I) as (b & X & J). injection X as <-. exact J. }
  rewrite E1.
  destruct (del_dirs_lemma (map fst (filter isd (f_existing f))) d1 D1) as (d2 & E2 & D2 & H2).
  { apply NoDup_map_filter, f_existing_nodup; assumption. }
  { intros p I. apply DI in I. destruct (T _ _ I) as (b & X & J). injection X as <-. apply H1. split; [exact J|].
    intro K. apply FI in K. destruct (T _ _ K) as (b & X & J'). injection X as <-.
    pose proof (NoDup_fst_eq _ _ _ _ D J J'). discriminate. }
  { intros p q I J. apply U; apply DI; assumption. }
  rewrite E2. eexists; eexists; split; [reflexivity|]. split; [|split; [reflexivity|split]].
  - intros q b. rewrite H2, H1, FI. split.
    + intros [[A B] C]. split; [exact A|split; [exact B|]]. intros (p & P & V). apply C. exists p. split; [apply DI; exact P|exact V].
    + intros (A & B & C). split; [split; assumption|]. intros (p & P & V). apply C. exists p. split; [apply DI; exact P|exact V].
  - cbn [fexist]. apply Forall_forall. intros x I. apply in_map_iff in I. destruct I as (y & <- & _). reflexivity.
  - destruct OK as [A B]. split; cbn [fexist fisdir fpaths]; rewrite ?map_length; assumption.
Qed.
Lemma files_delete_refused recursive d f : fpaths f <> [] -> f_delete recursive false d f = (d, f, None).
Proof. intro NE. unfold f_delete. destruct (fpaths f); [congruence|reflexivity]. Qed.
