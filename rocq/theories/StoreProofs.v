(** * StoreProofs: paths, extensions, saving and loading. *)
From Coq Require Import String Ascii.
From Verif Require Import Num Res ListLib FieldModel FilesModel FilesSpec FilesProofs FilesProofs2 TemporalModel SpatialModel StoreModel StoreSpec.
#[local] Open Scope string_scope.
#[local] Open Scope list_scope.

Lemma snoc_case {A} (l : list A) : l = [] \/ exists d n, l = d ++ [n].
Proof. induction l as [|a l _] using rev_ind; [now left|right; eauto]. Qed.
Lemma removelast_snoc {A} (d : list A) n : removelast (d ++ [n]) = d.
Proof. rewrite removelast_app by discriminate. cbn. apply app_nil_r. Qed.
Lemma last_snoc {A} (d : list A) n x : last (d ++ [n]) x = n.
Proof. apply last_last. Qed.
Lemma snoc_not_nil {A} (d : list A) n : d ++ [n] <> [].
Proof. destruct d; discriminate. Qed.

(** ** check_path *)
Lemma exists_in_spec {B} (s : store B) p : p <> [] -> (exists_in s p = true <-> present s p).
Proof. intro N. unfold exists_in, present. destruct p; [congruence|]. destruct (s (s0 :: p)); split; congruence. Qed.
Lemma first_missing_some {B} (s : store B) rest : forall valid n d, first_missing s valid rest = Some (n, d) ->
  exists r, valid ++ rest = d ++ n :: r /\ ~ present s (d ++ [n]) /\ (d = [] \/ present s d \/ d = valid).
Proof.
  induction rest as [|c r IH]; intros valid n d; cbn [first_missing]; [discriminate|].
  destruct (exists_in s (valid ++ [c])) eqn:E; intro H.
  - destruct (IH _ _ _ H) as (r' & A & B0 & C). exists r'. rewrite <- app_assoc in A. split; [exact A|split; [exact B0|]].
    destruct C as [C|[C|C]]; [auto|auto|]. right. left. subst d. apply exists_in_spec; [apply snoc_not_nil|exact E].
  - injection H as <- <-. exists r. split; [reflexivity|split; [|auto]]. intro P. apply exists_in_spec in P; [congruence|apply snoc_not_nil].
Qed.
Lemma first_missing_none {B} (s : store B) rest : forall valid, first_missing s valid rest = None -> rest <> [] -> present s (valid ++ rest).
Proof.
  induction rest as [|c r IH]; intros valid; cbn [first_missing]; [congruence|]. destruct (exists_in s (valid ++ [c])) eqn:E; [|discriminate].
  intros H _. destruct r as [|c' r].
  - apply exists_in_spec; [apply snoc_not_nil|exact E].
  - rewrite <- (app_nil_l (c' :: r)) at 1. change (valid ++ c :: [] ++ c' :: r) with (valid ++ (([c] ++ (c' :: r)))). rewrite app_assoc. apply IH; [exact H|discriminate].
Qed.
Lemma check_existing_lemma {B} (s : store B) p : p <> [] ->
  (present s p -> check_existing s p = inl p) /\
  (~ present s p -> exists n d r, check_existing s p = inr (n, d) /\ p = d ++ n :: r /\ ~ present s (d ++ [n]) /\ (d = [] \/ present s d)).
Proof.
  intro N. unfold check_existing. split; intro H.
  - apply (exists_in_spec s p N) in H. now rewrite H.
  - destruct (exists_in s p) eqn:E; [apply exists_in_spec in E; [contradiction|exact N]|].
    destruct (first_missing s [] p) as [[n d]|] eqn:F.
    + apply first_missing_some in F. destruct F as (r & A & B0 & C). exists n, d, r. split; [reflexivity|split; [exact A|split; [exact B0|]]].
      destruct C as [C|[C|C]]; auto.
    + apply first_missing_none in F; [contradiction|exact N].
Qed.
(** newfile=False: the path when it exists, else the first of its components that is missing *)
Lemma check_old_lemma {B} (s : store B) p : p <> [] ->
  (present s p -> check_path s false p = inl p) /\
  (~ present s p -> exists n d r, check_path s false p = inr (n, d) /\ p = d ++ n :: r /\ ~ present s (d ++ [n]) /\ (d = [] \/ present s d)).
Proof. apply check_existing_lemma. Qed.
(** newfile=True: the directory of the path is checked *)
Lemma check_new_lemma {B} (s : store B) d n :
  (d = [] \/ present s d -> check_path s true (d ++ [n]) = inl (d ++ [n])) /\
  (d <> [] -> ~ present s d -> exists m e r, check_path s true (d ++ [n]) = inr (m, e) /\ d = e ++ m :: r /\ ~ present s (e ++ [m]) /\ (e = [] \/ present s e)).
Proof.
  unfold check_path. rewrite removelast_snoc, last_snoc. split.
  - intros [->|P].
    + reflexivity.
    + destruct d as [|a d]; [reflexivity|]. destruct (check_existing_lemma s (a :: d)) as [A _]; [discriminate|]. now rewrite (A P).
  - intros N P. destruct (check_existing_lemma s d N) as [_ A]. destruct (A P) as (m & e & r & E & X). exists m, e, r. now rewrite E.
Qed.
(** with everything in directories, nothing of the path is there after the missing component *)
Lemma rooted_missing {B} (s : store B) : rooted s -> forall r d, d <> [] -> ~ present s d -> ~ present s (d ++ r).
Proof.
  intros R r. induction r as [|c r IH] using rev_ind; intros d N P; [now rewrite app_nil_r|]. intro Q. rewrite app_assoc in Q. revert Q.
  apply (fun H => H). intro Q. apply (IH d N P). unfold present in *. apply (R (d ++ r) c); [|exact Q]. intro E. apply app_eq_nil in E. now destruct E.
Qed.

(** ** Extensions *)
Lemma sapp_nil_r (s : string) : (s ++ "")%string = s.
Proof. induction s; cbn; congruence. Qed.
Lemma sapp_assoc (a b c : string) : ((a ++ b) ++ c)%string = (a ++ (b ++ c))%string.
Proof. induction a; cbn; congruence. Qed.
Fixpoint no_dot (s : string) : bool := match s with "" => true | String c r => (negb (Ascii.eqb c "."%char) && no_dot r)%bool end.
Lemma from_last_dot_none s : from_last_dot s = None <-> no_dot s = true.
Proof.
  induction s as [|c r IH]; cbn; [tauto|]. destruct (from_last_dot r).
  - destruct IH as [_ IH]. split; [discriminate|]. intro H. apply andb_prop in H. now destruct H as [_ H%IH].
  - destruct (Ascii.eqb c "."); cbn; [split; discriminate|]. tauto.
Qed.
Lemma from_last_dot_app a e : no_dot e = true -> from_last_dot (a ++ String "." e) = Some (String "." e).
Proof.
  intro N. induction a as [|c a IH]; cbn.
  - apply from_last_dot_none in N. now rewrite N.
  - now rewrite IH.
Qed.
Lemma from_last_dot_split s e : from_last_dot s = Some e -> exists a r, s = (a ++ String "." r)%string /\ e = String "." r /\ no_dot r = true.
Proof.
  revert e. induction s as [|c s IH]; intros e; cbn; [discriminate|]. destruct (from_last_dot s) as [e'|] eqn:E.
  - intros [= <-]. destruct (IH _ eq_refl) as (a & r & -> & -> & N). exists (String c a), r. auto.
  - destruct (Ascii.eqb_spec c "."); [|discriminate]. intros [= <-]. subst c. exists "", s. split; [reflexivity|split; [reflexivity|]]. now apply from_last_dot_none.
Qed.
Lemma strip_split s : exists d, s = (d ++ strip_dots s)%string /\ only_dots d /\ match strip_dots s with "" => True | String c _ => c <> "."%char end.
Proof.
  induction s as [|c s (d & E & D & F)]; cbn.
  - exists "". repeat split.
  - destruct (Ascii.eqb_spec c ".").
    + exists (String c d). cbn. rewrite <- E. auto.
    + exists "". cbn. auto.
Qed.
Lemma only_dots_app a b : only_dots (a ++ b) <-> only_dots a /\ only_dots b.
Proof. induction a; cbn; tauto. Qed.
Lemma strip_app a b : ~ only_dots a -> strip_dots (a ++ b) = (strip_dots a ++ b)%string.
Proof. induction a as [|c a IH]; cbn; [tauto|]. intro N. destruct (Ascii.eqb_spec c "."); [apply IH; tauto|reflexivity]. Qed.
Lemma extension_iff e s : no_dot e = true -> (extension s = String "." e <-> named (String "." e) s).
Proof.
  intro N. unfold extension, named. split.
  - destruct (from_last_dot (strip_dots s)) as [x|] eqn:E; [|discriminate]. intros ->. destruct (from_last_dot_split _ _ E) as (a & r & A & R & _). injection R as <-.
    destruct (strip_split s) as (d & S & D & F). exists (d ++ a)%string. split; [rewrite S, A at 1; now rewrite sapp_assoc|].
    intro O. apply only_dots_app in O. destruct O as [_ O]. rewrite A in F. destruct a as [|c a]; cbn in *; [congruence|]. tauto.
  - intros (a & -> & O). rewrite (strip_app a _ O). now rewrite from_last_dot_app.
Qed.
Lemma kind_ext_dot c : exists e, kind_ext c = String "." e /\ no_dot e = true.
Proof. destruct c; eexists; split; reflexivity. Qed.
Lemma ext_named c d n : String.eqb (ext_of (d ++ [n])) (kind_ext c) = true <-> named (kind_ext c) n.
Proof.
  unfold ext_of. rewrite last_snoc, String.eqb_eq. destruct (kind_ext_dot c) as (e & -> & N). now apply extension_iff.
Qed.
Lemma target_stored c d n : stored_as c (d ++ [n]) (target c (d ++ [n])).
Proof.
  unfold target. exists d, n. split; [reflexivity|]. destruct (String.eqb (ext_of (d ++ [n])) (kind_ext c)) eqn:E.
  - left. apply ext_named in E. auto.
  - right. split; [intro H; apply (ext_named c d) in H; congruence|]. unfold add_ext. now rewrite removelast_snoc, last_snoc.
Qed.
Lemma stored_fun c p q r : stored_as c p q -> stored_as c p r -> q = r.
Proof.
  intros (d & n & -> & H) (d' & n' & E & K). apply app_inj_tail in E. destruct E as [<- <-]. destruct H as [[A ->]|[A ->]], K as [[A' ->]|[A' ->]]; tauto.
Qed.
Lemma stored_target c p q : stored_as c p q -> target c p = q.
Proof. intro H. destruct H as (d & n & -> & H') eqn:EQ. eapply stored_fun; [apply target_stored|]. exists d, n. split; [reflexivity|exact H']. Qed.
Lemma stored_ext c p q : stored_as c p q -> plain p -> String.eqb (ext_of q) (kind_ext c) = true.
Proof.
  intros (d & n & -> & H) (d' & n' & E & P). apply app_inj_tail in E. destruct E as [<- <-]. destruct H as [[A ->]|[A ->]].
  - now apply ext_named.
  - apply ext_named. exists n. auto.
Qed.
Lemma stored_not_nil c p q : stored_as c p q -> q <> [].
Proof. intros (d & n & -> & [[_ ->]|[_ ->]]); apply snoc_not_nil. Qed.
Lemma stored_dir c p q : stored_as c p q -> removelast q = removelast p.
Proof. intros (d & n & -> & [[_ ->]|[_ ->]]); now rewrite !removelast_snoc. Qed.

(** ** Exports *)
Lemma put_same {B} (s : store B) p n : put s p n p = Some n.
Proof. unfold put. destruct (path_eqb_spec p p); congruence. Qed.
Lemma put_other {B} (s : store B) p n q : q <> p -> put s p n q = s q.
Proof. intro N. unfold put. destruct (path_eqb_spec q p); congruence. Qed.
Lemma check_new_ok {B} (s : store B) p q c : stored_as c p q -> forall p', check_path s true p = inl p' -> p' = p.
Proof.
  intros (d & n & -> & _) p'. unfold check_path. rewrite removelast_snoc, last_snoc. unfold check_existing. destruct (exists_in s d).
  - congruence.
  - destruct (first_missing s [] d) as [e|]; [discriminate|congruence].
Qed.
Lemma can_write_iff {B} (s : store B) q : can_write s q = true <-> writable_at s q.
Proof.
  unfold can_write, writable_at. destruct (s q) as [[|b]|]; cbn.
  - split; [discriminate|]. now intros [[] _].
  - destruct (removelast q) as [|a l] eqn:E; [split; [intros _; split; [discriminate|auto]|auto]|].
    destruct (s (a :: l)) as [[|b']|]; split; try discriminate; try (intros _; split; [discriminate|right; reflexivity]); try reflexivity; intros [_ [F|F]]; discriminate F.
  - destruct (removelast q) as [|a l] eqn:E; [split; [intros _; split; [discriminate|auto]|auto]|].
    destruct (s (a :: l)) as [[|b']|]; split; try discriminate; try (intros _; split; [discriminate|right; reflexivity]); try reflexivity; intros [_ [F|F]]; discriminate F.
Qed.
(** the states of an export: the disk unchanged, or the beginning of the bytes in the file *)
Lemma export_states {O B} (cd : codec O B) w o p c q v : stored_as c p q -> In v (fst (export cd w o p c)) ->
  wdisk v = wdisk w \/ exists k, wdisk v = put (wdisk w) q (NFile (firstn k (fst (dump cd c o)))).
Proof.
  intros S. unfold export. destruct (check_path (wdisk w) true p) as [p'|[n d]] eqn:C.
  2: { intros [<-|[]]. now left. }
  pose proof (check_new_ok _ _ _ _ S _ C) as ->. rewrite (stored_target _ _ _ S). destruct (can_write (wdisk w) q); cbn [negb].
  2: { intros [<-|[<-|[]]]; now left. }
  destruct (dump cd c o) as [b ok]. cbn [fst].
  assert (D : In v (map (fun s => mkworld s false) (writes (wdisk w) q b)) -> exists k, wdisk v = put (wdisk w) q (NFile (firstn k b))).
  { intro I. apply in_map_iff in I. destruct I as (s & <- & I). apply in_map_iff in I. destruct I as (k & <- & _). now exists k. }
  destruct ok; cbn [fst app In]; rewrite ?in_app_iff; cbn [In].
  - intros [<-|[<-|[I|[<-|[]]]]]; [now left|now left|right; auto|]. right. exists (length b). now rewrite firstn_all.
  - intros [<-|[<-|I]]; [now left|now left|right; auto].
Qed.
Lemma after_in {O B} (cd : codec O B) w o p c : In (after_export cd w o p c) (fst (export cd w o p c)).
Proof.
  unfold after_export. assert (N : fst (export cd w o p c) <> []).
  { unfold export. destruct (check_path (wdisk w) true p) as [p'|[n d]]; [|discriminate]. destruct (negb (can_write (wdisk w) (target c p'))); [discriminate|].
    destruct (dump cd c o) as [b []]; discriminate. }
  destruct (fst (export cd w o p c)) as [|a l]; [congruence|]. destruct (@exists_last _ (a :: l) N) as (l' & x & ->). rewrite last_snoc. apply in_or_app. right. now left.
Qed.
(** an export changes nothing else than its file, at any moment *)
Lemma export_frame {O B} (cd : codec O B) w o p c q v r : stored_as c p q -> In v (fst (export cd w o p c)) -> r <> q -> wdisk v r = wdisk w r.
Proof. intros S I N. destruct (export_states cd w o p c q v S I) as [->|(k & ->)]; [reflexivity|now apply put_other]. Qed.

(** when it succeeds *)
Lemma export_done {O B} (cd : codec O B) w o p c q : stored_as c p q ->
  (snd (export cd w o p c) = Done tt <-> writable_at (wdisk w) q /\ snd (dump cd c o) = true).
Proof.
  intros S. pose proof (stored_dir _ _ _ S) as RD. unfold export. destruct (check_path (wdisk w) true p) as [p'|[n d]] eqn:C.
  - pose proof (check_new_ok _ _ _ _ S _ C) as ->. rewrite (stored_target _ _ _ S). rewrite <- can_write_iff. destruct (can_write (wdisk w) q); cbn [negb].
    + destruct (dump cd c o) as [b []]; cbn; [split; auto|]. split; [discriminate|intros [_ H]; discriminate H].
    + cbn. split; [discriminate|intros [H _]; discriminate H].
  - cbn. split; [discriminate|]. intros [[_ W] _]. destruct S as (d0 & n0 & -> & _). rewrite removelast_snoc in RD. rewrite RD in W.
    destruct (check_new_lemma (wdisk w) d0 n0) as [A _]. rewrite A in C; [discriminate|]. destruct W as [->|W]; [now left|right; unfold present; rewrite W; discriminate].
Qed.
Lemma export_final {O B} (cd : codec O B) w o p c q : stored_as c p q -> snd (export cd w o p c) = Done tt ->
  after_export cd w o p c = mkworld (put (wdisk w) q (NFile (fst (dump cd c o)))) true.
Proof.
  intros S. unfold after_export, export. destruct (check_path (wdisk w) true p) as [p'|[n d]] eqn:C; [|discriminate].
  pose proof (check_new_ok _ _ _ _ S _ C) as ->. rewrite (stored_target _ _ _ S). destruct (negb (can_write (wdisk w) q)); [discriminate|].
  destruct (dump cd c o) as [b []]; [|discriminate]. intros _. cbn [fst]. rewrite app_assoc. apply last_snoc.
Qed.

(** ** Imports *)
Lemma import_disk {O B} (cd : codec O B) w p : wdisk (fst (import cd w p)) = wdisk w.
Proof.
  unfold import. destruct (check_path (wdisk w) false p) as [q|[n d]]; [|reflexivity].
  destruct (String.eqb (ext_of q) ".imt"); [|destruct (String.eqb (ext_of q) ".cimt"); [|reflexivity]];
    destruct (wdisk w q) as [[|b]|]; try reflexivity; destruct (load cd _ b); reflexivity.
Qed.
(** what an import of the file of an export reads *)
Lemma import_read {O B} (cd : codec O B) w p c q b : stored_as c p q -> plain p -> wdisk w q = Some (NFile b) ->
  import cd w q = match load cd c b with
                  | Some o => (mkworld (wdisk w) true, Done (upgrade cd o))
                  | None => (mkworld (wdisk w) false, Fails GenericErr)
                  end.
Proof.
  intros S P F. pose proof (stored_ext _ _ _ S P) as X. unfold import. destruct (check_old_lemma (wdisk w) q (stored_not_nil _ _ _ S)) as [A _].
  rewrite A by (unfold present; rewrite F; discriminate). apply String.eqb_eq in X. rewrite X, F. destruct c; reflexivity.
Qed.
Lemma import_ext {O B} (cd : codec O B) w w' q : wdisk w = wdisk w' -> snd (import cd w q) = snd (import cd w' q).
Proof. intro E. unfold import. rewrite E. destruct (check_path (wdisk w') false q) as [r|[n d]]; [|reflexivity].
  destruct (String.eqb (ext_of r) ".imt"); [|destruct (String.eqb (ext_of r) ".cimt"); [|reflexivity]];
    destruct (wdisk w' r) as [[|b]|]; try reflexivity; destruct (load cd _ b); reflexivity.
Qed.

(** ** Histories *)
Lemma step_frame {O B} (cd : codec O B) w (x : sop O) q : op_path x <> [] -> ~ writes_in x q -> wdisk (sstep cd w x) q = wdisk w q.
Proof.
  destruct x as [o p c|p|o p c k]; cbn [sstep writes_in op_path]; intros N W.
  - destruct (snoc_case p) as [->|(d & n & ->)]; [congruence|]. apply (export_frame cd w o (d ++ [n]) c (target c (d ++ [n]))); [apply target_stored|apply after_in|].
    intros ->. apply W, target_stored.
  - now rewrite import_disk.
  - cbn [wdisk]. destruct (snoc_case p) as [->|(d & n & ->)]; [congruence|]. destruct (nth_in_or_default k (fst (export cd w o (d ++ [n]) c)) w) as [I| ->]; [|reflexivity].
    apply (export_frame cd w o (d ++ [n]) c (target c (d ++ [n]))); [apply target_stored|exact I|]. intros ->. apply W, target_stored.
Qed.
Lemma run_frame {O B} (cd : codec O B) q h : forall w, (forall x, In x h -> op_path x <> [] /\ ~ writes_in x q) -> wdisk (srun cd w h) q = wdisk w q.
Proof.
  induction h as [|x h IH]; intros w H; [reflexivity|]. cbn [srun fold_left]. change (fold_left (sstep cd) h (sstep cd w x)) with (srun cd (sstep cd w x) h).
  rewrite IH by (intros; apply H; now right). apply step_frame; apply H; now left.
Qed.
(** the last object saved in a file is the one that is read in it, whatever is done with other files meanwhile *)
Lemma store_round_trip {O B} (cd : codec O B) w o p c q h : stored_as c p q -> plain p -> saves cd c o ->
  snd (export cd w o p c) = Done tt -> (forall x, In x h -> op_path x <> [] /\ ~ writes_in x q) ->
  snd (import cd (srun cd (after_export cd w o p c) h) q) = Done o.
Proof.
  intros S P (D & L & U) E H. rewrite (import_read cd _ p c q (fst (dump cd c o)) S P).
  - rewrite L. cbn. now rewrite U.
  - rewrite (run_frame cd q h _ H), (export_final cd w o p c q S E). apply put_same.
Qed.
(** an export interrupted at any moment, or failing: the file gives what it gave, or nothing, or the new object *)
Lemma store_interrupted {O B} (cd : codec O B) w o p c q v : stored_as c p q -> plain p -> sound cd c o ->
  In v (fst (export cd w o p c)) ->
  snd (import cd v q) = snd (import cd w q) \/ snd (import cd v q) = Fails GenericErr \/ (snd (import cd v q) = Done (upgrade cd o) /\ snd (dump cd c o) = true).
Proof.
  intros S P G I. destruct (export_states cd w o p c q v S I) as [E|(k & E)].
  - left. now apply import_ext.
  - rewrite (import_read cd v p c q (firstn k (fst (dump cd c o))) S P) by (rewrite E; apply put_same).
    destruct (load cd c (firstn k (fst (dump cd c o)))) as [x|] eqn:X; [|auto]. destruct (G _ _ X) as (D & _ & ->). auto.
Qed.
(** reading back with the path given to export *)
Lemma same_path {O B} (cd : codec O B) w o p c q : stored_as c p q -> plain p -> saves cd c o -> snd (export cd w o p c) = Done tt ->
  (q = p -> snd (import cd (after_export cd w o p c) p) = Done o) /\
  (q <> p -> ~ present (wdisk w) p -> exists n d, snd (import cd (after_export cd w o p c) p) = Missing n d).
Proof.
  intros S P V E. split.
  - intros <-. apply (store_round_trip cd w o q c q [] S P V E). intros x [].
  - intros N A. rewrite (export_final cd w o p c q S E). unfold import. cbn [wdisk].
    destruct (check_old_lemma (put (wdisk w) q (NFile (fst (dump cd c o)))) p) as [_ C].
    + destruct S as (d & n & -> & _). apply snoc_not_nil.
    + destruct C as (n & d & r & X & _); [unfold present; rewrite put_other by congruence; exact A|]. rewrite X. cbn. eauto.
Qed.
(** the garbage collector *)
Lemma export_gc {O B} (cd : codec O B) w o p c q : stored_as c p q -> snd (export cd w o p c) = Done tt -> wgc (after_export cd w o p c) = true.
Proof. intros S E. now rewrite (export_final cd w o p c q S E). Qed.
Lemma import_gc {O B} (cd : codec O B) w p o : snd (import cd w p) = Done o -> wgc (fst (import cd w p)) = true.
Proof.
  unfold import. destruct (check_path (wdisk w) false p) as [q|[n d]]; [|discriminate].
  destruct (String.eqb (ext_of q) ".imt"); [|destruct (String.eqb (ext_of q) ".cimt"); [|discriminate]];
    (destruct (wdisk w q) as [[|b]|]; [discriminate| |discriminate]); destruct (load cd _ b); cbn; congruence.
Qed.
