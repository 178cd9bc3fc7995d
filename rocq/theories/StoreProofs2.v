(** * StoreProofs2: searches, removals and trees of names. *)
From Coq Require Import String Ascii.
From Verif Require Import Num Res ListLib FieldModel FilesModel FilesSpec FilesProofs FilesProofs2 StoreModel StoreSpec StoreProofs.
#[local] Open Scope string_scope.
#[local] Open Scope list_scope.

Lemma folder_subdir t : forall p l, folder t p l <-> exists ds, subdir t p ds l.
Proof.
  induction t as [ds fs IH] using dtree_ind'. intros p l. split.
  - intro H. inversion H; subst.
    + exists ds. constructor.
    + apply (IH n t) in H5; [|assumption]. destruct H5 as (ds' & S). exists ds'. econstructor; eauto.
  - intros (ds' & S). inversion S; subst; [constructor|]. econstructor; [eassumption|]. apply (IH n t); eauto.
Qed.
Lemma walk_folders t rel fls : (exists dn, In (rel, dn, fls) (walk [] t)) <-> folder t rel fls.
Proof.
  rewrite folder_subdir. split.
  - intros (dn & I). apply walk_spec in I. destruct I as (r & ds & fs & S & E & _ & ->). cbn in E. subst. eauto.
  - intros (ds & S). exists (map fst ds). apply walk_spec. exists rel, ds, fls. auto.
Qed.

(** ** find_file_in_path *)
Lemma find_loop_lemma regs top l : forall m r, find_loop regs top m l = Ok r ->
  (forall rel dn fls, In (rel, dn, fls) l -> fls <> [] -> existsb (has_match regs) fls = true -> In (top ++ rel) r) /\
  (forall p, In p r -> exists rel dn fls, In (rel, dn, fls) l /\ p = top ++ rel /\ (fls = [] \/ existsb (has_match regs) fls = true)).
Proof.
  induction l as [|[[rel dn] fls] l IH]; intros m r; cbn [find_loop].
  - intros [= <-]. split; [intros ? ? ? []|intros ? []].
  - set (m' := match fls with [] => m | _ => Some (existsb (has_match regs) fls) end). destruct m' as [b|] eqn:M; [|discriminate].
    destruct (find_loop regs top (Some b) l) as [t|] eqn:E; [|discriminate]. cbn [bind]. intros [= <-]. destruct (IH _ _ E) as [A C]. split.
    + intros rel' dn' fls' [I|I] N H.
      * injection I as -> -> ->. destruct fls' as [|f fls']; [congruence|]. subst m'. rewrite H in M. injection M as <-. now left.
      * specialize (A _ _ _ I N H). destruct b; [now right|exact A].
    + intros p I. assert (K : (p = top ++ rel /\ b = true) \/ In p t) by (destruct b; [destruct I as [<-|I]; auto|auto]). destruct K as [[-> ->]|K].
      * exists rel, dn, fls. split; [now left|split; [reflexivity|]]. destruct fls; [now left|]. subst m'. injection M as H. now right.
      * destruct (C _ K) as (a & b' & c & I' & X). exists a, b', c. split; [now right|exact X].
Qed.
Lemma existsb_match regs fls : existsb (has_match regs) fls = true <-> exists f r, In f fls /\ In r regs /\ r f = true.
Proof.
  rewrite existsb_exists. split.
  - intros (f & I & H). apply existsb_exists in H. destruct H as (r & J & H). eauto.
  - intros (f & r & I & J & H). exists f. split; [exact I|]. apply existsb_exists. eauto.
Qed.
(** every folder with a file asked for is found; a folder that is found has one, or has no file *)
Lemma find_lemma regs top t l : find_file_in_path regs top t = Ok l ->
  (forall rel fls f r, folder t rel fls -> In f fls -> In r regs -> r f = true -> In (top ++ rel) l) /\
  (forall p, In p l -> exists rel fls, folder t rel fls /\ p = top ++ rel /\ (fls = [] \/ exists f r, In f fls /\ In r regs /\ r f = true)).
Proof.
  intro H. destruct (find_loop_lemma _ _ _ _ _ H) as [A C]. split.
  - intros rel fls f r F I J M. apply walk_folders in F. destruct F as (dn & W). apply (A _ _ _ W); [intros ->; destruct I|]. apply existsb_match. eauto.
  - intros p I. destruct (C p I) as (rel & dn & fls & W & -> & M). exists rel, fls. split; [apply walk_folders; eauto|split; [reflexivity|]].
    destruct M as [M|M]; [now left|right]. now apply existsb_match.
Qed.
Lemma find_loop_ok regs top l : forall m, (forall x, In x l -> snd x <> [] \/ m <> None) -> exists r, find_loop regs top m l = Ok r.
Proof.
  induction l as [|[[rel dn] fls] l IH]; intros m H; cbn [find_loop]; [eauto|].
  set (m' := match fls with [] => m | _ => Some (existsb (has_match regs) fls) end). assert (M : m' <> None).
  { destruct (H _ (or_introl eq_refl)) as [N|N]; cbn in N; unfold m'; destruct fls; congruence. }
  destruct m' as [b|]; [|congruence]. destruct (IH (Some b)) as (r & ->); [right; discriminate|]. cbn [bind]. eauto.
Qed.
(** with a file in every folder, exactly the folders asked for *)
Lemma find_exact regs top t : (forall rel fls, folder t rel fls -> fls <> []) -> exists l, find_file_in_path regs top t = Ok l /\
  forall p, In p l <-> exists rel fls f r, folder t rel fls /\ p = top ++ rel /\ In f fls /\ In r regs /\ r f = true.
Proof.
  intro N. destruct (find_loop_ok regs top (walk [] t) None) as (l & E).
  { intros [[rel dn] fls] I. left. cbn. apply (N rel). apply walk_folders. eauto. }
  exists l. split; [exact E|]. destruct (find_lemma _ _ _ _ E) as [A C]. intro p. split.
  - intro I. destruct (C p I) as (rel & fls & F & P & [M|(f & r & M)]); [exfalso; now apply (N _ _ F)|]. exists rel, fls, f, r. tauto.
  - intros (rel & fls & f & r & F & -> & I & J & M). eapply A; eauto.
Qed.
(** the answer kept is the first number in the list *)
Lemma ask_choice_lemma n answers k : ask_choice n answers = Ok k -> k < n /\ In (Some (Z.of_nat k + 1)%Z) answers.
Proof.
  induction answers as [|[z|] r IH]; cbn; [discriminate| |]; [|intro H; destruct (IH H); auto].
  destruct ((1 <=? z) && (z <=? Z.of_nat n))%Z%bool eqn:E.
  - intros [= <-]. apply andb_prop in E. destruct E as [E1 E2]. apply Z.leb_le in E1, E2. split; [lia|]. left. f_equal. lia.
  - intro H. destruct (IH H); auto.
Qed.
Lemma find_ask_lemma regs top t answers l : find_and_ask regs top t answers = Ok l ->
  exists all, find_file_in_path regs top t = Ok all /\ ((length all <= 1 /\ l = all) \/ exists p, l = [p] /\ In p all).
Proof.
  unfold find_and_ask. destruct (find_file_in_path regs top t) as [all|]; [|discriminate]. cbn [bind]. intro H. exists all. split; [reflexivity|].
  destruct all as [|a [|b r]].
  - injection H as <-. left. split; [cbn; lia|reflexivity].
  - injection H as <-. left. split; [cbn; lia|reflexivity].
  - right. destruct (ask_choice _ answers) as [k|] eqn:E; [|discriminate]. cbn [bind] in H. injection H as <-. apply ask_choice_lemma in E.
    exists (nth k (a :: b :: r) []). split; [reflexivity|]. apply nth_In. tauto.
Qed.

(** ** remove_files_in_dirs *)
Lemma in_words (a : string) l : existsb (String.eqb a) l = true <-> In a l.
Proof.
  rewrite existsb_exists. split; [intros (x & I & E); apply String.eqb_eq in E; now subst|]. intro I. exists a. split; [exact I|apply String.eqb_refl].
Qed.
Lemma ask_yes_ok l b : answered l b -> ask_yes l = Ok b.
Proof.
  intros (l1 & a & l2 & -> & N & I). induction l1 as [|c l1 IH]; cbn [app ask_yes].
  - destruct b.
    + apply in_words in I. now rewrite I.
    + assert (Y : existsb (String.eqb a) yes_words = false).
      { cbn in I. repeat destruct I as [<-|I]; try reflexivity. destruct I. }
      rewrite Y. apply in_words in I. now rewrite I.
  - destruct (N c (or_introl eq_refl)) as [N1 N2]. destruct (existsb (String.eqb c) yes_words) eqn:E1; [now apply in_words in E1|].
    destruct (existsb (String.eqb c) no_words) eqn:E2; [now apply in_words in E2|]. apply IH. intros; apply N; now right.
Qed.
Lemma in_chosen dir_re file_re top t q : In q (flat_map (chosen dir_re file_re top) (walk [] t)) <-> matched dir_re file_re top t q.
Proof.
  rewrite in_flat_map. unfold matched. split.
  - intros ([[rel dn] fls] & W & I). unfold chosen in I. destruct (dir_re (top ++ rel)) eqn:D; [|destruct I]. apply in_map_iff in I. destruct I as (n & <- & I).
    apply filter_In in I. destruct I as [I F]. exists rel, n. apply walk_spec in W. destruct W as (r & ds & fs & S & E & _ & ->). cbn in E. subst r.
    split; [|auto]. apply entry_at_subdir. exists rel, n, ds, fs. auto.
  - intros (rel & n & E & -> & D & F). apply entry_at_subdir in E. destruct E as (r & m & ds & fs & E & S & I). apply app_inj_tail in E. destruct E as [<- <-].
    exists (rel, map fst ds, fs). split; [apply walk_spec; exists rel, ds, fs; auto|]. unfold chosen. rewrite D. apply in_map_iff. exists n. split; [reflexivity|]. apply filter_In. auto.
Qed.
Lemma NoDup_flat_map_sub {A C} (f g : A -> list C) l : NoDup (flat_map g l) -> (forall a, In a l -> NoDup (f a)) -> (forall a x, In x (f a) -> In x (g a)) -> NoDup (flat_map f l).
Proof.
  intros N H S. induction l as [|a l IH]; cbn in *; [constructor|]. apply NoDup_app_l in N. destruct N as (N1 & N2 & N3). apply NoDup_app'.
  - apply H. now left.
  - apply IH; [exact N2|]. intros; apply H; now right.
  - intros x I J. apply (N3 x); [now apply S|]. apply in_flat_map in J. destruct J as (b & J1 & J2). apply in_flat_map. exists b. split; [exact J1|now apply S].
Qed.
Lemma chosen_nodup dir_re file_re top t : wf_tree t -> NoDup (flat_map (chosen dir_re file_re top) (walk [] t)).
Proof.
  intro W. apply NoDup_map_inv with (f := fun p => (p, false)). rewrite flat_map_concat_map, concat_map, map_map, <- flat_map_concat_map.
  apply NoDup_flat_map_sub with (g := found anyp true true top).
  - now apply all_entries_NoDup.
  - intros [[rel dn] fls] I. unfold chosen. destruct (dir_re (top ++ rel)); [|constructor]. apply NoDup_map'; [congruence|]. apply NoDup_map'.
    + intros x y _ _ E. apply app_inv_head, app_inv_head in E. congruence.
    + apply NoDup_filter. apply walk_spec in I. destruct I as (r & ds & fs & S & _ & _ & ->). clear - S W.
      induction S as [ds fs|ds fs n t p ds' fs' I S IH]; inversion W; subst; [now apply NoDup_app_l in H1|eauto].
  - intros [[rel dn] fls] [p b] I. apply in_map_iff in I. destruct I as (q & E & I). injection E as <- <-. unfold chosen in I. destruct (dir_re (top ++ rel)); [|destruct I].
    apply in_map_iff in I. destruct I as (n & <- & I). apply filter_In in I. destruct I as [I _]. apply in_found. exists n. auto.
Qed.
(** after a yes, exactly the files asked for are removed *)
Lemma remove_yes dir_re file_re dep rd rf top t answers d : disk_ok d -> wf_tree t -> tree_on d top t -> answered answers true ->
  exists d', remove_files_in_dirs dir_re file_re dep rd rf top t answers d = (d', None) /\
    forall q b, In (q, b) d' <-> In (q, b) d /\ ~ matched dir_re file_re top t q.
Proof.
  intros D W T A. unfold remove_files_in_dirs. pose proof (in_chosen dir_re file_re top t) as M. pose proof (chosen_nodup dir_re file_re top t W) as N.
  destruct (flat_map (chosen dir_re file_re top) (walk [] t)) as [|p ps] eqn:E.
  - exists d. split; [reflexivity|]. intros q b. split; [|tauto]. intro I. split; [exact I|]. intro K. now apply M in K.
  - rewrite (ask_yes_ok _ _ A). destruct (del_files_lemma (p :: ps) d D N) as (d' & X & _ & H).
    + intros q I. apply M in I. destruct I as (rel & n & I & -> & _). now apply T.
    + exists d'. split; [exact X|]. intros q b. rewrite H, M. tauto.
Qed.
(** after a no, or without an answer, or when nothing is asked for, nothing is removed *)
Lemma remove_no dir_re file_re dep rd rf top t answers d : ~ answered answers true ->
  fst (remove_files_in_dirs dir_re file_re dep rd rf top t answers d) = d.
Proof.
  intro N. unfold remove_files_in_dirs. destruct (flat_map (chosen dir_re file_re top) (walk [] t)); [reflexivity|].
  destruct (ask_yes answers) as [[]|] eqn:E; [|reflexivity|reflexivity]. exfalso. apply N. clear N. induction answers as [|a r IH]; cbn [ask_yes] in E; [discriminate|].
  destruct (existsb (String.eqb a) yes_words) eqn:Y.
  - exists [], a, r. split; [reflexivity|split; [intros ? []|]]. now apply in_words.
  - destruct (existsb (String.eqb a) no_words) eqn:Z; [discriminate|]. destruct (IH E) as (l1 & b & l2 & -> & H & I). exists (a :: l1), b, l2. split; [reflexivity|split; [|exact I]].
    intros c [<-|J]; [|now apply H]. split; intro K; apply in_words in K; congruence.
Qed.

(** ** build_tree *)
Lemma dget_dset k v d j : dget j (dset k v d) = if String.eqb k j then Some v else dget j d.
Proof.
  induction d as [|[k' v'] r IH]; unfold dget in *; cbn [dset find fst snd].
  - destruct (String.eqb_spec k j); reflexivity.
  - destruct (String.eqb_spec k' k) as [->|N]; cbn [find fst snd].
    + destruct (String.eqb_spec k j); reflexivity.
    + destruct (String.eqb_spec k' j) as [->|N2]; [|exact IH]. destruct (String.eqb_spec k j); [congruence|reflexivity].
Qed.
(** no folder of the tree is called 'files' *)
Fixpoint tree_ok (n : nat) (d : list (string * ditem)) : Prop :=
  match n with
  | 0 => True
  | S n => match dget "files" d with Some (DSub _) => False | _ => True end /\
           forall k, k <> "files" -> match dget k d with Some (DSub e) => tree_ok n e | Some (DFiles _) => False | None => True end
  end.
Definition tidy (d : list (string * ditem)) : Prop := forall n, tree_ok n d.
Lemma tidy_nil : tidy [].
Proof. intros [|n]; cbn; auto. Qed.
Lemma tidy_files d : tidy d -> match dget "files" d with Some (DSub _) => False | _ => True end.
Proof. intro H. exact (proj1 (H 1)). Qed.
Lemma tidy_sub d k : tidy d -> k <> "files" -> match dget k d with Some (DSub e) => tidy e | Some (DFiles _) => False | None => True end.
Proof.
  intros H N. pose proof (proj2 (H 1) k N) as H1. destruct (dget k d) as [[e|l]|] eqn:E; auto. intro n. pose proof (proj2 (H (S n)) k N) as H2. now rewrite E in H2.
Qed.
Lemma tidy_set_sub d k e : tidy d -> tidy e -> k <> "files" -> tidy (dset k (DSub e) d).
Proof.
  intros H He N [|n]; cbn [tree_ok]; [exact I|]. split.
  - rewrite dget_dset. destruct (String.eqb_spec k "files"); [contradiction|]. now apply tidy_files.
  - intros j Nj. rewrite dget_dset. destruct (String.eqb_spec k j); [apply He|]. exact (proj2 (H (S n)) j Nj).
Qed.
Lemma tidy_set_files d l : tidy d -> tidy (dset "files" (DFiles l) d).
Proof.
  intros H [|n]; cbn [tree_ok]; [exact I|]. split.
  - rewrite dget_dset. cbn. exact I.
  - intros j Nj. rewrite dget_dset. destruct (String.eqb_spec "files" j); [congruence|]. exact (proj2 (H (S n)) j Nj).
Qed.
(** the part of the tree in a folder after a path is added *)
Definition is_file (isdir : bool) (q p : path) : bool := (negb isdir && path_eqb (removelast q) p)%bool.
(** [p] is a folder on the way to [q], or [q] itself when it is a folder *)
Fixpoint on_way (isdir : bool) (q p : path) : Prop :=
  match p with
  | [] => True
  | n :: r => match q with
              | [] => False
              | m :: s => n = m /\ (isdir = true \/ s <> []) /\ on_way isdir s r
              end
  end.
Lemma tree_add_lemma isdir q : forall d, tidy d -> q <> [] -> (forall n, In n q -> n <> "files") ->
  exists d', tree_add isdir q d = Ok d' /\ tidy d' /\
    (forall p, files_at d' p = files_at d p ++ (if is_file isdir q p then [last q ""] else [])) /\
    (forall p, has_folder d' p <-> has_folder d p \/ on_way isdir q p).
Proof.
  induction q as [|n r IH]; intros d T NE NF; [congruence|]. cbn [tree_add].
  assert (Nn : n <> "files") by (apply NF; now left).
  destruct ((isdir || match r with [] => false | _ => true end)%bool) eqn:B.
  - pose proof (tidy_sub d n T Nn) as TS.
    assert (K : forall e, tidy e -> (forall p, files_at e p = match dget n d with Some (DSub x) => files_at x p | _ => [] end) ->
                 (forall p, has_folder e p <-> match dget n d with Some (DSub x) => has_folder x p | _ => p = [] end) ->
                 exists d', bind (tree_add isdir r e) (fun e' => Ok (dset n (DSub e') d)) = Ok d' /\ tidy d' /\
                 (forall p, files_at d' p = files_at d p ++ (if is_file isdir (n :: r) p then [last (n :: r) ""] else [])) /\
                 (forall p, has_folder d' p <-> has_folder d p \/ on_way isdir (n :: r) p)).
    { intros e Te Fe He.
      assert (R : exists e', tree_add isdir r e = Ok e' /\ tidy e' /\ (forall p, files_at e' p = files_at e p ++ (if (negb isdir && match r with [] => false | _ => path_eqb (removelast r) p end)%bool then [last r ""] else [])) /\
                  (forall p, has_folder e' p <-> has_folder e p \/ on_way isdir r p)).
      { destruct r as [|m s].
        - cbn [tree_add]. exists e. split; [reflexivity|split; [exact Te|split]].
          + intro p. rewrite andb_false_r. now rewrite app_nil_r.
          + intro p. destruct p; cbn; tauto.
        - destruct (IH e Te) as (e' & E & T' & F & H); [discriminate|intros; apply NF; now right|]. exists e'. auto. }
      destruct R as (e' & E & T' & F & H). rewrite E. cbn [bind]. eexists. split; [reflexivity|]. split; [now apply tidy_set_sub|split].
      - intro p. destruct p as [|a p].
        + cbn [files_at]. rewrite dget_dset. destruct (String.eqb_spec n "files"); [contradiction|]. unfold is_file.
          assert (X : (negb isdir && path_eqb (removelast (n :: r)) [])%bool = false).
          { destruct isdir; [reflexivity|]. cbn in B. destruct r; [discriminate|]. cbn. destruct (path_eqb_spec (n :: match r with [] => [] | _ => s :: removelast r end) []); [discriminate|reflexivity]. }
          rewrite X. now rewrite app_nil_r.
        + cbn [files_at]. rewrite dget_dset. destruct (String.eqb_spec n a) as [<-|N].
          * rewrite F, Fe. f_equal. unfold is_file. destruct isdir; [reflexivity|]. cbn in B. destruct r as [|m s]; [discriminate|]. cbn [negb andb].
            assert (X : path_eqb (removelast (n :: m :: s)) (n :: p) = path_eqb (removelast (m :: s)) p).
            { change (removelast (n :: m :: s)) with (n :: removelast (m :: s)). destruct (path_eqb_spec (n :: removelast (m :: s)) (n :: p)), (path_eqb_spec (removelast (m :: s)) p); congruence. }
            rewrite X. reflexivity.
          * unfold is_file. assert (X : (negb isdir && path_eqb (removelast (n :: r)) (a :: p))%bool = false).
            { destruct isdir; [reflexivity|]. cbn in B. destruct r as [|m s]; [discriminate|]. cbn [negb andb]. change (removelast (n :: m :: s)) with (n :: removelast (m :: s)).
              destruct (path_eqb_spec (n :: removelast (m :: s)) (a :: p)); congruence. }
            rewrite X. now rewrite app_nil_r.
      - intro p. destruct p as [|a p]; [cbn; tauto|]. cbn [has_folder]. rewrite dget_dset. destruct (String.eqb_spec n a) as [<-|N].
        + rewrite H, He. cbn [on_way]. assert (X : isdir = true \/ r <> []) by (destruct isdir; [now left|right; cbn in B; destruct r; [discriminate|discriminate]]).
          destruct (dget n d) as [[x|l]|]; [tauto|tauto|]. split; [intros [->|O]; [right; split; [reflexivity|split; [exact X|destruct r; exact I]]|tauto]|]. intros [[]|(_ & _ & O)]; now right.
        + cbn [on_way]. split; [now left|]. intros [A|(A & _)]; [exact A|congruence]. }
    destruct (dget n d) as [[e|l]|] eqn:G.
    + apply K; [exact TS|reflexivity|tauto].
    + destruct TS.
    + apply K; [apply tidy_nil|intro p; destruct p; reflexivity|]. intro p. destruct p; cbn; split; auto; [intros []|discriminate].
  - apply orb_false_elim in B. destruct B as [-> B]. destruct r; [|discriminate]. clear B IH.
    assert (K : forall l, (dget "files" d = Some (DFiles l) \/ dget "files" d = None /\ l = []) ->
               tidy (dset "files" (DFiles (l ++ [n])) d) /\
               (forall p, files_at (dset "files" (DFiles (l ++ [n])) d) p = files_at d p ++ (if is_file false [n] p then [last [n] ""] else [])) /\
               (forall p, has_folder (dset "files" (DFiles (l ++ [n])) d) p <-> has_folder d p \/ on_way false [n] p)).
    { intros l G. split; [now apply tidy_set_files|split].
      - intro p. destruct p as [|a p]; cbn [files_at]; rewrite dget_dset.
        + cbn [String.eqb Ascii.eqb Bool.eqb]. unfold is_file. cbn. destruct G as [->|[-> ->]]; reflexivity.
        + destruct (String.eqb_spec "files" a) as [<-|N].
          * pose proof (tidy_files d T) as TF. destruct (dget "files" d) as [[x|y]|]; [contradiction|reflexivity|reflexivity].
          * unfold is_file. cbn. now rewrite app_nil_r.
      - intro p. destruct p as [|a p]; cbn [has_folder]; [cbn; tauto|]. rewrite dget_dset. cbn [on_way]. destruct (String.eqb_spec "files" a) as [<-|N].
        + pose proof (tidy_files d T) as TF. destruct (dget "files" d) as [[x|y]|]; [contradiction| |]; intuition congruence.
        + intuition congruence. }
    pose proof (tidy_files d T) as TF. destruct (dget "files" d) as [[x|l]|] eqn:G; [contradiction| |].
    + eexists. split; [reflexivity|]. apply K. now left.
    + eexists. split; [reflexivity|]. apply (K []). now right.
Qed.
Lemma tree_adds_lemma l : forall d, tidy d -> (forall o p, In (o, p) l -> p <> [] /\ ~ In "files" p) ->
  exists d', tree_adds l d = Ok d' /\
    (forall p, files_at d' p = files_at d p ++ names_in (map (fun e => (snd e, fst e)) l) p) /\
    (forall p, has_folder d' p <-> has_folder d p \/ exists o q, In (o, q) l /\ on_way (match o with Some b => b | None => false end) q p).
Proof.
  induction l as [|[o q] l IH]; intros d T H; cbn [tree_adds].
  - exists d. split; [reflexivity|split].
    + intro p. cbn. now rewrite app_nil_r.
    + intro p. split; [now left|]. intros [X|(o & q & [] & _)]; exact X.
  - destruct (H o q (or_introl eq_refl)) as [N F]. destruct (tree_add_lemma (match o with Some b => b | None => false end) q d T N) as (d1 & E1 & T1 & F1 & H1); [intros m I ->; contradiction|].
    rewrite E1. cbn [bind]. destruct (IH d1 T1) as (d' & E' & F' & H'); [intros; apply (H o0 p); now right|]. exists d'. split; [exact E'|split].
    + intro p. rewrite F', F1, <- app_assoc. f_equal. cbn [map names_in flat_map fst snd]. f_equal. unfold is_file. destruct o as [[]|]; reflexivity.
    + intro p. rewrite H', H1. split.
      * intros [[A|A]|(o' & q' & I & A)]; [now left|right; exists o, q; split; [now left|exact A]|right; exists o', q'; split; [now right|exact A]].
      * intros [A|(o' & q' & [I|I] & A)]; [auto|injection I as -> ->; auto|right; eauto].
Qed.
Lemma on_way_under isdir q : forall p, q <> [] -> (on_way isdir q p <-> exists r, q = p ++ r /\ (r <> [] \/ isdir = true)).
Proof.
  induction q as [|m s IH]; intros p N; [congruence|]. destruct p as [|n r]; cbn [on_way].
  - split; [intros _; exists (m :: s); split; [reflexivity|left; discriminate]|auto].
  - split.
    + intros (-> & A & W). destruct s as [|a s].
      * destruct A as [->|[]]; [|reflexivity]. destruct r; [exists []; auto|destruct W].
      * destruct (IH r) as [X _]; [discriminate|]. destruct (X W) as (t & E & F). exists t. cbn. split; [congruence|exact F].
    + intros (t & E & F). cbn in E. injection E as -> ->. split; [reflexivity|]. destruct (r ++ t) as [|a s] eqn:Z.
      * apply app_eq_nil in Z. destruct Z as [-> ->]. destruct F as [[]| ->]; [reflexivity|]. cbn. auto.
      * split; [right; discriminate|]. apply IH; [discriminate|]. exists t. auto.
Qed.
(** the tree lists every file in its folder, in the order of the collection, and has the folders of the paths and no other *)
Lemma tree_lemma f : length (fisdir f) = length (fpaths f) -> (forall p, In p (fpaths f) -> p <> [] /\ ~ In "files" p) ->
  exists d, build_tree f = Ok d /\
    (forall p, files_at d p = names_in (combine (fpaths f) (fisdir f)) p) /\
    (forall p, has_folder d p <-> p = [] \/ exists q o r, In (q, o) (combine (fpaths f) (fisdir f)) /\ q = p ++ r /\ (r <> [] \/ o = Some true)).
Proof.
  intros L H. unfold build_tree.
  assert (SW : forall (a : list (option bool)) (b : list path), map (fun e => (snd e, fst e)) (combine a b) = combine b a).
  { induction a as [|x a IHa]; intros [|y b]; cbn; try reflexivity. now rewrite IHa. }
  destruct (tree_adds_lemma (combine (fisdir f) (fpaths f)) [] tidy_nil) as (d & E & F & G).
  { intros o p I. apply H. eapply in_combine_r; exact I. }
  exists d. split; [exact E|split].
  - intro p. rewrite F, SW. destruct p; reflexivity.
  - intro p. rewrite G. split.
    + intros [A|(o & q & I & W)]; [destruct p; [now left|destruct A]|]. right. apply on_way_under in W; [|apply (H q); eapply in_combine_r; exact I].
      destruct W as (r & -> & R). exists (p ++ r), o, r. split; [rewrite <- SW; apply in_map_iff; exists (o, p ++ r); auto|split; [reflexivity|]].
      destruct R as [R|R]; [now left|right]. destruct o as [[]|]; congruence.
    + intros [->|(q & o & r & I & -> & R)]; [left; exact Logic.I|]. right. rewrite <- SW in I. apply in_map_iff in I. destruct I as ([o' q'] & E' & I). cbn in E'. injection E' as -> ->.
      exists o, (p ++ r). split; [exact I|]. apply on_way_under; [apply H; eapply in_combine_r; exact I|]. exists r. split; [reflexivity|]. destruct R as [R| ->]; auto.
Qed.
