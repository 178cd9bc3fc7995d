(** * RepProofs: the text of a collection of files. *)
From Coq Require Import String Ascii DecimalString Permutation Lia.
From Verif Require Import Num Res ListLib FieldModel FilesModel FilesSpec FilesProofs FilesProofs2 StoreModel StoreSpec StoreProofs StoreProofs2 RepModel RepSpec.
Import ListNotations.
#[local] Open Scope string_scope.
#[local] Open Scope list_scope.

(** ** Dictionaries that build_tree makes *)
Inductive neat : list (string * ditem) -> Prop :=
| neat_nil : neat []
| neat_files l d : ~ In "files" (map fst d) -> neat d -> neat (("files", DFiles l) :: d)
| neat_sub k e d : k <> "files" -> ~ In k (map fst d) -> neat e -> neat d -> neat ((k, DSub e) :: d).
Lemma dset_keys k v d : forall a, In a (map fst (dset k v d)) <-> In a (map fst d) \/ a = k.
Proof.
  induction d as [|[k' v'] d IH]; intro a; cbn [dset map fst In]; [intuition|].
  destruct (String.eqb_spec k' k) as [->|N]; cbn [map fst In]; [intuition congruence|]. rewrite IH. tauto.
Qed.
Lemma neat_set_sub k e d : k <> "files" -> neat e -> neat d -> neat (dset k (DSub e) d).
Proof.
  intros N He H. induction H as [|l d A H IH|k' e' d A B H' _ H IH]; cbn [dset].
  - constructor; auto; constructor.
  - destruct (String.eqb_spec "files" k) as [<-|M]; [congruence|]. constructor; [|exact IH]. rewrite dset_keys. intuition.
  - destruct (String.eqb_spec k' k) as [->|M]; [now constructor|]. constructor; auto. rewrite dset_keys. intuition.
Qed.
Lemma neat_set_files l d : neat d -> neat (dset "files" (DFiles l) d).
Proof.
  intro H. induction H as [|l' d A H IH|k' e' d A B H' _ H IH]; cbn [dset].
  - constructor; [intros []|constructor].
  - rewrite String.eqb_refl. now constructor.
  - destruct (String.eqb_spec k' "files") as [->|M]; [congruence|]. constructor; auto. rewrite dset_keys. intuition.
Qed.
Lemma dget_cons k v d a : dget a ((k, v) :: d) = if String.eqb k a then Some v else dget a d.
Proof. unfold dget. cbn [find fst]. destruct (String.eqb k a); reflexivity. Qed.
Lemma neat_get k e d : neat d -> dget k d = Some (DSub e) -> neat e.
Proof.
  intro H. induction H as [|l' d A H IH|k' e' d A B H' _ H IH]; [discriminate| |]; rewrite dget_cons.
  - destruct (String.eqb "files" k); [discriminate|auto].
  - destruct (String.eqb k' k); [intro E; injection E as <-; exact H'|auto].
Qed.
Lemma dget_none d a : dget a d = None <-> ~ In a (map fst d).
Proof.
  induction d as [|[k v] d IH]; [cbn; tauto|]. rewrite dget_cons. cbn [map fst In]. destruct (String.eqb_spec k a) as [->|N]; [split; [discriminate|tauto]|]. rewrite IH. tauto.
Qed.
Lemma neat_add isdir q : forall d d', neat d -> ~ In "files" q -> tree_add isdir q d = Ok d' -> neat d'.
Proof.
  induction q as [|n r IH]; intros d d' H N E; cbn [tree_add] in E; [injection E as <-; exact H|].
  assert (Nn : n <> "files") by (intros ->; apply N; now left). assert (Nr : ~ In "files" r) by (intro I; apply N; now right).
  destruct (isdir || match r with [] => false | _ => true end)%bool.
  - destruct (dget n d) as [[e|l]|] eqn:G.
    + destruct (tree_add isdir r e) as [e'|x] eqn:Q; [|discriminate]. cbn in E. injection E as <-. apply neat_set_sub; auto. apply (IH e); auto. now apply (neat_get n e d).
    + destruct r; [|discriminate]. injection E as <-. exact H.
    + destruct (tree_add isdir r []) as [e'|x] eqn:Q; [|discriminate]. cbn in E. injection E as <-. apply neat_set_sub; auto. apply (IH []); auto. constructor.
  - destruct (dget "files" d) as [[e|l]|]; [discriminate| |]; injection E as <-; now apply neat_set_files.
Qed.
Lemma neat_adds l : forall d d', neat d -> (forall o p, In (o, p) l -> ~ In "files" p) -> tree_adds l d = Ok d' -> neat d'.
Proof.
  induction l as [|[o q] l IH]; intros d d' H N E; cbn [tree_adds] in E; [injection E as <-; exact H|].
  destruct (tree_add _ q d) as [d1|x] eqn:Q; [|discriminate]. cbn in E. apply (IH d1 d'); [|intros; apply (N o0); now right|exact E].
  eapply neat_add; [exact H| |exact Q]. apply (N o). now left.
Qed.
Lemma neat_build f d : plain_files f -> build_tree f = Ok d -> neat d.
Proof.
  intros [L N] E. apply (neat_adds _ [] d neat_nil) in E; [exact E|]. intros o p I. apply in_combine_r in I. now apply N.
Qed.

Lemma flat_map_ext_in {A B} (g h : A -> list B) l : (forall x, In x l -> g x = h x) -> flat_map g l = flat_map h l.
Proof. induction l as [|a l IH]; intro H; [reflexivity|]. cbn. rewrite (H a) by now left. rewrite IH; [reflexivity|]. intros; apply H; now right. Qed.
Lemma nodup_app {A} (a b : list A) : NoDup a -> NoDup b -> (forall x, In x a -> In x b -> False) -> NoDup (a ++ b).
Proof.
  intros Ha Hb D. induction Ha as [|x a N Ha IH]; [exact Hb|]. cbn. constructor; [|apply IH; intros y I; apply D; now right].
  rewrite in_app_iff. intros [I|I]; [contradiction|]. apply (D x); [now left|exact I].
Qed.
(** ** The lines of a dictionary *)
Section Lines.
Context (st : style) (mx : Z) (MX : (0 <= mx)%Z).
Fixpoint sub_lines (l : list (string * ditem)) : res (list string) :=
  match l with
  | [] => Ok []
  | (k, v) :: r =>
    if String.eqb k "files" then sub_lines r
    else let* ls := info_item st mx v in
         let* rest := sub_lines r in
         Ok ((st_tab1 st ++ st_fold st ++ k ++ nl)%string :: map (fun x => st_tab2 st ++ x)%string ls ++ rest)
  end.
Lemma info_sub d : info_item st mx (DSub d) = let* s := sub_lines d in Ok (count_lines st mx d ++ s ++ file_lines st mx d).
Proof.
  cbn [info_item]. match goal with |- bind (?go d) _ = _ => assert (H : forall l, go l = sub_lines l) end; [|now rewrite H].
  induction l as [|[k v] l IH]; [reflexivity|]. cbn [sub_lines]. destruct (String.eqb k "files"); [exact IH|]. destruct (info_item st mx v); [|reflexivity]. cbn [bind]. now rewrite IH.
Qed.
Lemma sapp_assoc a b c : ((a ++ b) ++ c = a ++ b ++ c)%string.
Proof. induction a as [|x a IH]; cbn; [reflexivity|]. now rewrite IH. Qed.
Lemma own_lines d : neat d -> Permutation (count_lines st mx d ++ file_lines st mx d) (files_lines st mx (files_at d) []).
Proof.
  intro H. assert (Q : forall it, dget "files" d = Some it -> exists l, it = DFiles l).
  { clear MX. induction H as [|l' d A H IH|k' e' d A B H' _ H IH]; intros it; [discriminate| |]; rewrite dget_cons.
    - rewrite String.eqb_refl. intro E. injection E as <-. eauto.
    - destruct (String.eqb_spec k' "files"); [congruence|]. apply IH. }
  unfold count_lines, file_lines, files_lines. cbn [files_at]. destruct (dget "files" d) as [it|].
  - destruct (Q it eq_refl) as (l & ->). cbn [names_of]. rewrite Z.gtb_ltb. destruct (Z.leb_spec (Z.of_nat (length l)) mx).
    + destruct (Z.ltb_spec mx (Z.of_nat (length l))); [lia|]. cbn [app length]. erewrite map_ext; [apply Permutation_refl|]. intro n. unfold line. cbn [indent append]. now rewrite sapp_assoc.
    + destruct (Z.ltb_spec mx (Z.of_nat (length l))); [|lia]. cbn [app length]. unfold line. cbn [indent append]. rewrite !sapp_assoc. cbn [append]. rewrite !sapp_assoc. cbn [append]. apply Permutation_refl.
  - cbn [length app map]. destruct (Z.leb_spec (Z.of_nat 0) mx); [apply Permutation_refl|lia].
Qed.
Lemma shift_line n s : (st_tab2 st ++ line st n s)%string = line st (Datatypes.S n) s.
Proof. unfold line. cbn [indent]. now rewrite sapp_assoc. Qed.
Lemma shift_files nm nm' p k : nm' (k :: p) = nm p -> map (fun x => st_tab2 st ++ x)%string (files_lines st mx nm p) = files_lines st mx nm' (k :: p).
Proof.
  intro E. unfold files_lines. rewrite E. cbn [length]. destruct (_ <=? _)%Z; [rewrite map_map; apply map_ext; intro; apply shift_line|]. cbn [map]. now rewrite shift_line.
Qed.
Lemma shift_folder p k : p <> [] -> (st_tab2 st ++ folder_line st p)%string = folder_line st (k :: p).
Proof. intro N. unfold folder_line. rewrite shift_line. destruct p as [|a p]; [congruence|]. reflexivity. Qed.
(** the folders of a dictionary, without itself *)
Definition inner (d : list (string * ditem)) (fs : list path) : Prop := NoDup fs /\ forall p, In p fs <-> p <> [] /\ has_folder d p.
Lemma files_at_cons k e d p : files_at ((k, DSub e) :: d) (k :: p) = files_at e p.
Proof. cbn [files_at]. now rewrite dget_cons, String.eqb_refl. Qed.
Lemma sub_lines_ok d : neat d -> exists s fs, sub_lines d = Ok s /\ inner d fs /\ Permutation s (flat_map (folder_lines st mx (files_at d)) fs).
Proof.
  intro H. induction H as [|l d A H IH|k e d A B He IHe H IH].
  - exists [], []. cbn. split; [reflexivity|]. split; [|constructor]. split; [constructor|]. intro p. destruct p; cbn; intuition.
  - destruct IH as (s & fs & E & [N I] & P). exists s, fs. split; [cbn [sub_lines]; now rewrite String.eqb_refl|].
    assert (K : forall a p, has_folder (("files", DFiles l) :: d) (a :: p) <-> has_folder d (a :: p)).
    { intros a p. cbn [has_folder]. rewrite dget_cons. destruct (String.eqb_spec "files" a) as [<-|M]; [|tauto]. apply dget_none in A. rewrite A. tauto. }
    split; [split; [exact N|]|].
    + intro p. rewrite I. destruct p as [|a p]; [tauto|]. rewrite K. tauto.
    + erewrite flat_map_ext_in; [exact P|]. intros p Hp. apply I in Hp. destruct Hp as [Np Hp]. unfold folder_lines, files_lines. destruct p as [|a p]; [congruence|].
      replace (files_at (("files", DFiles l) :: d) (a :: p)) with (files_at d (a :: p)); [reflexivity|].
      cbn [files_at]. rewrite dget_cons. destruct (String.eqb_spec "files" a) as [<-|M]; [|reflexivity]. apply dget_none in A. now rewrite A.
  - destruct IH as (s & fs & E & [N I] & P). destruct IHe as (se & fe & Ee & [Ne Ie] & Pe).
    exists ((st_tab1 st ++ st_fold st ++ k ++ nl)%string :: map (fun x => st_tab2 st ++ x)%string (count_lines st mx e ++ se ++ file_lines st mx e) ++ s), (map (cons k) ([] :: fe) ++ fs).
    split; [|split].
    + cbn [sub_lines]. destruct (String.eqb_spec k "files"); [congruence|]. rewrite info_sub, Ee. cbn [bind]. rewrite E. reflexivity.
    + assert (K : forall a p, a <> k -> has_folder ((k, DSub e) :: d) (a :: p) <-> has_folder d (a :: p)).
      { intros a p M. cbn [has_folder]. rewrite dget_cons. destruct (String.eqb_spec k a); [congruence|tauto]. }
      assert (K2 : forall p, has_folder ((k, DSub e) :: d) (k :: p) <-> has_folder e p).
      { intro p. cbn [has_folder]. rewrite dget_cons, String.eqb_refl. tauto. }
      assert (K3 : forall p, ~ has_folder d (k :: p)). { intro p. cbn [has_folder]. apply dget_none in B. rewrite B. tauto. }
      split.
      * apply nodup_app.
        -- apply FinFun.Injective_map_NoDup; [intros x y Q; now injection Q|]. constructor; [|exact Ne]. intro Q. apply Ie in Q. now destruct Q.
        -- exact N.
        -- intros p Hp Hq. apply in_map_iff in Hp. destruct Hp as (r & <- & _). apply I in Hq. destruct Hq as [_ Hq]. now apply K3 in Hq.
      * intro p. rewrite in_app_iff, in_map_iff. split.
        -- intros [(r & <- & Hr)|Hp].
           ++ split; [discriminate|]. apply K2. destruct Hr as [<-|Hr]; [exact Logic.I|]. now apply Ie in Hr.
           ++ apply I in Hp. destruct Hp as [Np Hp]. split; [exact Np|]. destruct p as [|a p]; [congruence|]. apply K; [|exact Hp]. intros ->. now apply K3 in Hp.
        -- intros [Np Hp]. destruct p as [|a p]; [congruence|]. destruct (string_dec a k) as [->|M].
           ++ left. exists p. split; [reflexivity|]. apply K2 in Hp. destruct p as [|b p]; [now left|]. right. apply Ie. split; [discriminate|exact Hp].
           ++ right. apply I. split; [discriminate|]. now apply K in Hp.
    + rewrite flat_map_app. change (?a :: ?b ++ ?c) with ((a :: b) ++ c). apply Permutation_app.
      * cbn [map flat_map folder_lines app].
        replace (st_tab1 st ++ st_fold st ++ k ++ nl)%string with (folder_line st [k]) by (unfold folder_line, line; cbn [length pred indent append last]; now rewrite sapp_assoc).
        apply perm_skip. rewrite !map_app.
        apply (Permutation_trans (l' := (map (fun x => st_tab2 st ++ x)%string (count_lines st mx e ++ file_lines st mx e)) ++ map (fun x => st_tab2 st ++ x)%string se)).
        { rewrite map_app, <- app_assoc. apply Permutation_app_head, Permutation_app_comm. }
        apply Permutation_app.
        -- rewrite <- (shift_files (files_at e)) by apply files_at_cons. apply Permutation_map. now apply own_lines.
        -- apply (Permutation_map (fun x => st_tab2 st ++ x)%string) in Pe. apply (Permutation_trans Pe). clear Pe Ee.
           assert (Fn : forall p, In p fe -> p <> []) by (intros p Hp; now apply Ie in Hp). clear Ie Ne.
           induction fe as [|p fe IH2]; [constructor|]. cbn [flat_map map]. rewrite map_app. apply Permutation_app; [|apply IH2; intros; apply Fn; now right].
           unfold folder_lines. cbn [map]. rewrite (shift_folder p k) by (apply Fn; now left). rewrite (shift_files _ (files_at ((k, DSub e) :: d)) p k) by apply files_at_cons. apply Permutation_refl.
      * erewrite flat_map_ext_in; [exact P|]. intros p Hp. apply I in Hp. destruct Hp as [Np Hp]. unfold folder_lines, files_lines. destruct p as [|a p]; [congruence|].
        replace (files_at ((k, DSub e) :: d) (a :: p)) with (files_at d (a :: p)); [reflexivity|].
        cbn [files_at]. rewrite dget_cons. destruct (String.eqb_spec k a) as [<-|M]; [|reflexivity]. exfalso. cbn [has_folder] in Hp. apply dget_none in B. now rewrite B in Hp.
Qed.
Lemma info_ok d : neat d -> exists l fs, info_item st mx (DSub d) = Ok l /\ inner d fs /\
  Permutation l (files_lines st mx (files_at d) [] ++ flat_map (folder_lines st mx (files_at d)) fs).
Proof.
  intro H. destruct (sub_lines_ok d H) as (s & fs & E & I & P). exists (count_lines st mx d ++ s ++ file_lines st mx d), fs. split; [rewrite info_sub, E; reflexivity|]. split; [exact I|].
  apply (Permutation_trans (l' := (count_lines st mx d ++ file_lines st mx d) ++ s)); [rewrite <- app_assoc; apply Permutation_app_head, Permutation_app_comm|].
  apply Permutation_app; [now apply own_lines|exact P].
Qed.
End Lines.

(** the dictionary of a folder *)
Fixpoint sub_at (d : list (string * ditem)) (p : path) : option (list (string * ditem)) :=
  match p with [] => Some d | n :: r => match dget n d with Some (DSub e) => sub_at e r | _ => None end end.
Lemma sub_has d : forall p, has_folder d p <-> exists e, sub_at d p = Some e.
Proof.
  intro p. revert d. induction p as [|n r IH]; intro d; cbn [has_folder sub_at]; [split; eauto|]. destruct (dget n d) as [[e|l]|]; [apply IH| |]; (split; [intros []|intros (? & [=])]).
Qed.
Lemma sub_neat d e : forall p, neat d -> sub_at d p = Some e -> neat e.
Proof.
  intro p. revert d. induction p as [|n r IH]; intros d H E; cbn [sub_at] in E; [injection E as <-; exact H|]. destruct (dget n d) as [[x|l]|] eqn:G; try discriminate. apply (IH x); auto. now apply (neat_get n x d).
Qed.
Lemma sub_files d e : forall p q, sub_at d p = Some e -> files_at d (p ++ q) = files_at e q /\ (has_folder d (p ++ q) <-> has_folder e q).
Proof.
  intro p. revert d. induction p as [|n r IH]; intros d q E; cbn [sub_at] in E; [injection E as <-; cbn; tauto|]. cbn [app files_at has_folder]. destruct (dget n d) as [[x|l]|]; try discriminate. now apply IH.
Qed.
Lemma sub_lines_in st mx k e : forall d s, neat d -> sub_lines st mx d = Ok s -> dget k d = Some (DSub e) -> k <> "files" ->
  exists a b ls, info_item st mx (DSub e) = Ok ls /\ s = a ++ (st_tab1 st ++ st_fold st ++ k ++ nl)%string :: map (fun x => st_tab2 st ++ x)%string ls ++ b.
Proof.
  intros d s H. revert s. induction H as [|l d A H IH|k' e' d A B He _ H IH]; intros s E G N; [discriminate| |]; rewrite dget_cons in G; cbn [sub_lines] in E.
  - rewrite String.eqb_refl in E. destruct (String.eqb_spec "files" k); [congruence|]. now apply IH.
  - destruct (String.eqb_spec k' "files"); [congruence|]. destruct (info_item st mx (DSub e')) as [ls|x] eqn:Q; [|discriminate]. cbn [bind] in E.
    destruct (sub_lines st mx d) as [r|x] eqn:R; [|discriminate]. cbn [bind] in E. injection E as <-. destruct (String.eqb_spec k' k) as [->|M].
    + injection G as ->. exists [], r, ls. split; [exact Q|reflexivity].
    + destruct (IH r eq_refl G N) as (a & b & ls' & Q' & ->). eexists (_ :: _ ++ a), b, ls'. split; [exact Q'|]. cbn [app]. now rewrite <- app_assoc.
Qed.
Lemma neat_not_files d k e : neat d -> dget k d = Some (DSub e) -> k <> "files".
Proof.
  intros H E ->. induction H as [|l d A H IH|k' e' d A B H' _ H IH]; [discriminate| |]; rewrite dget_cons in E.
  - rewrite String.eqb_refl in E. discriminate.
  - destruct (String.eqb_spec k' "files"); [congruence|auto].
Qed.
(** the lines of what is in a folder come right after the line of the folder *)
Lemma block st mx e : forall p d l, neat d -> p <> [] -> sub_at d p = Some e -> info_item st mx (DSub d) = Ok l ->
  exists a b ls, info_item st mx (DSub e) = Ok ls /\ l = a ++ folder_line st p :: map (fun x => indent st (length p) ++ x)%string ls ++ b.
Proof.
  intro p. induction p as [|k r IH]; intros d l H N S E; [congruence|]. clear N. cbn [sub_at] in S. destruct (dget k d) as [[x|y]|] eqn:G; try discriminate.
  pose proof (neat_not_files d k x H G) as Nk. rewrite info_sub in E. destruct (sub_lines st mx d) as [s|z] eqn:Q; [|discriminate]. cbn [bind] in E. injection E as <-.
  destruct (sub_lines_in st mx k x d s H Q G Nk) as (a & b & ls & Q' & ->).
  destruct r as [|k2 r].
  - cbn [sub_at] in S. injection S as <-. exists (count_lines st mx d ++ a), (b ++ file_lines st mx d), ls. split; [exact Q'|]. rewrite <- !app_assoc. cbn [app]. rewrite <- !app_assoc. do 2 f_equal.
    f_equal; [unfold folder_line, line; cbn [length pred indent append last]; now rewrite sapp_assoc|]. f_equal. apply map_ext. intro w. cbn [length indent]. now rewrite sapp_assoc.
  - destruct (IH x ls (neat_get k x d H G)) as (a' & b' & ls' & E' & ->); [discriminate|exact S|exact Q'|].
    eexists (count_lines st mx d ++ a ++ (st_tab1 st ++ st_fold st ++ k ++ nl)%string :: map (fun x => st_tab2 st ++ x)%string a'), (map (fun x => st_tab2 st ++ x)%string b' ++ b ++ file_lines st mx d), ls'.
    split; [exact E'|]. rewrite map_app. cbn [map]. rewrite map_app, map_map.
    rewrite <- !app_assoc. f_equal. f_equal. cbn [app]. f_equal. rewrite <- !app_assoc. f_equal. cbn [app]. f_equal; [now apply shift_folder|]. rewrite <- !app_assoc. f_equal.
    apply map_ext. intro w. cbn [length indent]. now rewrite !sapp_assoc.
Qed.
