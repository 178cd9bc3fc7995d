(** * RepProofs2: the text of a collection of files, with and without heading. *)
From Coq Require Import String Ascii DecimalString Permutation Lia.
From Verif Require Import Num Res ListLib FieldModel FilesModel FilesSpec FilesProofs FilesProofs2 StoreModel StoreSpec StoreProofs StoreProofs2 RepModel RepSpec RepProofs.
Import ListNotations.
#[local] Open Scope string_scope.
#[local] Open Scope list_scope.

Lemma indent_app st n s : forall m, (indent st n ++ line st m s)%string = line st (n + m) s.
Proof. induction n as [|n IH]; intro m; [reflexivity|]. cbn [indent]. rewrite sapp_assoc, IH, shift_line. reflexivity. Qed.
Lemma last_app {A} (p q : list A) x : q <> [] -> last (p ++ q) x = last q x.
Proof. intro N. induction p as [|a p IH]; [reflexivity|]. cbn [app last]. rewrite IH. destruct (p ++ q) eqn:E; [|reflexivity]. apply app_eq_nil in E. tauto. Qed.
Lemma under_files st mx nm p q : map (fun x => indent st (length p) ++ x)%string (files_lines st mx (fun r => nm (p ++ r)) q) = files_lines st mx nm (p ++ q).
Proof.
  unfold files_lines. rewrite app_length. destruct (_ <=? _)%Z; [rewrite map_map; apply map_ext; intro; apply indent_app|]. cbn [map]. now rewrite indent_app.
Qed.
Lemma under_folder st p q : q <> [] -> (indent st (length p) ++ folder_line st q)%string = folder_line st (p ++ q).
Proof.
  intro N. unfold folder_line. rewrite indent_app, last_app by exact N. rewrite app_length. replace (length p + pred (length q)) with (pred (length p + length q)); [reflexivity|]. destruct q; [congruence|cbn; lia].
Qed.
Lemma lines_ext st mx nm nm' p : nm p = nm' p -> folder_lines st mx nm p = folder_lines st mx nm' p /\ files_lines st mx nm p = files_lines st mx nm' p.
Proof. intro E. unfold folder_lines, files_lines. rewrite E. split; reflexivity. Qed.
Lemma under_lines st mx nm p gs : (forall q, In q gs -> q <> []) ->
  map (fun x => indent st (length p) ++ x)%string (files_lines st mx (fun r => nm (p ++ r)) [] ++ flat_map (folder_lines st mx (fun r => nm (p ++ r))) gs) =
  files_lines st mx nm p ++ flat_map (folder_lines st mx nm) (map (app p) gs).
Proof.
  intro N. rewrite map_app, under_files, app_nil_r. f_equal. induction gs as [|q gs IH]; [reflexivity|]. cbn [flat_map map]. rewrite map_app, IH by (intros; apply N; now right). f_equal.
  unfold folder_lines. cbn [map]. rewrite under_folder by (apply N; now left). f_equal. apply under_files.
Qed.
Lemma flat_ext st mx nm nm' fs : (forall p, nm p = nm' p) -> flat_map (folder_lines st mx nm) fs = flat_map (folder_lines st mx nm') fs.
Proof. intro E. apply flat_map_ext. intro p. now apply lines_ext. Qed.

(** what is known of the dictionaries of a collection *)
Lemma built f : plain_files f -> exists d, build_tree f = Ok d /\ neat d /\ (forall p, files_at d p = names_at f p) /\ (forall p, has_folder d p <-> folder_of f p).
Proof.
  intro PF. destruct PF as [L N]. destruct (tree_lemma f L N) as (d & E & F & H). exists d. split; [exact E|]. split; [now apply (neat_build f d)|]. split; [exact F|exact H].
Qed.
Lemma text_lemma st mx f : plain_files f -> (0 <= mx)%Z ->
  exists l fs, tree_repr st mx false f = Ok (String.concat "" l) /\ NoDup fs /\ (forall p, In p fs <-> p <> [] /\ folder_of f p) /\
    Permutation l (files_lines st mx (names_at f) [] ++ flat_map (folder_lines st mx (names_at f)) fs) /\
    forall p, In p fs -> exists a c b gs, l = a ++ folder_line st p :: c ++ b /\ NoDup gs /\
      (forall q, In q gs <-> exists r, r <> [] /\ q = p ++ r /\ folder_of f q) /\
      Permutation c (files_lines st mx (names_at f) p ++ flat_map (folder_lines st mx (names_at f)) gs).
Proof.
  intros PF M. destruct (built f PF) as (d & E & Nd & F & H). destruct (info_ok st mx M d Nd) as (l & fs & El & [Nf If] & P). exists l, fs.
  split; [unfold tree_repr; rewrite E; cbn [bind]; rewrite El; reflexivity|]. split; [exact Nf|]. split; [intro p; rewrite If, H; tauto|]. split.
  { rewrite <- (flat_ext st mx (files_at d)) by exact F. destruct (lines_ext st mx (files_at d) (names_at f) [] (F [])) as [_ <-]. exact P. }
  intros p Ip. apply If in Ip. destruct Ip as [Np Hp]. apply sub_has in Hp. destruct Hp as (e & Se).
  destruct (block st mx e p d l Nd Np Se El) as (a & b & ls & Els & ->).
  pose proof (sub_neat d e p Nd Se) as Ne. destruct (info_ok st mx M e Ne) as (ls' & gs & Els' & [Ng Ig] & Pg). rewrite Els in Els'. injection Els' as <-.
  exists a, (map (fun x => indent st (length p) ++ x)%string ls), b, (map (app p) gs). split; [reflexivity|]. split; [apply FinFun.Injective_map_NoDup; [intros x y Q; now apply app_inv_head in Q|exact Ng]|]. split.
  - intro q. rewrite in_map_iff. split.
    + intros (r & <- & Ir). apply Ig in Ir. destruct Ir as [Nr Hr]. exists r. split; [exact Nr|]. split; [reflexivity|]. apply H. now apply (sub_files d e p r Se).
    + intros (r & Nr & -> & Hr). exists r. split; [reflexivity|]. apply Ig. split; [exact Nr|]. apply H in Hr. now apply (sub_files d e p r Se) in Hr.
  - rewrite <- (under_lines st mx (names_at f) p gs) by (intros q Iq; now apply Ig in Iq). apply Permutation_map. apply (Permutation_trans Pg).
    assert (X : forall r, files_at e r = names_at f (p ++ r)) by (intro r; rewrite <- F; symmetry; now apply sub_files).
    rewrite (flat_ext st mx (files_at e) (fun r => names_at f (p ++ r))) by exact X. destruct (lines_ext st mx (files_at e) (fun r => names_at f (p ++ r)) [] (X [])) as [_ ->]. apply Permutation_refl.
Qed.

(** ** The heading *)
Lemma chain_sub d : neat d -> exists c e, top_chain (DSub d) = (c, DSub e) /\ sub_at d c = Some e /\
  (forall p, has_folder d p -> (exists r, p = c ++ r) \/ (exists r, c = p ++ r /\ files_at d p = [] \/ p = c)) /\
  (files_at e [] <> [] \/ e = [] \/ (exists l, e = [("files", DFiles l)]) \/ exists m n, m <> n /\ has_folder e [m] /\ has_folder e [n] \/ dget "files" e <> None).
Proof.
  intro H. induction H as [|l d A H _|k e d A B He IHe H IH].
  - exists [], []. cbn. split; [reflexivity|]. split; [reflexivity|]. split; [intros p _; left; exists p; reflexivity|auto].
  - exists [], (("files", DFiles l) :: d). split; [destruct d; reflexivity|]. split; [reflexivity|]. split; [intros p _; left; exists p; reflexivity|].
    right. right. right. exists "", "". right. rewrite dget_cons. cbn. discriminate.
  - destruct d as [|[k2 v2] d].
    + destruct IHe as (c & x & E & S & U & M). exists (k :: c), x. split.
      { change (top_chain (DSub [(k, DSub e)])) with (if String.eqb k "files" then ([], DSub [(k, DSub e)]) else let (c, e0) := top_chain (DSub e) in (k :: c, e0)).
        destruct (String.eqb_spec k "files"); [congruence|]. now rewrite E. }
      split; [cbn [sub_at]; rewrite dget_cons, String.eqb_refl; exact S|]. split; [|exact M].
      intros [|a p] Hp.
      * right. exists (k :: c). left. split; [reflexivity|]. cbn [files_at]. rewrite dget_cons. destruct (String.eqb_spec k "files"); [congruence|reflexivity].
      * cbn [has_folder] in Hp. rewrite dget_cons in Hp. destruct (String.eqb_spec k a) as [<-|N]; [|destruct Hp]. rewrite files_at_cons. destruct (U p Hp) as [(r & ->)|(r & [[-> Z]| ->])].
        -- left. exists r. reflexivity.
        -- right. exists r. left. split; [reflexivity|exact Z].
        -- right. exists r. now right.
    + exists [], ((k, DSub e) :: (k2, v2) :: d). split; [reflexivity|]. split; [reflexivity|]. split; [intros p _; left; exists p; reflexivity|].
      inversion H; subst.
      * right. right. right. exists "", "". right. rewrite !dget_cons. destruct (String.eqb_spec k "files"); [congruence|]. cbn. discriminate.
      * right. right. right. exists k, k2. left. split; [intros ->; apply B; now left|]. cbn [has_folder]. rewrite !dget_cons, !String.eqb_refl. destruct (String.eqb k k2); auto.
Qed.
Lemma substring_all s : forall t, String.substring 0 (String.length s) (s ++ t) = s.
Proof. induction s as [|a s IH]; intro t; cbn; [now destruct t|]. now rewrite IH. Qed.
Lemma slen_app a b : String.length (a ++ b) = String.length a + String.length b.
Proof. induction a as [|x a IH]; cbn; [reflexivity|]. now rewrite IH. Qed.
Lemma concat_join c : c <> [] -> String.concat "" (map (fun k => (k ++ "/")%string) c) = (String.concat "/" c ++ "/")%string.
Proof.
  induction c as [|a c IH]; [congruence|]. intros _. destruct c as [|b c]; [cbn; reflexivity|].
  change (String.concat "" (map (fun k => (k ++ "/")%string) (a :: b :: c))) with ((a ++ "/") ++ "" ++ String.concat "" (map (fun k => (k ++ "/")%string) (b :: c)))%string.
  rewrite IH by discriminate. change (String.concat "/" (a :: b :: c)) with (a ++ "/" ++ String.concat "/" (b :: c))%string. cbn [append]. now rewrite !sapp_assoc.
Qed.
Lemma heading_title st c : heading st c = title st (String.concat "/" c).
Proof.
  unfold heading, title. assert (E : drop_last (String.concat "" (map (fun k => (k ++ "/")%string) c)) = String.concat "/" c).
  { destruct c as [|a c]; [reflexivity|]. rewrite concat_join by discriminate. unfold drop_last. rewrite slen_app. cbn [String.length]. rewrite Nat.add_sub. apply substring_all. }
  now rewrite E.
Qed.
(** the files of a tree that has the key 'files' come from the collection *)
Lemma files_key f : forall d, plain_files f -> build_tree f = Ok d -> forall p e, sub_at d p = Some e -> dget "files" e <> None -> files_at e [] <> [].
Proof.
  intros d PF E p e S. assert (K : forall l d0 d', (forall p0 e0, sub_at d0 p0 = Some e0 -> dget "files" e0 <> Some (DFiles [])) -> neat d0 -> (forall o q, In (o, q) l -> ~ In "files" q) ->
    tree_adds l d0 = Ok d' -> forall p0 e0, sub_at d' p0 = Some e0 -> dget "files" e0 <> Some (DFiles [])).
  { clear. assert (A : forall isdir q d0 d', (forall p0 e0, sub_at d0 p0 = Some e0 -> dget "files" e0 <> Some (DFiles [])) -> ~ In "files" q ->
        tree_add isdir q d0 = Ok d' -> forall p0 e0, sub_at d' p0 = Some e0 -> dget "files" e0 <> Some (DFiles [])).
    { intros isdir q. induction q as [|n r IH]; intros d0 d' H N E; cbn [tree_add] in E; [injection E as <-; exact H|].
      assert (Nn : n <> "files") by (intros ->; apply N; now left). assert (Nr : ~ In "files" r) by (intro I; apply N; now right).
      assert (Z : forall e, (forall p0 e0, sub_at e p0 = Some e0 -> dget "files" e0 <> Some (DFiles [])) -> d' = dset n (DSub e) d0 ->
                  forall p0 e0, sub_at d' p0 = Some e0 -> dget "files" e0 <> Some (DFiles [])).
      { intros e He -> p0 e0 S. destruct p0 as [|a p0]; cbn [sub_at] in S.
        - injection S as <-. rewrite dget_dset. destruct (String.eqb_spec n "files"); [congruence|]. now apply (H [] d0).
        - rewrite dget_dset in S. destruct (String.eqb_spec n a) as [<-|M]; [now apply (He p0 e0)|]. apply (H (a :: p0) e0). exact S. }
      destruct (isdir || match r with [] => false | _ => true end)%bool.
      - destruct (dget n d0) as [[e|l]|] eqn:G.
        + destruct (tree_add isdir r e) as [e'|x] eqn:Q; [|discriminate]. cbn in E. injection E as E. apply (Z e'); [|auto]. apply (IH e e'); auto.
          intros p0 e0 S. apply (H (n :: p0) e0). cbn [sub_at]. now rewrite G.
        + destruct r; [|discriminate]. injection E as <-. exact H.
        + destruct (tree_add isdir r []) as [e'|x] eqn:Q; [|discriminate]. cbn in E. injection E as E. apply (Z e'); [|auto]. apply (IH [] e'); auto.
          intros [|? ?] e0 S; cbn in S; [injection S as <-; discriminate|discriminate].
      - assert (W : forall l, l <> [] -> d' = dset "files" (DFiles l) d0 -> forall p0 e0, sub_at d' p0 = Some e0 -> dget "files" e0 <> Some (DFiles [])).
        { intros l Nl -> p0 e0 S. destruct p0 as [|a p0]; cbn [sub_at] in S.
          - injection S as <-. rewrite dget_dset, String.eqb_refl. congruence.
          - rewrite dget_dset in S. destruct (String.eqb "files" a); [discriminate|]. apply (H (a :: p0) e0). exact S. }
        destruct (dget "files" d0) as [[e|l]|]; [discriminate| |]; injection E as E; (eapply W; [|symmetry; exact E]); [destruct l; discriminate|discriminate]. }
    induction l as [|[o q] l IH]; intros d0 d' H Nt N E; cbn [tree_adds] in E; [injection E as <-; exact H|].
    destruct (tree_add _ q d0) as [d1|x] eqn:Q; [|discriminate]. cbn in E. apply (IH d1 d'); [|eapply neat_add; [exact Nt| |exact Q]; apply (N o); now left|intros; apply (N o0); now right|exact E].
    eapply A; [exact H| |exact Q]. apply (N o). now left. }
  specialize (K (combine (fisdir f) (fpaths f)) [] d).
  assert (X : dget "files" e <> Some (DFiles [])).
  { apply (K) with (p0 := p); [|constructor| |exact E|exact S].
    - intros [|? ?] e0 S0; cbn in S0; [injection S0 as <-; discriminate|discriminate].
    - intros o q I. apply in_combine_r in I. now apply PF. }
  intro G. cbn [files_at]. destruct (dget "files" e) as [[y|l]|] eqn:Q; [|congruence|congruence].
  pose proof (neat_not_files e "files" y (sub_neat d e p (neat_build f d PF E) S) Q). congruence.
Qed.
Lemma heading_lemma st mx f : plain_files f -> (0 <= mx)%Z ->
  exists c l fs, tree_repr st mx true f = Ok (title st (String.concat "/" c) ++ String.concat "" l)%string /\ folder_of f c /\
    (forall p, folder_of f p -> (exists r, p = c ++ r) \/ exists r, c = p ++ r /\ r <> [] /\ names_at f p = []) /\
    (names_at f c <> [] \/ (forall n, ~ folder_of f (c ++ [n])) \/ exists m n, m <> n /\ folder_of f (c ++ [m]) /\ folder_of f (c ++ [n])) /\
    NoDup fs /\ (forall p, In p fs <-> p <> [] /\ folder_of f (c ++ p)) /\
    Permutation l (files_lines st mx (fun p => names_at f (c ++ p)) [] ++ flat_map (folder_lines st mx (fun p => names_at f (c ++ p))) fs).
Proof.
  intros PF M. destruct (built f PF) as (d & E & Nd & F & H). destruct (chain_sub d Nd) as (c & e & T & S & U & X).
  pose proof (sub_neat d e c Nd S) as Ne. destruct (info_ok st mx M e Ne) as (l & fs & El & [Nf If] & P). exists c, l, fs.
  assert (Y : forall r, files_at e r = names_at f (c ++ r)) by (intro r; rewrite <- F; symmetry; now apply sub_files).
  assert (Z : forall r, has_folder e r <-> folder_of f (c ++ r)) by (intro r; rewrite <- H; symmetry; now apply sub_files).
  split; [unfold tree_repr; rewrite E; cbn [bind]; rewrite T, El; cbn [bind]; now rewrite heading_title|].
  split; [apply H, sub_has; eauto|]. split.
  { intros p Hp. apply H in Hp. destruct (U p Hp) as [R|(r & [[-> Q]| ->])]; [now left| |left; exists []; now rewrite app_nil_r].
    destruct r as [|a r]; [left; exists []; now rewrite !app_nil_r|]. right. exists (a :: r). split; [reflexivity|]. split; [discriminate|]. now rewrite <- F. }
  split.
  { rewrite <- (app_nil_r c) at 1. rewrite <- Y. destruct X as [X|[->|[(l0 & ->)|(m & n & [(N & A & B)|G])]]].
    - now left.
    - right. left. intros n Hn. apply Z in Hn. exact Hn.
    - left. eapply (files_key f d PF E c); [exact S|]. rewrite dget_cons. cbn. discriminate.
    - right. right. exists m, n. split; [exact N|]. split; apply Z; assumption.
    - left. now apply (files_key f d PF E c). }
  split; [exact Nf|]. split; [intro p; rewrite If, Z; tauto|].
  rewrite <- (flat_ext st mx (files_at e)) by exact Y. destruct (lines_ext st mx (files_at e) (fun p => names_at f (c ++ p)) [] (Y [])) as [_ <-]. exact P.
Qed.
Lemma hidden_files : exists f t, files_ok f /\ NoDup (fpaths f) /\ In ["files"; "a"] (fpaths f) /\ tree_repr plain_style 10 false f = Ok t /\
  t = ("|>|files" ++ nl)%string.
Proof.
  exists {| fpaths := [["files"; "a"]]; fexist := [true]; fisdir := [Some false] |}. eexists. split; [repeat split|]. split; [repeat constructor; intros []|]. split; [now left|]. split; reflexivity.
Qed.
Definition shown_files : files := {| fpaths := [["d"; "a"]; ["d"; "s"; "b"]; ["d"; "e"]; ["d"; "c"]]; fexist := [true; true; true; false]; fisdir := [Some false; Some false; Some true; None] |}.
Lemma shown_example : plain_files shown_files /\
  tree_repr plain_style 2 false shown_files = Ok ("|>|d" ++ nl ++ "| |>|s" ++ nl ++ "| | |>|b" ++ nl ++ "| |>|e" ++ nl ++ "| |>|a" ++ nl ++ "| |>|c" ++ nl)%string /\
  tree_repr plain_style 1 true shown_files =
    Ok ("|===|" ++ nl ++ "| d |" ++ nl ++ "|===|" ++ nl ++ "|>|[2 Files]" ++ nl ++ "|>|s" ++ nl ++ "| |>|b" ++ nl ++ "|>|e" ++ nl)%string.
Proof.
  split; [split; [reflexivity|]|split; reflexivity]. intros p [<-|[<-|[<-|[<-|[]]]]]; (split; [discriminate|cbn; intuition discriminate]).
Qed.
