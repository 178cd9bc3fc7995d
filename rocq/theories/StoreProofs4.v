(** * StoreProofs4: concrete cases of saved files, searches and trees. *)
From Coq Require Import String Ascii Permutation.
From Verif Require Import Num Res ListLib FieldModel FilesModel FilesSpec FilesProofs FilesProofs2 StoreModel StoreSpec StoreProofs StoreProofs2.
#[local] Open Scope string_scope.
#[local] Open Scope list_scope.

(** an encoding of the numbers; 7 cannot be saved *)
Fixpoint count_true (b : list bool) : option nat :=
  match b with [] => None | [false] => Some 0 | true :: r => option_map S (count_true r) | false :: _ => None end.
Definition nat_codec : codec nat bool :=
  mkcodec (fun _ o => if Nat.eqb o 7 then ([true], false) else (repeat true o ++ [false], true)) (fun _ => count_true) (fun o => o).
Lemma count_whole o : count_true (repeat true o ++ [false]) = Some o.
Proof. induction o as [|o IH]; [reflexivity|]. cbn [repeat app count_true]. now rewrite IH. Qed.
Lemma count_part o : forall k x, count_true (firstn k (repeat true o ++ [false])) = Some x -> o < k /\ x = o.
Proof.
  induction o as [|o IH]; intros [|k] x; cbn [repeat app firstn count_true]; try discriminate.
  - destruct k; cbn; intros [= <-]; lia.
  - destruct (count_true (firstn k (repeat true o ++ [false]))) as [y|] eqn:E; [|discriminate]. intros [= <-]. destruct (IH _ _ E). lia.
Qed.
Lemma nat_saves z o : o <> 7 -> saves nat_codec z o.
Proof. intro N. unfold saves, nat_codec. cbn [dump load upgrade]. apply Nat.eqb_neq in N. rewrite N. cbn [fst snd]. split; [reflexivity|split; [apply count_whole|reflexivity]]. Qed.
Lemma nat_sound z o : sound nat_codec z o.
Proof.
  intros k x. unfold nat_codec. cbn [dump load]. destruct (Nat.eqb_spec o 7).
  - cbn [fst snd]. destruct k as [|[|k]]; discriminate.
  - cbn [fst snd]. intro H. destruct (count_part _ _ _ H) as [A ->]. split; [reflexivity|split; [|reflexivity]]. rewrite app_length, repeat_length. cbn. lia.
Qed.
Lemma plain_a : plain ["a"].
Proof. exists [], "a". split; [reflexivity|]. cbn. intros [H _]. discriminate H. Qed.
Definition ex_world : world bool := mkworld (put (put (fun _ => None) ["data"] NDir) ["data"; "a.cimt"] (NFile [true; true; true; false])) true.
Lemma plain_data : plain ["data"; "a"].
Proof. exists ["data"], "a". split; [reflexivity|]. cbn. intros [H _]. discriminate H. Qed.
Lemma stored_data : stored_as true ["data"; "a"] ["data"; "a.cimt"].
Proof. exact (target_stored true ["data"] "a"). Qed.
Lemma ex_store : writable_at (wdisk ex_world) ["data"; "a.cimt"] /\ saves nat_codec true 5 /\ sound nat_codec true 5 /\
  snd (export nat_codec ex_world 5 ["data"; "a"] true) = Done tt /\
  ~ writes_in (SExport 4 ["data"; "b.cimt"] true) ["data"; "a.cimt"] /\
  snd (import nat_codec (srun nat_codec (after_export nat_codec ex_world 5 ["data"; "a"] true) [SCrash 4 ["data"; "b"] true 3; SExport 7 ["data"; "a"] false]) ["data"; "a.cimt"]) = Done 5.
Proof.
  split; [split; [discriminate|right; reflexivity]|]. split; [now apply nat_saves|]. split; [apply nat_sound|]. split; [reflexivity|]. split.
  - cbn. intro H. pose proof (stored_fun _ _ _ _ H (target_stored true ["data"] "b.cimt")) as E. discriminate E.
  - reflexivity.
Qed.
(** an object saved as 'a' cannot be read as 'a' *)
Lemma same_path_not : exists (cd : codec nat bool) w o p, plain p /\ saves cd true o /\ snd (export cd w o p true) = Done tt /\
  exists n d, snd (import cd (after_export cd w o p true) p) = Missing n d.
Proof.
  exists nat_codec, (mkworld (fun _ => None) true), 5, ["a"]. split; [apply plain_a|split; [now apply nat_saves|split; [reflexivity|]]]. exists "a", []. reflexivity.
Qed.
(** an interrupted export, and an export of an object that cannot be saved, lose the object that was in the file *)
Lemma crash_loses : exists (cd : codec nat bool) w o p q k, stored_as true p q /\ plain p /\ saves cd true o /\ sound cd true o /\
  snd (import cd w q) = Done 3 /\ snd (import cd (sstep cd w (SCrash o p true k)) q) = Fails GenericErr.
Proof.
  exists nat_codec, ex_world, 5, ["data"; "a"], ["data"; "a.cimt"], 2. split; [apply stored_data|split; [apply plain_data|split; [now apply nat_saves|split; [apply nat_sound|split; reflexivity]]]].
Qed.
Lemma failure_loses : exists (cd : codec nat bool) w o p q e, stored_as true p q /\ plain p /\
  snd (import cd w q) = Done 3 /\ snd (export cd w o p true) = Fails e /\ snd (import cd (after_export cd w o p true) q) = Fails GenericErr.
Proof.
  exists nat_codec, ex_world, 7, ["data"; "a"], ["data"; "a.cimt"], GenericErr. split; [apply stored_data|split; [apply plain_data|split; [reflexivity|split; reflexivity]]].
Qed.
(** the garbage collector is switched on, and left off by a failure *)
Lemma gc_changed : (exists (cd : codec nat bool) w o p, wgc w = false /\ snd (export cd w o p true) = Done tt /\ wgc (after_export cd w o p true) = true) /\
  (exists (cd : codec nat bool) w p e, wgc w = true /\ snd (import cd w p) = Fails e /\ wgc (fst (import cd w p)) = false) /\
  (exists (cd : codec nat bool) w o p e, wgc w = true /\ snd (export cd w o p true) = Fails e /\ wgc (after_export cd w o p true) = false).
Proof.
  split; [exists nat_codec, (mkworld (wdisk ex_world) false), 5, ["data"; "a"]; repeat split|split].
  - exists nat_codec, (mkworld (put (fun _ => None) ["a.imt"] (NFile [true])) true), ["a.imt"], GenericErr. repeat split.
  - exists nat_codec, ex_world, 7, ["data"; "a"], GenericErr. repeat split.
Qed.
(** ** Searches *)
Definition ex_tree : dtree := Dir [("e", Dir [] []); ("s", Dir [] ["b.txt"])] ["a.imt"].
Definition re_imt : string -> bool := String.eqb "a.imt".
Lemma find_empty_folder : exists regs top t l p, find_file_in_path regs top t = Ok l /\ In p l /\
  exists rel, p = top ++ rel /\ folder t rel [].
Proof.
  exists [re_imt], ["d"], ex_tree, [["d"]; ["d"; "e"]], ["d"; "e"]. split; [reflexivity|split; [right; now left|]]. exists ["e"]. split; [reflexivity|].
  eapply folder_in; [now left|constructor].
Qed.
Lemma find_no_file : exists regs top t, folder t [] [] /\ find_file_in_path regs top t = Err UnboundErr.
Proof. exists [re_imt], ["d"], (Dir [("s", Dir [] ["a.imt"])] []). split; [constructor|reflexivity]. Qed.
Lemma ex_find : (forall rel fls, folder (Dir [("s", Dir [] ["b.txt"])] ["a.imt"]) rel fls -> fls <> []) /\
  find_file_in_path [re_imt] ["d"] (Dir [("s", Dir [] ["b.txt"])] ["a.imt"]) = Ok [["d"]] /\
  find_and_ask [re_imt] ["d"] ex_tree [None; Some 3%Z; Some 2%Z] = Ok [["d"; "e"]].
Proof.
  split; [|split; reflexivity]. intros rel fls H. inversion H; subst; [discriminate|].
  match goal with K : In (_, _) [_] |- _ => destruct K as [E|[]]; injection E as <- <- end.
  match goal with K : folder (Dir [] _) _ _ |- _ => inversion K; subst end; [discriminate|].
  match goal with K : In _ [] |- _ => destruct K end.
Qed.
(** ** Removals *)
Definition ex_disk : disk := [(["d"], true); (["d"; "a.imt"], false); (["d"; "s"], true); (["d"; "s"; "b.txt"], false)].
Definition ex_tree2 : dtree := Dir [("s", Dir [] ["b.txt"])] ["a.imt"].
Lemma ex_remove : disk_ok ex_disk /\ wf_tree ex_tree2 /\ tree_on ex_disk ["d"] ex_tree2 /\ answered ["hm"; "yes"] true /\ ~ answered ["hm"; "non"; "yes"] true /\
  matched (fun _ => true) (String.eqb "b.txt") ["d"] ex_tree2 ["d"; "s"; "b.txt"].
Proof.
  split; [repeat constructor; cbn; intuition congruence|]. split.
  { constructor; [repeat constructor; cbn; intuition congruence|]. intros n t [E|[]]. injection E as <- <-. constructor; [repeat constructor; cbn; intuition congruence|]. intros ? ? []. }
  split.
  { intros rel b H. inversion H; subst.
    - match goal with K : In _ _ |- _ => destruct K as [<-|[]] end. cbn. auto.
    - match goal with K : In _ _ |- _ => destruct K as [E|[]]; injection E as <- <- end. cbn. auto.
    - match goal with K : In _ _ |- _ => destruct K as [E|[]]; injection E as <- <- end.
      match goal with K : entry_at (Dir [] _) _ _ |- _ => inversion K; subst end; cbn in *; try contradiction.
      match goal with K : _ \/ False |- _ => destruct K as [<-|[]] end. auto. }
  split; [exists ["hm"], "yes", []; split; [reflexivity|split; [|cbn; tauto]]; intros b [<-|[]]; cbn; intuition discriminate|]. split.
  - intro A. apply ask_yes_ok in A. discriminate A.
  - exists ["s"], "b.txt". split; [|auto]. eapply at_sub; [now left|]. constructor. now left.
Qed.
(** files are removed although the depth is exceeded and although remove_files=False *)
Lemma remove_ignored : (forall dir_re file_re dep rd rf dep' rd' rf' top t answers d,
    remove_files_in_dirs dir_re file_re dep rd rf top t answers d = remove_files_in_dirs dir_re file_re dep' rd' rf' top t answers d) /\
  exists dir_re file_re top t d d' q, length q = length top + 2 /\ In (q, false) d /\
    remove_files_in_dirs dir_re file_re (Some 0) false false top t ["y"] d = (d', None) /\ ~ In (q, false) d'.
Proof.
  split; [reflexivity|]. exists (fun _ => true), (String.eqb "b.txt"), ["d"], ex_tree2, ex_disk, [(["d"], true); (["d"; "a.imt"], false); (["d"; "s"], true)], ["d"; "s"; "b.txt"].
  split; [reflexivity|split; [cbn; auto|split; [reflexivity|]]]. cbn. intuition discriminate.
Qed.
(** ** Trees *)
Definition ex_files : files := {| fpaths := [["d"; "a"]; ["d"; "s"; "b"]; ["d"; "e"]; ["d"; "c"]]; fexist := [true; true; true; false]; fisdir := [Some false; Some false; Some true; None] |}.
Lemma ex_build : (forall p, In p (fpaths ex_files) -> p <> [] /\ ~ In "files" p) /\ exists d, build_tree ex_files = Ok d /\ files_at d ["d"] = ["a"; "c"] /\ files_at d ["d"; "s"] = ["b"] /\ has_folder d ["d"; "e"] /\ ~ has_folder d ["d"; "c"].
Proof.
  split.
  - intros p [<-|[<-|[<-|[<-|[]]]]]; (split; [discriminate|cbn; intuition discriminate]).
  - eexists. split; [reflexivity|]. cbn. repeat split. tauto.
Qed.
(** a folder called 'files' next to a file *)
Lemma tree_files : exists f, files_ok f /\ NoDup (fpaths f) /\ (forall p, In p (fpaths f) -> p <> []) /\ build_tree f = Err AttrErr.
Proof.
  exists {| fpaths := [["d"; "files"; "a"]; ["d"; "b"]]; fexist := [true; true]; fisdir := [Some false; Some false] |}.
  split; [split; reflexivity|split; [repeat constructor; cbn; intuition congruence|split; [|reflexivity]]]. intros p [<-|[<-|[]]]; discriminate.
Qed.
