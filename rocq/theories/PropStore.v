(** * PropStore: the properties C180 to C190: paths, saved objects, searches in directories and trees of names.
    Statements only; the proofs are in StoreProofs.v to StoreProofs4.v.  The vocabulary is in StoreSpec and FilesSpec. *)
From Coq Require Import Lia List String Ascii Permutation.
From Verif Require Import Num Res ListLib SortLib SeqSpec Arr FieldModel ScalarFieldModel VectorFieldModel FilesModel FilesSpec
  TemporalModel TemporalSpec SpatialModel StoreModel StoreSpec StoreProofs StoreProofs2 StoreProofs3 StoreProofs4.
Import ListNotations.
Open Scope string_scope.
Open Scope list_scope.

(** ** C180: paths are checked before use *)
Theorem C180_existing {B} (s : store B) p :
  p <> [] ->
  (present s p -> check_path s false p = inl p) /\
  (~ present s p -> exists n d r, check_path s false p = inr (n, d) /\ p = d ++ n :: r /\ ~ present s (d ++ [n]) /\ (d = [] \/ present s d)).
Proof. exact (check_old_lemma s p). Qed.
Print Assumptions C180_existing.

Theorem C180_new {B} (s : store B) d n :
  (d = [] \/ present s d -> check_path s true (d ++ [n]) = inl (d ++ [n])) /\
  (d <> [] -> ~ present s d -> exists m e r, check_path s true (d ++ [n]) = inr (m, e) /\ d = e ++ m :: r /\ ~ present s (e ++ [m]) /\ (e = [] \/ present s e)).
Proof. exact (check_new_lemma s d n). Qed.
Print Assumptions C180_new.

Theorem C180_beyond {B} (s : store B) :
  rooted s -> forall r d, d <> [] -> ~ present s d -> ~ present s (d ++ r).
Proof. exact (rooted_missing s). Qed.
Print Assumptions C180_beyond.

Example C180_example : rooted (put (put (fun _ => @None (node bool)) ["d"] NDir) ["d"; "a"] (NFile [])) /\
  check_path (put (put (fun _ => @None (node bool)) ["d"] NDir) ["d"; "a"] (NFile [])) false ["d"; "b"; "c"] = inr ("b", ["d"]).
Proof.
  split; [|reflexivity]. intros p c N H. unfold put in *. destruct (FilesModel.path_eqb (p ++ [c]) ["d"; "a"]) eqn:E.
  - unfold FilesModel.path_eqb in E. destruct (list_eq_dec string_dec (p ++ [c]) ["d"; "a"]) as [E'|]; [|discriminate E]. change ["d"; "a"] with (["d"] ++ ["a"]) in E'. apply app_inj_tail in E'. destruct E' as [-> _]. discriminate.
  - destruct (FilesModel.path_eqb (p ++ [c]) ["d"]) eqn:E2; [|congruence]. unfold FilesModel.path_eqb in E2. destruct (list_eq_dec string_dec (p ++ [c]) ["d"]) as [E'|]; [|discriminate E2].
    change ["d"] with ([] ++ ["d"]) in E'. apply app_inj_tail in E'. destruct E' as [-> _]. congruence.
Qed.

(** ** C181: the object read in a file is the last one saved in it *)
Theorem C181_round_trip {O B} (cd : codec O B) w o p c q h :
  stored_as c p q -> plain p -> saves cd c o ->
  snd (export cd w o p c) = Done tt -> (forall x, In x h -> op_path x <> [] /\ ~ writes_in x q) ->
  snd (import cd (srun cd (after_export cd w o p c) h) q) = Done o.
Proof. exact (store_round_trip cd w o p c q h). Qed.
Print Assumptions C181_round_trip.

Theorem C181_when {O B} (cd : codec O B) w o p c q :
  stored_as c p q ->
  (snd (export cd w o p c) = Done tt <-> writable_at (wdisk w) q /\ snd (dump cd c o) = true).
Proof. exact (export_done cd w o p c q). Qed.
Print Assumptions C181_when.

Theorem C181_one_file c p q r :
  stored_as c p q -> stored_as c p r -> q = r.
Proof. exact (stored_fun c p q r). Qed.
Print Assumptions C181_one_file.

Example C181_example : writable_at (wdisk ex_world) ["data"; "a.cimt"] /\ saves nat_codec true 5 /\ sound nat_codec true 5 /\
  snd (export nat_codec ex_world 5 ["data"; "a"] true) = Done tt /\
  ~ writes_in (SExport 4 ["data"; "b.cimt"] true) ["data"; "a.cimt"] /\
  snd (import nat_codec (srun nat_codec (after_export nat_codec ex_world 5 ["data"; "a"] true) [SCrash 4 ["data"; "b"] true 3; SExport 7 ["data"; "a"] false]) ["data"; "a.cimt"]) = Done 5.
Proof. exact ex_store. Qed.

(** ** C182: an object is read back with the path it was saved with *)
Theorem C182_same_path_partial {O B} (cd : codec O B) w o p c q :
  stored_as c p q -> plain p -> saves cd c o -> snd (export cd w o p c) = Done tt ->
  (q = p -> snd (import cd (after_export cd w o p c) p) = Done o) /\
  (q <> p -> ~ present (wdisk w) p -> exists n d, snd (import cd (after_export cd w o p c) p) = Missing n d).
Proof. exact (same_path cd w o p c q). Qed.
Print Assumptions C182_same_path_partial.

Theorem C182_same_path_refuted :
  exists (cd : codec nat bool) w o p, plain p /\ saves cd true o /\ snd (export cd w o p true) = Done tt /\
  exists n d, snd (import cd (after_export cd w o p true) p) = Missing n d.
Proof. exact same_path_not. Qed.
Print Assumptions C182_same_path_refuted.

Example C182_example : plain ["data"; "a"] /\ stored_as true ["data"; "a"] ["data"; "a.cimt"] /\ stored_as true ["data"; "a.cimt"] ["data"; "a.cimt"].
Proof. split; [exact plain_data|split; [exact stored_data|exact (target_stored true ["data"] "a.cimt")]]. Qed.

(** ** C183: an export touches its file alone and never leaves a wrong object, even interrupted *)
Theorem C183_frame {O B} (cd : codec O B) w o p c q v r :
  stored_as c p q -> In v (fst (export cd w o p c)) -> r <> q -> wdisk v r = wdisk w r.
Proof. exact (export_frame cd w o p c q v r). Qed.
Print Assumptions C183_frame.

Theorem C183_interrupted {O B} (cd : codec O B) w o p c q v :
  stored_as c p q -> plain p -> sound cd c o ->
  In v (fst (export cd w o p c)) ->
  snd (import cd v q) = snd (import cd w q) \/ snd (import cd v q) = Fails GenericErr \/ (snd (import cd v q) = Done (upgrade cd o) /\ snd (dump cd c o) = true).
Proof. exact (store_interrupted cd w o p c q v). Qed.
Print Assumptions C183_interrupted.

Example C183_example : sound nat_codec true 5 /\ sound nat_codec true 7 /\ length (fst (export nat_codec ex_world 5 ["data"; "a"] true)) = 10.
Proof. split; [apply nat_sound|split; [apply nat_sound|reflexivity]]. Qed.

(** ** C184: an export that fails or is interrupted keeps what was in the file *)
Theorem C184_crash_refuted :
  exists (cd : codec nat bool) w o p q k, stored_as true p q /\ plain p /\ saves cd true o /\ sound cd true o /\
  snd (import cd w q) = Done 3 /\ snd (import cd (sstep cd w (SCrash o p true k)) q) = Fails GenericErr.
Proof. exact crash_loses. Qed.
Print Assumptions C184_crash_refuted.

Theorem C184_failure_refuted :
  exists (cd : codec nat bool) w o p q e, stored_as true p q /\ plain p /\
  snd (import cd w q) = Done 3 /\ snd (export cd w o p true) = Fails e /\ snd (import cd (after_export cd w o p true) q) = Fails GenericErr.
Proof. exact failure_loses. Qed.
Print Assumptions C184_failure_refuted.


(** ** C185: saving and loading leave the garbage collector as it was *)
Theorem C185_export_partial {O B} (cd : codec O B) w o p c q :
  stored_as c p q -> snd (export cd w o p c) = Done tt -> wgc (after_export cd w o p c) = true.
Proof. exact (export_gc cd w o p c q). Qed.
Print Assumptions C185_export_partial.

Theorem C185_import_partial {O B} (cd : codec O B) w p o :
  snd (import cd w p) = Done o -> wgc (fst (import cd w p)) = true.
Proof. exact (import_gc cd w p o). Qed.
Print Assumptions C185_import_partial.

Theorem C185_gc_refuted :
  (exists (cd : codec nat bool) w o p, wgc w = false /\ snd (export cd w o p true) = Done tt /\ wgc (after_export cd w o p true) = true) /\
  (exists (cd : codec nat bool) w p e, wgc w = true /\ snd (import cd w p) = Fails e /\ wgc (fst (import cd w p)) = false) /\
  (exists (cd : codec nat bool) w o p e, wgc w = true /\ snd (export cd w o p true) = Fails e /\ wgc (after_export cd w o p true) = false).
Proof. exact gc_changed. Qed.
Print Assumptions C185_gc_refuted.


(** ** C186: several files put in one *)
Theorem C186_content_partial {O B F S} (cd : codec O B) (pick : O -> option F) (add : S -> F -> res S) (wrap : S -> O) init listing w src dst q os s :
  src <> [] -> present (wdisk w) src -> stored_as true dst q -> plain dst -> writable_at (wdisk w) q ->
  reads cd (wdisk w) (listing src) os ->
  add_all add init (flat_map (fun o => match pick o with Some f => [f] | None => [] end) os) = Ok s ->
  saves cd true (wrap s) ->
  exists w', imts_to_imt cd pick add wrap init listing w src dst = (w', Done tt) /\ snd (import cd w' q) = Done (wrap s) /\
    forall r, r <> q -> wdisk w' r = wdisk w r.
Proof. exact (imts_lemma cd pick add wrap init listing w src dst q os s). Qed.
Print Assumptions C186_content_partial.

Theorem C186_series_refuted {F} (ops : fops F) asort l g :
  is_argsort asort -> (forall f, In f l -> o_grid ops f = g) -> l <> [] ->
  exists t, add_all (add_to_series ops asort) tf_new l = Ok t /\ Permutation (tff t) l /\ tfg t = g /\ length (tft t) = length (tff t) /\ (forall x, In x (tft t) -> x = 0%num).
Proof. exact (imts_series ops asort l g). Qed.
Print Assumptions C186_series_refuted.

Example C186_example : reads nat_codec (wdisk ex_world) [["data"; "a.cimt"]; ["data"; "notes.txt"]] [3] /\ stored_as true ["data"; "all"] ["data"; "all.cimt"].
Proof.
  split; [|exact (target_stored true ["data"] "all")]. apply reads_take; [right; reflexivity|intro g; reflexivity|]. apply reads_skip; [discriminate|discriminate|constructor].
Qed.

(** ** C187: exactly the files asked for are removed, after a confirmation *)
Theorem C187_yes dir_re file_re dep rd rf top t answers d :
  disk_ok d -> wf_tree t -> tree_on d top t -> answered answers true ->
  exists d', remove_files_in_dirs dir_re file_re dep rd rf top t answers d = (d', None) /\
    forall q b, In (q, b) d' <-> In (q, b) d /\ ~ matched dir_re file_re top t q.
Proof. exact (remove_yes dir_re file_re dep rd rf top t answers d). Qed.
Print Assumptions C187_yes.

Theorem C187_no dir_re file_re dep rd rf top t answers d :
  ~ answered answers true ->
  fst (remove_files_in_dirs dir_re file_re dep rd rf top t answers d) = d.
Proof. exact (remove_no dir_re file_re dep rd rf top t answers d). Qed.
Print Assumptions C187_no.

Example C187_example : disk_ok ex_disk /\ wf_tree ex_tree2 /\ tree_on ex_disk ["d"] ex_tree2 /\ answered ["hm"; "yes"] true /\ ~ answered ["hm"; "non"; "yes"] true /\
  matched (fun _ => true) (String.eqb "b.txt") ["d"] ex_tree2 ["d"; "s"; "b.txt"].
Proof. exact ex_remove. Qed.

(** ** C188: the depth and the kind of removal asked for are respected *)
Theorem C188_arguments_refuted :
  (forall dir_re file_re dep rd rf dep' rd' rf' top t answers d,
    remove_files_in_dirs dir_re file_re dep rd rf top t answers d = remove_files_in_dirs dir_re file_re dep' rd' rf' top t answers d) /\
  exists dir_re file_re top t d d' q, length q = length top + 2 /\ In (q, false) d /\
    remove_files_in_dirs dir_re file_re (Some 0) false false top t ["y"] d = (d', None) /\ ~ In (q, false) d'.
Proof. exact remove_ignored. Qed.
Print Assumptions C188_arguments_refuted.


(** ** C189: the folders found are those with a file asked for *)
Theorem C189_found_partial regs top t l :
  find_file_in_path regs top t = Ok l ->
  (forall rel fls f r, folder t rel fls -> In f fls -> In r regs -> r f = true -> In (top ++ rel) l) /\
  (forall p, In p l -> exists rel fls, folder t rel fls /\ p = top ++ rel /\ (fls = [] \/ exists f r, In f fls /\ In r regs /\ r f = true)).
Proof. exact (find_lemma regs top t l). Qed.
Print Assumptions C189_found_partial.

Theorem C189_exact_partial regs top t :
  (forall rel fls, folder t rel fls -> fls <> []) -> exists l, find_file_in_path regs top t = Ok l /\
  forall p, In p l <-> exists rel fls f r, folder t rel fls /\ p = top ++ rel /\ In f fls /\ In r regs /\ r f = true.
Proof. exact (find_exact regs top t). Qed.
Print Assumptions C189_exact_partial.

Theorem C189_choice_partial regs top t answers l :
  find_and_ask regs top t answers = Ok l ->
  exists all, find_file_in_path regs top t = Ok all /\ ((length all <= 1 /\ l = all) \/ exists p, l = [p] /\ In p all).
Proof. exact (find_ask_lemma regs top t answers l). Qed.
Print Assumptions C189_choice_partial.

Theorem C189_empty_refuted :
  exists regs top t l p, find_file_in_path regs top t = Ok l /\ In p l /\
  exists rel, p = top ++ rel /\ folder t rel [].
Proof. exact find_empty_folder. Qed.
Print Assumptions C189_empty_refuted.

Theorem C189_unbound_refuted :
  exists regs top t, folder t [] [] /\ find_file_in_path regs top t = Err UnboundErr.
Proof. exact find_no_file. Qed.
Print Assumptions C189_unbound_refuted.

Example C189_example : (forall rel fls, folder (Dir [("s", Dir [] ["b.txt"])] ["a.imt"]) rel fls -> fls <> []) /\
  find_file_in_path [re_imt] ["d"] (Dir [("s", Dir [] ["b.txt"])] ["a.imt"]) = Ok [["d"]] /\
  find_and_ask [re_imt] ["d"] ex_tree [None; Some 3%Z; Some 2%Z] = Ok [["d"; "e"]].
Proof. exact ex_find. Qed.

(** ** C190: the tree of names holds the files of the collection in their folders *)
Theorem C190_tree_partial f :
  length (fisdir f) = length (fpaths f) -> (forall p, In p (fpaths f) -> p <> [] /\ ~ In "files" p) ->
  exists d, build_tree f = Ok d /\
    (forall p, files_at d p = names_in (combine (fpaths f) (fisdir f)) p) /\
    (forall p, has_folder d p <-> p = [] \/ exists q o r, In (q, o) (combine (fpaths f) (fisdir f)) /\ q = p ++ r /\ (r <> [] \/ o = Some true)).
Proof. exact (tree_lemma f). Qed.
Print Assumptions C190_tree_partial.

Theorem C190_files_refuted :
  exists f, files_ok f /\ NoDup (fpaths f) /\ (forall p, In p (fpaths f) -> p <> []) /\ build_tree f = Err AttrErr.
Proof. exact tree_files. Qed.
Print Assumptions C190_files_refuted.

Example C190_example : (forall p, In p (fpaths ex_files) -> p <> [] /\ ~ In "files" p) /\ exists d, build_tree ex_files = Ok d /\ files_at d ["d"] = ["a"; "c"] /\ files_at d ["d"; "s"] = ["b"] /\ has_folder d ["d"; "e"] /\ ~ has_folder d ["d"; "c"].
Proof. exact ex_build. Qed.
