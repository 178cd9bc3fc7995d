(** * PropUtils: the properties of file collections, memoization, type checks and progress counters (C55 to C58, C86 to C88).
    Statements, examples and counterexamples; the proofs are in FilesProofs*.v and UtilsProofs*.v.  The vocabulary is in
    FilesSpec and UtilsSpec. *)
From Coq Require Import String.
From Verif Require Import Num Res ListLib SeqSpec PointsModel PointsSpec TemporalSpec FilesModel FilesSpec FilesProofs FilesProofs2
  UtilsModel UtilsSpec UtilsProofs UtilsProofs2 UtilsProofs3.
#[local] Open Scope string_scope.
#[local] Open Scope list_scope.

(** ** C55: collections of files *)
Theorem C55_aligned h :
  (forall g, In (FConcat g) h -> files_ok g) ->
  files_ok (fold_left fstep h f_new) /\
  forall e, In e (entries (fold_left fstep h f_new)) ->
    (exists w p, In (FAdd w p) h /\ e = seen w p) \/ (exists g, In (FConcat g) h /\ In e (entries g)).
Proof. exact (files_history h). Qed.
Print Assumptions C55_aligned.

Theorem C55_add w f p :
  files_ok f ->
  (look w p <> None \/ writable w p = true ->
    exists f', f_add w f p = (f', None) /\ files_ok f' /\ entries f' = entries f ++ [seen w p]) /\
  (look w p = None -> writable w p = false -> f_add w f p = (f, Some GenericErr)).
Proof. exact (f_add_ok w f p). Qed.
Print Assumptions C55_add.

Theorem C55_concat f g :
  files_ok f -> files_ok g ->
  files_ok (f_concat f g) /\ entries (f_concat f g) = entries f ++ entries g.
Proof. exact (f_concat_ok f g). Qed.
Print Assumptions C55_concat.

Theorem C55_remove_one f i :
  files_ok f -> index_ok (length (entries f)) i ->
  exists f', f_remove f (FInt i) = (f', None) /\ files_ok f' /\
    keeps (fun k => ~ designates (length (entries f)) i k) (entries f) (entries f').
Proof. exact (files_remove_one f i). Qed.
Print Assumptions C55_remove_one.

Theorem C55_remove_bad_index f i :
  files_ok f -> ~ index_ok (length (entries f)) i -> f_remove f (FInt i) = (f, Some IndexErr).
Proof. exact (files_remove_out f i). Qed.
Print Assumptions C55_remove_bad_index.

Theorem C55_remove_list_partial inds :
  forall f, files_ok f -> strictly_decreasing inds ->
  (forall i, In i inds -> (0 <= i < Z.of_nat (length (entries f)))%Z) ->
  exists f', f_remove f (FList (map FInt inds)) = (f', None) /\ files_ok f' /\
    keeps (fun k => ~ In (Z.of_nat k) inds) (entries f) (entries f').
Proof. exact (files_remove_list inds). Qed.
Print Assumptions C55_remove_list_partial.

Definition ex_files : files :=
  {| fpaths := [["a"]; ["b"]; ["c"]; ["d"]]; fexist := [true; true; false; true]; fisdir := [Some true; Some false; None; Some false] |}.
(** with increasing indices another file is removed *)
Theorem C55_remove_list_refuted : exists f f', files_ok f /\ f_remove f (FList [FInt 0; FInt 1]%Z) = (f', None) /\
  fpaths f = [["a"]; ["b"]; ["c"]; ["d"]] /\ fpaths f' = [["b"]; ["d"]].
Proof. exists ex_files. eexists. repeat split. Qed.
Print Assumptions C55_remove_list_refuted.
(** a regular expression removes nothing: it raises as soon as one path matches *)
Theorem C55_regex_refuted f r :
  f_remove f (FRegex r) = (f, if existsb r (fpaths f) then Some TypeErr else None).
Proof. exact (files_remove_regex f r). Qed.
Print Assumptions C55_regex_refuted.

(** an index taken from a numpy array is refused *)
Theorem C55_numpy_refuted f i : f_remove f (FNpInt i) = (f, Some TypeErr).
Proof. reflexivity. Qed.
Print Assumptions C55_numpy_refuted.
Example C55_example : files_ok ex_files /\ index_ok (length (entries ex_files)) (-3) /\
  (exists f, f_remove ex_files (FInt (-3)) = (f, None) /\ entries f = [(["a"], true, Some true); (["c"], false, None); (["d"], true, Some false)]) /\
  (exists f, f_remove ex_files (FList [FInt 3; FInt 1]%Z) = (f, None) /\ fpaths f = [["a"]; ["c"]]) /\
  strictly_decreasing [3; 1]%Z /\ fst (f_add {| look := fun _ => Some false; writable := fun _ => true |} ex_files ["x"; "y"]) <> ex_files.
Proof.
  split; [split; reflexivity|]. split; [unfold index_ok; cbn; lia|]. split; [eexists; split; reflexivity|]. split; [eexists; split; reflexivity|].
  split; [|discriminate]. intros i j a b Hij Ha Hb. destruct i as [|[|[|i]]]; try discriminate Ha; destruct j as [|[|[|j]]]; try discriminate Hb; try lia.
  injection Ha as <-. injection Hb as <-. lia.
Qed.

(** ** C86: loading a directory *)
Theorem C86_all_depths regex lf ld top t f :
  files_ok f -> wf_tree t ->
  exists es, entries (f_load regex lf ld None top t f) = entries f ++ map (fun e => (fst e, true, Some (snd e))) es /\
    files_ok (f_load regex lf ld None top t f) /\ NoDup es /\
    forall p b, In (p, b) es <-> exists rel, p = top ++ rel /\ entry_at t rel b /\ regex p = true /\ (if b then ld else lf) = true.
Proof. exact (files_load_all regex lf ld top t f). Qed.
Print Assumptions C86_all_depths.

Theorem C86_depth_partial regex lf ld d top t f :
  files_ok f ->
  exists es, entries (f_load regex lf ld (Some d) top t f) = entries f ++ map (fun e => (fst e, true, Some (snd e))) es /\
    files_ok (f_load regex lf ld (Some d) top t f) /\
    forall p b, In (p, b) es -> exists rel, p = top ++ rel /\ entry_at t rel b /\ regex p = true /\ (if b then ld else lf) = true /\ length rel <= d + 2.
Proof. exact (files_load_depth_lemma regex lf ld d top t f). Qed.
Print Assumptions C86_depth_partial.

Definition ex_tree : dtree := Dir [("p", Dir [("q", Dir [] ["deep"])] ["x"]); ("r", Dir [] ["y"])] ["z"].
(** with a maximal depth the search ends at the first directory that is too deep: the file r/y is not found although p/x is *)
Theorem C86_depth_refuted : exists t f, wf_tree t /\ f = f_load (fun _ => true) true false (Some 0) ["top"] t f_new /\
  entry_at t ["p"; "x"] false /\ entry_at t ["r"; "y"] false /\ In ["top"; "p"; "x"] (fpaths f) /\ ~ In ["top"; "r"; "y"] (fpaths f).
Proof.
  exists ex_tree. eexists. split; [|split; [reflexivity|]].
  - unfold ex_tree. repeat (constructor; [cbn; repeat (constructor; [cbn; intuition discriminate|]); constructor|]; intros ? ? H; cbn in H;
      repeat (destruct H as [H|H]; [injection H as <- <-|]); try contradiction).
  - split; [apply at_sub with (t := Dir [("q", Dir [] ["deep"])] ["x"]); [cbn; auto|constructor; cbn; auto]|].
    split; [apply at_sub with (t := Dir [] ["y"]); [cbn; auto|constructor; cbn; auto]|]. vm_compute. split; [auto|]. intuition discriminate.
Qed.
Print Assumptions C86_depth_refuted.
Example C86_example : fpaths (f_load (fun p => negb (is_prefix ["top"; "r"] p)) true true None ["top"] ex_tree f_new) =
  [["top"; "p"]; ["top"; "z"]; ["top"; "p"; "q"]; ["top"; "p"; "x"]; ["top"; "p"; "q"; "deep"]].
Proof. vm_compute. reflexivity. Qed.

(** ** C87: deleting the files of the disk *)
Theorem C87_recursive_partial d f :
  disk_ok d -> files_ok f -> fpaths f <> [] -> NoDup (fpaths f) -> truthful d f ->
  (forall p q, lists f p true -> lists f q true -> under p q -> p = q) ->
  exists d' f', f_delete true true d f = (d', f', None) /\
    (forall q b, In (q, b) d' <-> In (q, b) d /\ ~ lists f q false /\ ~ exists p, lists f p true /\ under p q) /\
    fpaths f' = fpaths f /\ Forall (fun e => e = false) (fexist f') /\ files_ok f'.
Proof. exact (files_delete_recursive d f). Qed.
Print Assumptions C87_recursive_partial.

Theorem C87_refused_partial recursive d f :
  fpaths f <> [] -> f_delete recursive false d f = (d, f, None).
Proof. exact (files_delete_refused recursive d f). Qed.
Print Assumptions C87_refused_partial.

(** a directory inside of a listed directory: the second deletion fails after the first one has removed both *)
Theorem C87_nested_refuted : exists d f d' f', disk_ok d /\ files_ok f /\ NoDup (fpaths f) /\ truthful d f /\
  f_delete true true d f = (d', f', Some GenericErr) /\ d' = [] /\ fexist f' = [true; true].
Proof.
  exists [(["a"], true); (["a"; "b"], true)]. exists {| fpaths := [["a"]; ["a"; "b"]]; fexist := [true; true]; fisdir := [Some true; Some true] |}.
  eexists. eexists. split; [repeat (constructor; [cbn; intuition discriminate|]); constructor|].
  split; [split; reflexivity|]. split; [repeat (constructor; [cbn; intuition discriminate|]); constructor|].
  split; [|split; [vm_compute; reflexivity|split; reflexivity]].
  intros p o H. cbn in H. exists true. destruct H as [H|[H|[]]]; injection H as <- <-; cbn; auto.
Qed.
Print Assumptions C87_nested_refuted.
(** without recursion, a listed directory that is not empty ends in a NameError (no WindowsError outside of Windows) *)
Theorem C87_not_empty_refuted : exists d f d' f', disk_ok d /\ files_ok f /\ truthful d f /\
  f_delete false true d f = (d', f', Some NameErr) /\ d' = d.
Proof.
  exists [(["a"], true); (["a"; "b"], false)]. exists {| fpaths := [["a"]]; fexist := [true]; fisdir := [Some true] |}.
  eexists. eexists. split; [repeat (constructor; [cbn; intuition discriminate|]); constructor|].
  split; [split; reflexivity|]. split; [|split; [vm_compute; reflexivity|reflexivity]].
  intros p o H. cbn in H. exists true. destruct H as [H|[]]; injection H as <- <-; cbn; auto.
Qed.
Print Assumptions C87_not_empty_refuted.
(** an empty collection raises *)
Theorem C87_empty_refuted d recursive answer : f_delete recursive answer d f_new = (d, f_new, Some IndexErr).
Proof. reflexivity. Qed.
Print Assumptions C87_empty_refuted.
Example C87_example : exists d f f', disk_ok d /\ files_ok f /\ fpaths f <> [] /\ NoDup (fpaths f) /\ truthful d f /\
  (forall p q, lists f p true -> lists f q true -> under p q -> p = q) /\
  f_delete true true d f = ([(["c"], false)], f', None) /\ lists f ["a"] true /\ lists f ["b"] false.
Proof.
  exists [(["a"], true); (["a"; "x"], false); (["b"], false); (["c"], false)].
  exists {| fpaths := [["a"]; ["b"]; ["n"]]; fexist := [true; true; false]; fisdir := [Some true; Some false; None] |}.
  eexists. split; [repeat (constructor; [cbn; intuition discriminate|]); constructor|].
  split; [split; reflexivity|]. split; [discriminate|]. split; [repeat (constructor; [cbn; intuition discriminate|]); constructor|].
  split; [intros p o H; cbn in H; destruct H as [H|[H|[H|[]]]]; try discriminate H; injection H as <- <-; eexists; cbn; split; [reflexivity|auto|reflexivity|auto]|].
  split.
  - intros p q Hp Hq _. cbn in Hp, Hq. destruct Hp as [Hp|[Hp|[Hp|[]]]]; try discriminate Hp. destruct Hq as [Hq|[Hq|[Hq|[]]]]; try discriminate Hq. congruence.
  - split; [vm_compute; reflexivity|]. split; cbn; auto.
Qed.

(** ** C56: memoization.  [key] is the pickled argument, [func p] the function decorated in process [p], [torn n] tells
    whether the first [n] bytes of a file raise an exception that is caught *)
Theorem C56_returns_value {A K V : Type} (K_dec : forall a b : K, {a = b} + {a <> b}) (key : A -> K) (func : nat -> A -> V) (torn : nat -> bool) (f : A -> V) :
  (forall p a, func p a = f a) -> (forall a b, key a = key b -> f a = f b) ->
  forall h p a v, In (Returned p a v) (snd (mrun K_dec key func torn m_init h)) -> v = f a.
Proof. exact (memo_safe K_dec key func torn f). Qed.
Print Assumptions C56_returns_value.
Theorem C56_answers {A K V : Type} (K_dec : forall a b : K, {a = b} + {a <> b}) (key : A -> K) (func : nat -> A -> V) (torn : nat -> bool) (f : A -> V) :
  (forall p a, func p a = f a) -> (forall a b, key a = key b -> f a = f b) ->
  forall h p c a, mp (fst (mrun K_dec key func torn m_init h)) p = Idle c ->
  snd (mrun K_dec key func torn (fst (mrun K_dec key func torn m_init h)) [MCall p a]) = [Returned p a (f a)] \/
  snd (mrun K_dec key func torn (fst (mrun K_dec key func torn m_init h)) [MCall p a; MDump p]) = [Computed p a; Returned p a (f a)].
Proof. exact (memo_answers K_dec key func torn f). Qed.
Print Assumptions C56_answers.
(** one process at a time that never stops in the middle of a write: no exception, and each key is computed once *)
Theorem C56_once_partial {A K V : Type} (K_dec : forall a b : K, {a = b} + {a <> b}) (key : A -> K) (func : nat -> A -> V) (torn : nat -> bool) (l : list (aop A)) :
  (forall p, ~ In (Raised p) (snd (mrun K_dec key func torn m_init (flat_map events_of l)))) /\
  forall k, times_computed K_dec key k (snd (mrun K_dec key func torn m_init (flat_map events_of l))) <= 1.
Proof. exact (memo_once K_dec key func torn l). Qed.
Print Assumptions C56_once_partial.
(** a crash during a write leaves a file that no later run can read: whatever happens next, nothing is ever returned *)
Theorem C56_crash_refuted {A K V : Type} (K_dec : forall a b : K, {a = b} + {a <> b}) (key : A -> K) (func : nat -> A -> V) (torn : nat -> bool) (a : A) (n : nat) :
  torn n = false ->
  forall h, Forall (fun o => o = Nothing \/ exists p, o = Raised p)
    (snd (mrun K_dec key func torn (fst (mrun K_dec key func torn m_init [MStart 0; MCall 0 a; MPart 0 n; MCrash 0])) h)).
Proof.
  intros T h. apply (memo_stuck K_dec key func torn n h); [exact T|reflexivity|]. intro p. destruct p; reflexivity.
Qed.
Print Assumptions C56_crash_refuted.
(** two functions memoized in one file: the second one returns the value of the first one *)
Theorem C56_shared_file_refuted : exists (func : nat -> nat -> nat) h, func 0 5 <> func 1 5 /\
  In (Returned 1 5 (func 0 5)) (snd (mrun Nat.eq_dec (fun a : nat => a) func (fun _ => true) m_init h)).
Proof.
  exists (fun p a => p + a). exists [MStart 0; MCall 0 5; MDump 0; MCrash 0; MStart 1; MCall 1 5]. split; [discriminate|]. vm_compute. tauto.
Qed.
Print Assumptions C56_shared_file_refuted.
(** two processes at the same time: a value that has been computed and stored is computed again later *)
Theorem C56_lost_update_refuted : exists h, 
  times_computed Nat.eq_dec (fun a : nat => a) 5 (snd (mrun Nat.eq_dec (fun a => a) (fun _ a => a) (fun _ => true) m_init h)) = 2.
Proof. exists [MStart 0; MStart 1; MCall 0 5; MDump 0; MCall 1 6; MDump 1; MCrash 0; MStart 0; MCall 0 5; MDump 0]. vm_compute. reflexivity. Qed.
Print Assumptions C56_lost_update_refuted.
Example C56_example : snd (mrun Nat.eq_dec (fun a => a) (fun _ a => a * a) (fun _ => true) m_init (flat_map events_of [AStart; ACall 3; ACall 3; AStop; AStart; ACall 3; ACall 4])) =
  [Started 0; Computed 0 3; Returned 0 3 9; Returned 0 3 9; Nothing; Nothing; Started 0; Returned 0 3 9; Nothing; Computed 0 4; Returned 0 4 16].
Proof. vm_compute. reflexivity. Qed.

(** ** C57: type checks *)
Theorem C57_type_test_partial {T Val R : Type} (T_dec : forall a b : T, {a = b} + {a <> b}) (type_of : Val -> T)
  (arg_types : list wtype) (kw_types : list (string * wtype)) (f : @pyfun Val R) (args : list Val) (kwargs : list (string * Val)) :
  params f <> [] -> NoDup (params f ++ locals f) -> NoDup (map fst kw_types) ->
  well_called (own_params f) (own_args f args) kwargs ->
  ((forall x v w, given (own_params f) (own_args f args) kwargs x v -> declared arg_types kw_types (own_params f) x w -> accepted w (type_of v)) ->
     tt_call T_dec type_of arg_types kw_types f args kwargs = Ok (true, call f args kwargs)) /\
  ((exists x v w, given (own_params f) (own_args f args) kwargs x v /\ declared arg_types kw_types (own_params f) x w /\ ~ accepted w (type_of v)) ->
     tt_call T_dec type_of arg_types kw_types f args kwargs = Ok (false, Err TypeErr)).
Proof. exact (typetest_lemma T_dec type_of arg_types kw_types f args kwargs). Qed.
Print Assumptions C57_type_test_partial.
Theorem C57_return_test {T Val R : Type} (T_dec : forall a b : T, {a = b} + {a <> b}) (rtype : R -> T) (t : T) (f : @pyfun Val R) (args : list Val) (kwargs : list (string * Val)) :
  rt_call T_dec rtype t f args kwargs =
  match call f args kwargs with Ok r => if T_dec (rtype r) t then Ok r else Err TypeErr | Err e => Err e end.
Proof. exact (returntest_lemma T_dec rtype t f args kwargs). Qed.
Print Assumptions C57_return_test.
(** a call with too many positional arguments: IndexError instead of the TypeError of the function *)
Theorem C57_too_many_refuted {T Val R : Type} (T_dec : forall a b : T, {a = b} + {a <> b}) (type_of : Val -> T)
  (arg_types : list wtype) (kw_types : list (string * wtype)) (f : @pyfun Val R) (args : list Val) (kwargs : list (string * Val)) :
  params f <> [] -> is_meth f = false -> length (params f) < length args ->
  tt_call T_dec type_of arg_types kw_types f args kwargs = Ok (false, Err IndexErr).
Proof. exact (typetest_too_many T_dec type_of arg_types kw_types f args kwargs). Qed.
Print Assumptions C57_too_many_refuted.
(** values are numbers, their type is their parity *)
Definition ex_fun : @pyfun nat nat := {| params := ["a"; "b"]; locals := ["k"]; call := fun args _ => Ok (length args) |}.
(** a keyword-only parameter ([k]: a local name for python) is not checked although a type is declared for it *)
Theorem C57_keyword_only_refuted : tt_call Bool.bool_dec Nat.even [WOne true] [("k", WOne true)] ex_fun [2] [("k", 3)] = Ok (true, Ok 1) /\
  accepts Bool.bool_dec (WOne true) (Nat.even 3) = false.
Proof. split; reflexivity. Qed.
Print Assumptions C57_keyword_only_refuted.
(** a function without parameters or local variables cannot be decorated *)
Theorem C57_no_parameter_refuted : exists f : @pyfun nat nat, tt_call Bool.bool_dec Nat.even [] [] f [] [] = Err IndexErr /\ call f [] [] = Ok 7.
Proof. exists {| params := []; locals := []; call := fun _ _ => Ok 7 |}. split; reflexivity. Qed.
Print Assumptions C57_no_parameter_refuted.
Example C57_example : params ex_fun <> [] /\ NoDup (params ex_fun ++ locals ex_fun) /\ well_called (own_params ex_fun) (own_args ex_fun [2]) [("b", 3)] /\
  tt_call Bool.bool_dec Nat.even [WOne true; WMany [true; false]] [] ex_fun [2] [("b", 3)] = Ok (true, Ok 1) /\
  tt_call Bool.bool_dec Nat.even [WOne true; WOne true] [] ex_fun [2] [("b", 3)] = Ok (false, Err TypeErr).
Proof.
  split; [discriminate|]. split; [cbn; repeat (constructor; [cbn; intuition discriminate|]); constructor|].
  split; [split; [cbn; lia|split; [intros x v [H|[]]; injection H as <- <-; cbn; auto|cbn; repeat (constructor; [cbn; intuition discriminate|]); constructor]]|].
  split; reflexivity.
Qed.

(** ** C58: progress counter *)
Theorem C58_lines n perc i :
  (0 < n)%Z -> (0 < i <= n)%Z ->
  exists o, nth_error (pc_run (pc_new n perc) (Z.to_nat n)) (Z.to_nat (i - 1)) = Some (Ok o) /\
    po_problem o = false /\ (po_end o = true <-> i = n) /\
    (i = n -> po_line o = Some (100, 15, 0, n)%Z) /\
    (forall p h d it, po_line o = Some (p, h, d, it) ->
       it = i /\ (0 <= p <= 100)%Z /\ (0 <= h)%Z /\ (0 <= d)%Z /\ (h + d = 15)%Z /\
       (qabs (qz p - qz i / qz n * qz 100) <= qq 1 2)%num).
Proof. exact (progress_lemma n perc i). Qed.
Print Assumptions C58_lines.

Theorem C58_interval n perc i :
  (0 < n)%Z -> (0 <= perc)%num -> (0 < i <= n)%Z ->
  exists o, nth_error (pc_run (pc_new n perc) (Z.to_nat n)) (Z.to_nat (i - 1)) = Some (Ok o) /\
    (po_line o <> None <-> (Z.max 1 (qfloor (qz n * perc / qz 100)%num) | i)%Z \/ i = n).
Proof. exact (progress_interval n perc i). Qed.
Print Assumptions C58_interval.

Theorem C58_after_the_end n perc :
  (0 < n)%Z ->
  exists o, nth_error (pc_run (pc_new n perc) (Z.to_nat n + 1)) (Z.to_nat n) = Some (Ok o) /\ po_problem o = true /\ po_end o = false.
Proof. exact (progress_after n perc). Qed.
Print Assumptions C58_after_the_end.

Example C58_example : map (fun o => match o with Ok o => po_line o | Err _ => None end) (pc_run (pc_new 40 (qz 25)) 40) =
  repeat None 9 ++ [Some (25, 3, 12, 10)%Z] ++ repeat None 9 ++ [Some (50, 7, 8, 20)%Z] ++ repeat None 9 ++ [Some (75, 11, 4, 30)%Z] ++
  repeat None 9 ++ [Some (100, 15, 0, 40)%Z].
Proof. vm_compute. reflexivity. Qed.

(** ** C88: printed durations *)
Theorem C88_short_partial s :
  (0 <= s)%num -> (s < qz 86400)%num ->
  ((1 <= s)%num -> printed_seconds (format_time s) = qz (qfloor s)) /\
  ((s < 1)%num -> format_time s = [(qfloor (s * qz 1000)%num, Ms)]) /\
  Forall (fun e => match snd e with Ms => 0 <= fst e < 1000 | Sec | Mn => 0 <= fst e < 60 | Hour => 0 <= fst e < 24 | Day => False end)%Z (format_time s).
Proof. exact (format_short s). Qed.
Print Assumptions C88_short_partial.

(** one day or more: the number of days is not printed, the number of minutes is *)
Theorem C88_days_refuted s :
  (qz 86400 <= s)%num ->
  exists r, format_time s = ((qfloor s / 60) mod 60, Day)%Z :: r.
Proof. exact (format_days s). Qed.
Print Assumptions C88_days_refuted.

Theorem C88_two_days_refuted : exists s, (qz 86400 <= s)%num /\ qfloor s = 176700%Z /\
  format_time s = [(5, Day); (1, Hour); (5, Mn); (0, Sec)]%Z /\ printed_seconds (format_time s) <> qz 176700.
Proof. exists (qz 176700). split; [apply qleb_le; reflexivity|]. split; [reflexivity|]. split; [reflexivity|]. apply qeqb_neq. reflexivity. Qed.
Print Assumptions C88_two_days_refuted.
Example C88_example : format_time (qq 7449 2) = [(1, Hour); (2, Mn); (4, Sec)]%Z /\ format_time (qq 1 8) = [(125, Ms)]%Z.
Proof. split; vm_compute; reflexivity. Qed.
