(** * FilesModel: file collections (utils/files.py). *)
From Coq Require Import String.
From Verif Require Import Num Res ListLib FieldModel PointsModel.
#[local] Open Scope string_scope.
#[local] Open Scope list_scope.

(** A normalised path is the list of its components; the text of a path is not modelled. *)
Notation path := (list string).
Definition path_eqb (p q : path) : bool := if list_eq_dec string_dec p q then true else false.

(** Files (37-45): three lists *)
Record files := { fpaths : list path; fexist : list bool; fisdir : list (option bool) }.
Definition f_new : files := {| fpaths := []; fexist := []; fisdir := [] |}.

(** what the operating system answers at some moment: os.path.exists and os.path.isdir in one ([None]: no such path,
    [Some d]: it exists and [d] tells if it is a directory), and os.access(dirname, W_OK) *)
Record os_view := { look : path -> option bool; writable : path -> bool }.

(** add_file (142-162), after os.path.normpath *)
Definition f_add (w : os_view) (f : files) (p : path) : files * option exn :=
  match look w p with
  | Some d => ({| fpaths := fpaths f ++ [p]; fexist := fexist f ++ [true]; fisdir := fisdir f ++ [Some d] |}, None)
  | None =>
    if writable w p
    then ({| fpaths := fpaths f ++ [p]; fexist := fexist f ++ [false]; fisdir := fisdir f ++ [None] |}, None)
    else (f, Some GenericErr)
  end.

(** __add__ (47-53) of two collections *)
Definition f_concat (f g : files) : files :=
  {| fpaths := fpaths f ++ fpaths g; fexist := fexist f ++ fexist g; fisdir := fisdir f ++ fisdir g |}.

(** python's [del l[i]]: IndexError outside of the list, negative indices count from the end *)
Definition del_at {A} (i : Z) (l : list A) : res (list A) :=
  match norm_ind (length l) i with
  | Some k => Ok (firstn k l ++ skipn (S k) l)
  | None => Err IndexErr
  end.

(** the integer branch of remove_files (175-179): three deletions *)
Definition f_del (f : files) (i : Z) : files * option exn :=
  match del_at i (fpaths f) with
  | Err e => (f, Some e)
  | Ok ps =>
    let f1 := {| fpaths := ps; fexist := fexist f; fisdir := fisdir f |} in
    match del_at i (fexist f) with
    | Err e => (f1, Some e)
    | Ok es =>
      let f2 := {| fpaths := ps; fexist := es; fisdir := fisdir f |} in
      match del_at i (fisdir f) with
      | Err e => (f2, Some e)
      | Ok ds => ({| fpaths := ps; fexist := es; fisdir := ds |}, None)
      end
    end
  end.

(** the argument of remove_files: a python int, a numpy integer, a regular expression (as the predicate re.match
    decides), an array of such things, or anything else *)
Inductive farg :=
| FInt (i : Z) | FNpInt (i : Z) | FRegex (r : path -> bool) | FList (l : list farg) | FOther.

(** a numpy integer is neither an int, an array nor a string under python 3: the else branch (189-190) *)
Definition f_del_np (f : files) (i : Z) : files * option exn := (f, Some TypeErr).

(** the regular expression branch (183-188): from the last path to the first one; the index comes from np.arange *)
Fixpoint f_del_regex (r : path -> bool) (is : list nat) (f : files) : files * option exn :=
  match is with
  | [] => (f, None)
  | i :: is' =>
    match nth_error (fpaths f) i with
    | None => (f, Some IndexErr)
    | Some p =>
      if r p then
        match f_del_np f (Z.of_nat i) with
        | (f', None) => f_del_regex r is' f'
        | (f', Some e) => (f', Some e)
        end
      else f_del_regex r is' f
    end
  end.

(** remove_files (164-190) *)
Fixpoint f_remove (f : files) (a : farg) {struct a} : files * option exn :=
  match a with
  | FInt i => f_del f i
  | FNpInt i => f_del_np f i
  | FRegex r => f_del_regex r (rev (seq 0 (length (fpaths f)))) f
  | FList l =>
    (fix each (f : files) (l : list farg) : files * option exn :=
       match l with
       | [] => (f, None)
       | x :: l' => match f_remove f x with (f', None) => each f' l' | (f', Some e) => (f', Some e) end
       end) f l
  | FOther => (f, Some TypeErr)
  end.

(** a history of a collection; a failing call leaves the state it has reached *)
Inductive fop := FAdd (w : os_view) (p : path) | FRemove (a : farg) | FConcat (g : files).
Definition fstep (f : files) (o : fop) : files :=
  match o with FAdd w p => fst (f_add w f p) | FRemove a => fst (f_remove f a) | FConcat g => f_concat f g end.

(** ** Loading from a directory tree *)
Inductive dtree := Dir (dirs : list (string * dtree)) (fls : list string).

(** os.walk(top, topdown=True): a directory first, then each of its sub-directories in order.  Symbolic links and
    unreadable directories are not modelled.  The directories are given relative to the top. *)
Fixpoint walk (root : path) (t : dtree) : list (path * list string * list string) :=
  match t with
  | Dir dirs fls => (root, map fst dirs, fls) :: flat_map (fun d => walk (root ++ [fst d]) (snd d)) dirs
  end.

(** the number of separators in the path of [rel] from the top (210-213), none for the top itself *)
Definition walk_depth (rel : path) : nat := Nat.pred (length rel).

(** one entry found: its path and whether it is a directory (216-229) *)
Definition found (regex : path -> bool) (lf ld : bool) (top : path) (x : path * list string * list string) : list (path * bool) :=
  let '(rel, dirs, fls) := x in
  (if ld then filter (fun e => regex (fst e)) (map (fun d => (top ++ rel ++ [d], true)) dirs) else []) ++
  (if lf then filter (fun e => regex (fst e)) (map (fun d => (top ++ rel ++ [d], false)) fls) else []).

(** the loop (205-229); [None] is depth="all"; the loop ends at the first directory that is too deep *)
Fixpoint load_loop (regex : path -> bool) (lf ld : bool) (depth : option nat) (top : path)
  (l : list (path * list string * list string)) : list (path * bool) :=
  match l with
  | [] => []
  | x :: l' =>
    match depth with
    | Some d => if Nat.ltb d (walk_depth (fst (fst x))) then [] else found regex lf ld top x ++ load_loop regex lf ld depth top l'
    | None => found regex lf ld top x ++ load_loop regex lf ld depth top l'
    end
  end.

(** load_files_from_regex (197-233) *)
Definition f_load (regex : path -> bool) (lf ld : bool) (depth : option nat) (top : path) (t : dtree) (f : files) : files :=
  let es := load_loop regex lf ld depth top (walk [] t) in
  {| fpaths := fpaths f ++ map fst es; fexist := fexist f ++ map (fun _ => true) es; fisdir := fisdir f ++ map (fun e => Some (snd e)) es |}.

(** ** Deleting the files of the disk *)
(** the disk: the existing paths, and whether each is a directory *)
Notation disk := (list (path * bool)).
Definition d_kind (d : disk) (p : path) : option bool := option_map snd (find (fun e => path_eqb (fst e) p) d).
Fixpoint is_prefix (p q : path) : bool :=
  match p, q with
  | [], _ => true
  | a :: p', b :: q' => if string_dec a b then is_prefix p' q' else false
  | _ :: _, [] => false
  end.
(** os.remove *)
Definition os_remove (d : disk) (p : path) : res disk :=
  match d_kind d p with
  | Some false => Ok (filter (fun e => negb (path_eqb (fst e) p)) d)
  | _ => Err GenericErr
  end.
(** os.rmdir inside of [try ... except WindowsError] (291-294): the name WindowsError exists on Windows only, so that on
    another system a failing rmdir ends in a NameError *)
Definition os_rmdir (d : disk) (p : path) : res disk :=
  match d_kind d p with
  | Some true =>
    if existsb (fun e => is_prefix p (fst e) && negb (path_eqb (fst e) p)) d then Err NameErr
    else Ok (filter (fun e => negb (path_eqb (fst e) p)) d)
  | _ => Err NameErr
  end.
(** shutil.rmtree *)
Definition os_rmtree (d : disk) (p : path) : res disk :=
  match d_kind d p with
  | Some true => Ok (filter (fun e => negb (is_prefix p (fst e))) d)
  | _ => Err GenericErr
  end.
Fixpoint del_paths (rm : disk -> path -> res disk) (d : disk) (ps : list path) : disk * option exn :=
  match ps with
  | [] => (d, None)
  | p :: ps' => match rm d p with Ok d' => del_paths rm d' ps' | Err e => (d, Some e) end
  end.
(** the listed paths whose [exist] flag is set, with their [isdir] flag (263-264) *)
Definition f_existing (f : files) : list (path * option bool) :=
  map fst (filter (fun e => snd e) (combine (combine (fpaths f) (fisdir f)) (fexist f))).
(** delete_existing_files (262-321); [answer] is what the user replies.  An empty collection fails since
    np.array([]) is not an array of booleans.  The flag of an existing entry is a boolean (True or False). *)
Definition f_delete (recursive answer : bool) (d : disk) (f : files) : disk * files * option exn :=
  match fpaths f with
  | [] => (d, f, Some IndexErr)
  | _ =>
    if answer then
      let isd e := match snd e with Some true => true | _ => false end in
      let (d1, e1) := del_paths os_remove d (map fst (filter (fun e => negb (isd e)) (f_existing f))) in
      match e1 with
      | Some e => (d1, f, Some e)
      | None =>
        let (d2, e2) := del_paths (if recursive then os_rmtree else os_rmdir) d1 (map fst (filter isd (f_existing f))) in
        match e2 with
        | Some e => (d2, f, Some e)
        | None => (d2, {| fpaths := fpaths f; fexist := map (fun _ => false) (fexist f); fisdir := fisdir f |}, None)
        end
      end
    else (d, f, None)
  end.
