(** * StoreSpec: saved files, independently of how they are written. *)
From Coq Require Import String Ascii.
From Verif Require Import Num Res ListLib FilesModel FilesSpec StoreModel.
#[local] Open Scope string_scope.
#[local] Open Scope list_scope.

(** everything on the disk is in a directory of the disk *)
Definition rooted {B} (s : store B) : Prop := forall p c, p <> [] -> s (p ++ [c]) <> None -> s p <> None.
Definition present {B} (s : store B) (p : path) : Prop := s p <> None.

Fixpoint only_dots (s : string) : Prop := match s with "" => True | String c r => c = "."%char /\ only_dots r end.
(** the name ends with the extension, something else than dots being before it *)
Definition named (e s : string) : Prop := exists a, s = (a ++ e)%string /\ ~ only_dots a.
(** the file in which an object saved at [p] is: [p] itself when its name has the extension, else the name followed by the extension *)
Definition stored_as (compressed : bool) (p q : path) : Prop :=
  exists d n, p = d ++ [n] /\
    ((named (kind_ext compressed) n /\ q = p) \/ (~ named (kind_ext compressed) n /\ q = d ++ [(n ++ kind_ext compressed)%string])).
(** a path whose last component is not made of dots *)
Definition plain (p : path) : Prop := exists d n, p = d ++ [n] /\ ~ only_dots n.

(** nothing can be read in what is written of the object, except the object itself in the whole when it can be saved *)
Definition sound {O B} (cd : codec O B) (z : bool) (o : O) : Prop :=
  forall k x, load cd z (firstn k (fst (dump cd z o))) = Some x -> snd (dump cd z o) = true /\ length (fst (dump cd z o)) <= k /\ x = o.
(** the object can be saved and read back *)
Definition saves {O B} (cd : codec O B) (z : bool) (o : O) : Prop :=
  snd (dump cd z o) = true /\ load cd z (fst (dump cd z o)) = Some o /\ upgrade cd o = o.
(** the directory of the path is there (or the path is in the working directory), and the path is not a directory *)
Definition writable_at {B} (s : store B) (q : path) : Prop :=
  s q <> Some NDir /\ (removelast q = [] \/ s (removelast q) = Some NDir).
(** the operation writes in the file [q] *)
Definition writes_in {O} (x : sop O) (q : path) : Prop :=
  match x with SExport _ p c => stored_as c p q | SCrash _ p c _ => stored_as c p q | SImport _ => False end.
Definition op_path {O} (x : sop O) : path := match x with SExport _ p _ => p | SCrash _ p _ _ => p | SImport p => p end.

(** the first of the answers that is a word for yes or no *)
Definition answered (l : list string) (yes : bool) : Prop :=
  exists l1 a l2, l = l1 ++ a :: l2 /\ (forall b, In b l1 -> ~ In b yes_words /\ ~ In b no_words) /\ In a (if yes then yes_words else no_words).
(** a file of the tree in a directory and with a name that are asked for *)
Definition matched (dir_re : path -> bool) (file_re : string -> bool) (top : path) (t : dtree) (q : path) : Prop :=
  exists rel n, entry_at t (rel ++ [n]) false /\ q = top ++ rel ++ [n] /\ dir_re (top ++ rel) = true /\ file_re n = true.
(** the disk holds the files of the tree under [top] *)
Definition tree_on (d : disk) (top : path) (t : dtree) : Prop := forall rel b, entry_at t rel b -> In (top ++ rel, b) d.

(** a directory of a tree, with the names of its files *)
Inductive folder : dtree -> path -> list string -> Prop :=
| folder_top ds fs : folder (Dir ds fs) [] fs
| folder_in ds fs n t p l : In (n, t) ds -> folder t p l -> folder (Dir ds fs) (n :: p) l.

(** the tree of names: the files listed in a folder, and whether a folder is there *)
Fixpoint files_at (d : list (string * ditem)) (p : path) : list string :=
  match p with
  | [] => match dget "files" d with Some (DFiles l) => l | _ => [] end
  | n :: r => match dget n d with Some (DSub e) => files_at e r | _ => [] end
  end.
Fixpoint has_folder (d : list (string * ditem)) (p : path) : Prop :=
  match p with
  | [] => True
  | n :: r => match dget n d with Some (DSub e) => has_folder e r | _ => False end
  end.
(** the names of the paths of a list that are files of the folder [p], in the order of the list *)
Definition names_in (l : list (path * option bool)) (p : path) : list string :=
  flat_map (fun e => if (match snd e with Some true => false | _ => true end && path_eqb (removelast (fst e)) p)%bool then [last (fst e) ""] else []) l.

(** the objects in the files of a list that have the extension of a saved object, the other paths being left *)
Inductive reads {O B} (cd : codec O B) (s : store B) : list path -> list O -> Prop :=
| reads_nil : reads cd s [] []
| reads_skip p l os : ext_of p <> ".imt" -> ext_of p <> ".cimt" -> reads cd s l os -> reads cd s (p :: l) os
| reads_take p l o os : ext_of p = ".imt" \/ ext_of p = ".cimt" -> (forall g, snd (import cd (mkworld s g) p) = Done o) -> reads cd s l os -> reads cd s (p :: l) (o :: os).
