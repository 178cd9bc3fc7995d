(** * FilesSpec: a collection of files is a list of described paths. *)
From Coq Require Import String.
From Verif Require Import Num Res ListLib PointsModel FilesModel.

(** a path, whether it exists, and whether it is a directory *)
Notation entry := (path * bool * option bool)%type.
Definition entries (f : files) : list entry := combine (combine (fpaths f) (fexist f)) (fisdir f).
(** the three lists have one element per file *)
Definition files_ok (f : files) : Prop := length (fexist f) = length (fpaths f) /\ length (fisdir f) = length (fpaths f).
(** the description of a path in a state of the disk *)
Definition seen (w : os_view) (p : path) : entry :=
  match look w p with Some d => (p, true, Some d) | None => (p, false, None) end.

(** a file or a directory of a tree, by its path from the top *)
Inductive entry_at : dtree -> path -> bool -> Prop :=
| at_file ds fs n : In n fs -> entry_at (Dir ds fs) [n] false
| at_dir ds fs n t : In (n, t) ds -> entry_at (Dir ds fs) [n] true
| at_sub ds fs n t p b : In (n, t) ds -> entry_at t p b -> entry_at (Dir ds fs) (n :: p) b.
(** the names in a directory are distinct *)
Inductive wf_tree : dtree -> Prop :=
| wf_dir ds fs : NoDup (map fst ds ++ fs) -> (forall n t, In (n, t) ds -> wf_tree t) -> wf_tree (Dir ds fs).

(** [p] lies in (or is) the directory [q] *)
Definition under (q p : path) : Prop := exists r, p = q ++ r.
(** the disk has at most one entry per path *)
Definition disk_ok (d : disk) : Prop := NoDup (map fst d).
(** the flags of the collection agree with the disk *)
Definition truthful (d : disk) (f : files) : Prop :=
  forall p o, In (p, true, o) (entries f) -> exists b, o = Some b /\ In (p, b) d.
(** an existing file, or an existing directory, of the collection *)
Definition lists (f : files) (p : path) (isdir : bool) : Prop := In (p, true, Some isdir) (entries f).
