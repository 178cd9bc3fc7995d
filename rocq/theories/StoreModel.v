(** * StoreModel: paths, saved objects and searches in directories (IMTreatment/file_operation/file_operation.py 62-416,
    IMTreatment/utils/files.py 54-260 and 323-393).  A path is the list of its components, after os.path.normpath: it has at least one
    component, and an absolute path begins with the component "/".  pickle and gzip are parameters. *)
From Coq Require Import String Ascii.
From Verif Require Import Num Res ListLib FieldModel FilesModel TemporalModel SpatialModel.
#[local] Open Scope string_scope.
#[local] Open Scope list_scope.
Notation path := (list string).

(** ** The disk: directories, and files with their bytes *)
Inductive node (B : Type) : Type := NDir | NFile (b : list B).
Arguments NDir {B}. Arguments NFile {B}.
Definition store (B : Type) : Type := path -> option (node B).
Definition put {B} (s : store B) (p : path) (n : node B) : store B := fun q => if path_eqb q p then Some n else s q.
(** path.exists; the empty path does not exist *)
Definition exists_in {B} (s : store B) (p : path) : bool :=
  match p with [] => false | _ => match s p with Some _ => true | None => false end end.

(** ** check_path (62-108): the path, or the exception naming a component that is missing and the directory it is missing in
    (the working directory when empty) *)
Fixpoint first_missing {B} (s : store B) (valid rest : path) : option (string * path) :=
  match rest with
  | [] => None
  | c :: r => if exists_in s (valid ++ [c]) then first_missing s (valid ++ [c]) r else Some (c, valid)
  end.
Definition check_existing {B} (s : store B) (p : path) : path + string * path :=
  if exists_in s p then inl p else match first_missing s [] p with Some e => inr e | None => inl p end.
(** newfile=True (76-77, 106-107): the directory is checked; not for the path "/" alone *)
Definition check_path {B} (s : store B) (newfile : bool) (p : path) : path + string * path :=
  if newfile then match check_existing s (removelast p) with inl q => inl (q ++ [last p ""]) | inr e => inr e end
  else check_existing s p.

(** ** path.splitext, on the last component: from the last dot, the dots at the beginning being ignored *)
Fixpoint strip_dots (s : string) : string :=
  match s with "" => "" | String c r => if Ascii.eqb c "."%char then strip_dots r else s end.
Fixpoint from_last_dot (s : string) : option string :=
  match s with
  | "" => None
  | String c r => match from_last_dot r with Some e => Some e | None => if Ascii.eqb c "."%char then Some s else None end
  end.
Definition extension (name : string) : string := match from_last_dot (strip_dots name) with Some e => e | None => "" end.
Definition ext_of (p : path) : string := extension (last p "").
(** filepath + ext *)
Definition add_ext (p : path) (e : string) : path := removelast p ++ [(last p "" ++ e)%string].
Definition kind_ext (compressed : bool) : string := if compressed then ".cimt" else ".imt".
(** where the object is written (352-353, 360-361) *)
Definition target (compressed : bool) (p : path) : path :=
  if String.eqb (ext_of p) (kind_ext compressed) then p else add_ext p (kind_ext compressed).

(** ** Saving and loading.  [dump z o]: the bytes written by pickle (through gzip when [z]), and whether it ends without exception;
    [load z b]: the object read, if any.  [upgrade]: the attribute given to the fields saved by old versions (320-323). *)
Record codec (O B : Type) : Type := mkcodec { dump : bool -> O -> list B * bool; load : bool -> list B -> option O; upgrade : O -> O }.
Arguments mkcodec {O B}. Arguments dump {O B}. Arguments load {O B}. Arguments upgrade {O B}.
(** the disk, and whether the garbage collector is enabled *)
Record world (B : Type) : Type := mkworld { wdisk : store B; wgc : bool }.
Arguments mkworld {B}. Arguments wdisk {B}. Arguments wgc {B}.
Inductive outcome (A : Type) : Type := Done (a : A) | Missing (name : string) (dir : path) | Fails (e : exn).
Arguments Done {A}. Arguments Missing {A}. Arguments Fails {A}.
(** open(filepath, 'wb'): the path is not a directory and its directory is one *)
Definition can_write {B} (s : store B) (p : path) : bool :=
  (match s p with Some NDir => false | _ => true end &&
   match removelast p with [] => true | d => match s d with Some NDir => true | _ => false end end)%bool.
(** the file while it is written: truncated, then one byte after the other *)
Definition writes {B} (s : store B) (p : path) (b : list B) : list (store B) :=
  map (fun k => put s p (NFile (firstn k b))) (seq 0 (S (length b))).
(** export_to_file (327-364): all the states it goes through, and the outcome *)
Definition export {O B} (cd : codec O B) (w : world B) (o : O) (p : path) (compressed : bool) : list (world B) * outcome unit :=
  match check_path (wdisk w) true p with
  | inr (n, d) => ([w], Missing n d)
  | inl p' =>
    let q := target compressed p' in
    let off := mkworld (wdisk w) false in
    if negb (can_write (wdisk w) q) then ([w; off], Fails GenericErr)
    else
      let (b, ok) := dump cd compressed o in
      let during := map (fun s => mkworld s false) (writes (wdisk w) q b) in
      if ok then ([w; off] ++ during ++ [mkworld (put (wdisk w) q (NFile b)) true], Done tt)
      else ([w; off] ++ during, Fails GenericErr)
  end.
Definition after_export {O B} (cd : codec O B) (w : world B) (o : O) (p : path) (c : bool) : world B := last (fst (export cd w o p c)) w.
(** import_from_file (286-324) *)
Definition import {O B} (cd : codec O B) (w : world B) (p : path) : world B * outcome O :=
  match check_path (wdisk w) false p with
  | inr (n, d) => (w, Missing n d)
  | inl q =>
    let read z := match wdisk w q with
                  | Some (NFile b) => match load cd z b with
                                      | Some o => (mkworld (wdisk w) true, Done (upgrade cd o))
                                      | None => (mkworld (wdisk w) false, Fails GenericErr)
                                      end
                  | _ => (mkworld (wdisk w) false, Fails GenericErr)
                  end in
    if String.eqb (ext_of q) ".imt" then read false
    else if String.eqb (ext_of q) ".cimt" then read true
    else (w, Fails GenericErr)
  end.
(** a history: exports, imports, and exports interrupted at one of their states, the process being started again *)
Inductive sop (O : Type) : Type := SExport (o : O) (p : path) (c : bool) | SImport (p : path) | SCrash (o : O) (p : path) (c : bool) (k : nat).
Arguments SExport {O}. Arguments SImport {O}. Arguments SCrash {O}.
Definition sstep {O B} (cd : codec O B) (w : world B) (x : sop O) : world B :=
  match x with
  | SExport o p c => after_export cd w o p c
  | SImport p => fst (import cd w p)
  | SCrash o p c k => mkworld (wdisk (nth k (fst (export cd w o p c)) w)) true
  end.
Definition srun {O B} (cd : codec O B) (w : world B) (h : list (sop O)) : world B := fold_left (sstep cd) h w.

(** ** imts_to_imt (367-416).  [listing]: the paths given by glob, in its order; [pick]: the field in an object of the right type;
    [add]: add_field with its default arguments *)
Definition imts_to_imt {O B F S} (cd : codec O B) (pick : O -> option F) (add : S -> F -> res S) (wrap : S -> O) (init : S)
    (listing : path -> list path) (w : world B) (src dst : path) : world B * outcome unit :=
  match check_path (wdisk w) false src, check_path (wdisk w) true dst with
  | inr (n, d), _ => (w, Missing n d)
  | _, inr (n, d) => (w, Missing n d)
  | inl src', inl dst' =>
    let fix loop (w : world B) (s : S) (l : list path) : world B * outcome S :=
      match l with
      | [] => (w, Done s)
      | p :: r =>
        if (String.eqb (ext_of p) ".imt" || String.eqb (ext_of p) ".cimt")%bool then
          match import cd w p with
          | (w1, Done o) => match pick o with
                            | None => loop w1 s r
                            | Some f => match add s f with Ok s1 => loop w1 s1 r | Err e => (w1, Fails e) end
                            end
          | (w1, Missing n d) => (w1, Missing n d)
          | (w1, Fails e) => (w1, Fails e)
          end
        else loop w s r
      end in
    match loop w init (listing src') with
    | (w1, Done s) => (after_export cd w1 (wrap s) dst' true, snd (export cd w1 (wrap s) dst' true))
    | (w1, Missing n d) => (w1, Missing n d)
    | (w1, Fails e) => (w1, Fails e)
    end
  end.
(** the add_field of the series and of the sets of fields, without other arguments *)
Definition add_to_series {F} (ops : fops F) asort (t : tfield F) (f : F) : res (tfield F) :=
  match tf_add ops asort t f 0%num one_unit with (t', None) => Ok t' | (_, Some e) => Err e end.

(** ** find_file_in_path (111-160) without ask.  [m]: the variable match (142), unbound before the first file *)
Definition has_match (regs : list (string -> bool)) (f : string) : bool := existsb (fun r => r f) regs.
Fixpoint find_loop (regs : list (string -> bool)) (top : path) (m : option bool) (l : list (path * list string * list string)) : res (list path) :=
  match l with
  | [] => Ok []
  | (rel, _, fls) :: r =>
    let m := match fls with [] => m | _ => Some (existsb (has_match regs) fls) end in
    match m with
    | None => Err UnboundErr
    | Some b => let* t := find_loop regs top m r in Ok (if b then (top ++ rel) :: t else t)
    end
  end.
Definition find_file_in_path (regs : list (string -> bool)) (top : path) (t : dtree) : res (list path) := find_loop regs top None (walk [] t).
(** the choice (146-158): [answers]: what the user types; None when it is not an integer *)
Fixpoint ask_choice (n : nat) (answers : list (option Z)) : res nat :=
  match answers with
  | [] => Err EOFErr
  | Some z :: r => if ((1 <=? z) && (z <=? Z.of_nat n))%Z%bool then Ok (Z.to_nat (z - 1)) else ask_choice n r
  | None :: r => ask_choice n r
  end.
Definition find_and_ask regs top t (answers : list (option Z)) : res (list path) :=
  let* l := find_file_in_path regs top t in
  match l with
  | _ :: _ :: _ => let* k := ask_choice (length l) answers in Ok [nth k l []]
  | _ => Ok l
  end.

(** ** remove_files_in_dirs (files.py 323-393).  The arguments depth, remove_dir and remove_files are not used *)
Definition yes_words : list string := ["o"; "O"; "y"; "Y"; "oui"; "Oui"; "Yes"; "yes"; "YES"; "OUI"].
Definition no_words : list string := ["n"; "N"; "No"; "no"; "non"; "Non"; "NON"; "NO"].
(** the question (374-382) is asked until one of these words is given *)
Fixpoint ask_yes (answers : list string) : res bool :=
  match answers with
  | [] => Err EOFErr
  | a :: r => if existsb (String.eqb a) yes_words then Ok true else if existsb (String.eqb a) no_words then Ok false else ask_yes r
  end.
Definition chosen (dir_re : path -> bool) (file_re : string -> bool) (top : path) (x : path * list string * list string) : list path :=
  let '(rel, _, fls) := x in if dir_re (top ++ rel) then map (fun f => top ++ rel ++ [f]) (filter file_re fls) else [].
Definition remove_files_in_dirs (dir_re : path -> bool) (file_re : string -> bool) (depth : option nat) (remove_dir remove_files : bool)
    (top : path) (t : dtree) (answers : list string) (d : disk) : disk * option exn :=
  match flat_map (chosen dir_re file_re top) (walk [] t) with
  | [] => (d, None)
  | ps => match ask_yes answers with
          | Err e => (d, Some e)
          | Ok false => (d, None)
          | Ok true => del_paths os_remove d ps
          end
  end.

(** ** Files.build_tree (files.py 235-260): nested dictionaries; the names of the files of a folder are a list under the key 'files' *)
Inductive ditem : Type := DSub (d : list (string * ditem)) | DFiles (l : list string).
Definition dget (k : string) (d : list (string * ditem)) : option ditem := option_map snd (find (fun e => String.eqb (fst e) k) d).
Fixpoint dset (k : string) (v : ditem) (d : list (string * ditem)) : list (string * ditem) :=
  match d with
  | [] => [(k, v)]
  | (k', v') :: r => if String.eqb k' k then (k, v) :: r else (k', v') :: dset k v r
  end.
(** one path: folders (246-252), then the file (253-258); a list has no keys and a dictionary has no append *)
Fixpoint tree_add (isdir : bool) (p : path) (d : list (string * ditem)) : res (list (string * ditem)) :=
  match p with
  | [] => Ok d
  | n :: r =>
    if (isdir || match r with [] => false | _ => true end)%bool then
      match dget n d with
      | Some (DSub e) => let* e' := tree_add isdir r e in Ok (dset n (DSub e') d)
      | Some (DFiles _) => match r with [] => Ok d | _ => Err AttrErr end
      | None => let* e' := tree_add isdir r [] in Ok (dset n (DSub e') d)
      end
    else
      match dget "files" d with
      | Some (DFiles l) => Ok (dset "files" (DFiles (l ++ [n])) d)
      | Some (DSub _) => Err AttrErr
      | None => Ok (dset "files" (DFiles [n]) d)
      end
  end.
Fixpoint tree_adds (l : list (option bool * path)) (d : list (string * ditem)) : res (list (string * ditem)) :=
  match l with
  | [] => Ok d
  | (isdir, p) :: r => let* d' := tree_add (match isdir with Some b => b | None => false end) p d in tree_adds r d'
  end.
Definition build_tree (f : files) : res (list (string * ditem)) := tree_adds (combine (fisdir f) (fpaths f)) [].
