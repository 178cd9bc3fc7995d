(** * RepSpec: vocabulary for the text of a collection of files, conditional averages and bases of modes. *)
From Coq Require Import String Permutation.
From Verif Require Import Num Res ListLib Arr FieldModel ScalarFieldModel TemporalModel TemporalSpec FilesModel StoreModel StoreSpec PodModel RepModel.
Import ListNotations.
#[local] Open Scope string_scope.
#[local] Open Scope list_scope.

(** ** The text of a collection *)
(** the folders of a collection: the one above all, the directories that are listed and the folders above what is listed *)
Definition folder_of (f : files) (p : path) : Prop :=
  p = [] \/ exists q o r, In (q, o) (combine (fpaths f) (fisdir f)) /\ q = p ++ r /\ (r <> [] \/ o = Some true).
(** the names of the files of a folder *)
Definition names_at (f : files) (p : path) : list string := names_in (combine (fpaths f) (fisdir f)) p.
(** a line of the text: it is shifted once for each folder on the way *)
Fixpoint indent (st : style) (n : nat) : string := match n with 0 => "" | Datatypes.S m => (st_tab2 st ++ indent st m)%string end.
Definition line (st : style) (depth : nat) (label : string) : string := (indent st depth ++ st_tab1 st ++ label ++ nl)%string.
(** the line of a folder, among the content of the folder above *)
Definition folder_line (st : style) (p : path) : string := line st (pred (length p)) (st_fold st ++ last p "")%string.
(** the lines of the files of a folder: one each, or their number when there are more than [mx] *)
Definition files_lines (st : style) (mx : Z) (names : path -> list string) (p : path) : list string :=
  if (Z.of_nat (length (names p)) <=? mx)%Z then map (fun n => line st (length p) (st_file st ++ n)%string) (names p)
  else [line st (length p) (st_num st ++ "[" ++ dec (length (names p)) ++ " Files]")%string].
(** the line of a folder and those of its files *)
Definition folder_lines (st : style) (mx : Z) (names : path -> list string) (p : path) : list string :=
  folder_line st p :: files_lines st mx names p.
(** the heading with the name of a folder between two rules *)
Definition title (st : style) (name : string) : string :=
  let rule := times_str (String.length name + 2) "=" in
  (st_tab0 st ++ st_tabc st ++ rule ++ st_tab0 st ++ nl ++ st_tab0 st ++ " " ++ name ++ " " ++ st_tab0 st ++ nl ++
   st_tabc st ++ st_tab0 st ++ st_tabc st ++ rule ++ st_tab0 st ++ nl)%string.
(** a collection whose paths are names, none of them 'files' *)
Definition plain_files (f : files) : Prop :=
  length (fisdir f) = length (fpaths f) /\ forall p, In p (fpaths f) -> p <> [] /\ ~ In "files" p.

(** ** Conditional averages: the first frame of a series at a time *)
Definition frame_at {F} (t : tfield F) (x : num) (f : F) : Prop :=
  exists k, nth_error (tft t) k = Some x /\ nth_error (tff t) k = Some f /\ forall j, j < k -> nth_error (tft t) j <> Some x.
(** [g] is the average of the frames of the series at the times [xs], cell by cell *)
Definition average_at (t : tfield sfield) (xs : list num) (g : sfield) : Prop :=
  exists fs, Forall2 (frame_at t) xs fs /\ sg g = tfg t /\
    forall i j, i < length (ax (tfg t)) -> j < length (ay (tfg t)) -> cell_average fs g i j.

(** ** Smoothing of a base: what it leaves as it was *)
Definition same_but_evo {F} (m m' : mfield F) : Prop := m' = set_evo m (mf_evo m').
Definition same_but_modes {F} (m m' : mfield F) : Prop := m' = set_modes m (mf_modes m').
