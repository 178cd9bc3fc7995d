(** * ProtModel: the chain of computations of POD_CP_protocol (protocols/protocols.py 35-268), resumed from the files already there.
    Simplified: a file holds one value of [V]; the computations of each stage are the functions of [work], that can raise.  The figures, the messages and the result directory are
    not modelled (the directory is made first when it is missing).  A process can be killed at any time; while a file is written, it is there but cannot be read
    (StoreModel models the save itself). *)
From Coq Require Import List Bool ZArith.
From Verif Require Import Res.
Import ListNotations.

(** the files of one case: the source [name].cimt, [name]_cln, _mean, _pod, _rec, _traj, _rec_det and _traj_det *)
Inductive slot : Set := Raw | Cln | Mean | Pod | Rec | Traj | RecDet | TrajDet.
Definition slot_eqb (a b : slot) : bool :=
  match a, b with
  | Raw, Raw | Cln, Cln | Mean, Mean | Pod, Pod | Rec, Rec | Traj, Traj | RecDet, RecDet | TrajDet, TrajDet => true
  | _, _ => false
  end.
Inductive content (V : Type) : Type := Whole (v : V) | Broken.
Arguments Whole {V} _. Arguments Broken {V}.
Definition disk (V : Type) : Type := slot -> option (content V).
Definition put {V} (d : disk V) (s : slot) (c : option (content V)) : disk V := fun t => if slot_eqb t s then c else d t.

(** what the stages compute, for the parameters of type [P]: the cleaned fields (70-86), their mean (88-89), the POD (106-112), the reconstruction
    (128-139; true for the detailed one) and the trajectories (186-190; with a number of threads) *)
Record work (P V : Type) : Type := mkwork {
  w_clean : P -> V -> res V; w_mean : P -> V -> res V; w_pod : P -> V -> res V; w_rec : P -> bool -> V -> res V; w_traj : P -> Z -> V -> res V }.
Arguments w_clean {P V} _. Arguments w_mean {P V} _. Arguments w_pod {P V} _. Arguments w_rec {P V} _. Arguments w_traj {P V} _.

(** a protocol object; [thread] is None for 'all', the default (36-65): psutil.cpu_coun is not an attribute (62) *)
Record proto (P : Type) : Type := mkproto { par : P; detailled : bool; threads : Z }.
Arguments mkproto {P} _ _ _. Arguments par {P} _. Arguments detailled {P} _. Arguments threads {P} _.
Definition make_proto {P} (p : P) (more_details : bool) (thread : option Z) : res (proto P) :=
  match thread with None => Err AttrErr | Some n => Ok (mkproto p more_details n) end.

(** a running protocol: the disk and self.thread; a program gives the disks it goes through, the state it ends in, and its exception *)
Record running (V : Type) : Type := mkrun { dsk : disk V; thr : Z }.
Arguments mkrun {V} _ _. Arguments dsk {V} _. Arguments thr {V} _.
Definition prog (V : Type) : Type := running V -> list (disk V) * running V * res unit.
Definition skip {V} : prog V := fun s => ([], s, Ok tt).
Definition seq {V} (m n : prog V) : prog V := fun s =>
  match m s with
  | (l, t, Ok _) => match n t with (l', u, r) => (l ++ l', u, r) end
  | (l, t, Err e) => (l, t, Err e)
  end.
Definition calc {V} (r : res V) (k : V -> prog V) : prog V := fun s => match r with Ok v => k v s | Err e => ([], s, Err e) end.
(** imtio.import_from_file and export_to_file *)
Definition import {V} (f : slot) (k : V -> prog V) : prog V := fun s =>
  match dsk s f with Some (Whole v) => k v s | Some Broken => ([], s, Err EOFErr) | None => ([], s, Err GenericErr) end.
Definition export {V} (f : slot) (v : V) : prog V := fun s =>
  let d1 := put (dsk s) f (Some Broken) in
  let d2 := put (dsk s) f (Some (Whole v)) in
  ([d1; d2], mkrun d2 (thr s), Ok tt).

(** the number of threads that the memory allows (168-184); [before] and [after] are the free memories read around the import; GenericErr
    stands for ZeroDivisionError *)
Definition thread_limit (before after thread : Z) : res Z :=
  let filesize := (before - after)%Z in
  raise GenericErr when (filesize * 2 =? 0)%Z ;;
  let copies := Z.quot before (filesize * 2) in
  let copies := if (copies <? 1)%Z then 1%Z else copies in
  Ok (if (copies <? thread)%Z then copies else thread).

Section Protocol.
Context {P V : Type}.
Variable w : work P V.
Variable o : proto P.
(** the two readings of the free memory, in the plain (false) and detailed (true) detections *)
Variable mem : bool -> Z * Z.

(** prepare_data (67-101) *)
Definition prepare_data : prog V :=
  import Raw (fun v => calc (w_clean w (par o) v) (fun c => calc (w_mean w (par o) c) (fun m => seq (export Cln c) (export Mean m)))).
(** pod_decomp (103-120) *)
Definition pod_decomp : prog V := import Cln (fun c => calc (w_pod w (par o) c) (export Pod)).
(** pod_reconstr (122-160) *)
Definition pod_reconstr (det : bool) : prog V := import Pod (fun x => calc (w_rec w (par o) det x) (export (if det then RecDet else Rec))).
(** CP_detection (162-219) *)
Definition CP_detection (det : bool) : prog V :=
  import (if det then RecDet else Rec) (fun r s =>
    match thread_limit (fst (mem det)) (snd (mem det)) (thr s) with
    | Err e => ([], s, Err e)
    | Ok n => calc (w_traj w (par o) n r) (export (if det then TrajDet else Traj)) (mkrun (dsk s) n)
    end).
Definition there (f : slot) (yes no : prog V) : prog V := fun s => match dsk s f with Some _ => yes s | None => no s end.
(** compute_everything (221-260) *)
Definition compute_everything : prog V :=
  seq (there Cln
        (there Pod
          (there Rec
            (there Traj skip (CP_detection false))
            (seq (pod_reconstr false) (CP_detection false)))
          (seq pod_decomp (seq (pod_reconstr false) (CP_detection false))))
        (seq prepare_data (seq pod_decomp (seq (pod_reconstr false) (CP_detection false)))))
      (if detailled o then
         there RecDet
           (there TrajDet skip (CP_detection true))
           (seq (pod_reconstr true) (CP_detection true))
       else skip).
(** recompute_everything (262-268) *)
Definition recompute_everything : prog V := seq prepare_data (seq pod_decomp (seq (pod_reconstr false) (CP_detection false))).
End Protocol.

(** ** Histories *)
Section History.
Context {P V : Type}.
Variable w : work P V.

Inductive action : Set := Compute | Recompute.
Definition start (a : action) (o : proto P) (mem : bool -> Z * Z) (d : disk V) : list (disk V) * running V * res unit :=
  match a with Compute => compute_everything w o mem (mkrun d (threads o)) | Recompute => recompute_everything w o mem (mkrun d (threads o)) end.
Inductive event : Type :=
| Run (a : action) (o : proto P) (mem : bool -> Z * Z)                (** a new protocol object, that runs to its end or its exception *)
| Killed (a : action) (o : proto P) (mem : bool -> Z * Z) (k : nat)   (** killed after [k] files are saved, if it saves as many, and no other is begun *)
| Killed_in (a : action) (o : proto P) (mem : bool -> Z * Z) (k : nat)(** killed while the file after these [k] is written *)
| Delete (f : slot)                                                   (** the user removes a file *)
| Replace (v : V).                                                    (** the user replaces the source *)
Definition after_event (d : disk V) (e : event) : disk V :=
  match e with
  | Run a o mem => dsk (snd (fst (start a o mem d)))
  | Killed a o mem k => let l := d :: fst (fst (start a o mem d)) in nth (2 * k) l (last l d)
  | Killed_in a o mem k => let l := d :: fst (fst (start a o mem d)) in nth (2 * k + 1) l (last l d)
  | Delete f => put d f None
  | Replace v => put d Raw (Some (Whole v))
  end.
Definition history (d : disk V) (l : list event) : disk V := fold_left after_event l d.
End History.
Arguments event : clear implicits.
Arguments Delete {P V} _. Arguments Replace {P V} _. Arguments Run {P V} _ _ _. Arguments Killed {P V} _ _ _ _. Arguments Killed_in {P V} _ _ _ _.
