(** * PropProt: the chain of computations POD_CP_protocol, resumed from its files, for all histories of runs, kills and removed files (C214-C223).
    Statements, examples and counterexamples; the proofs are in ProtProofs*.v.  The vocabulary is in ProtSpec. *)
From Coq Require Import List Bool ZArith.
From Verif Require Import Res ProtModel ProtSpec ProtProofs ProtProofs2 ProtProofs3.
Import ListNotations.

Definition obj (det : bool) (p : nat) : proto nat := mkproto p det 4%Z.
Definition ram (_ : bool) : Z * Z := (1000%Z, 900%Z).
Definition show (d : disk nat) : list (option (content nat)) := map d [Raw; Cln; Mean; Pod; Rec; Traj; RecDet; TrajDet].

(** ** C214 *)
Theorem C214_whenever {P V : Type} (w : work P V) : threads_alike w -> forall p raw (l : list (event P V)), (forall e, In e l -> orderly p e) ->
  forall f, let d := history w (only_source raw) l in d f = None \/ holds w p raw d f.
Proof. exact (prot_sound w). Qed.
Print Assumptions C214_whenever.

Theorem C214_results {P V : Type} (w : work P V) : threads_alike w -> forall p raw (l : list (event P V)) o mem f,
  (forall e, In e l -> orderly p e) -> par o = p -> snd (start w Compute o mem (history w (only_source raw) l)) = Ok tt ->
  In f (results (detailled o)) -> holds w p raw (history w (only_source raw) (l ++ [Run Compute o mem])) f.
Proof. exact (prot_results w). Qed.
Print Assumptions C214_results.

Theorem C214_finishes {P V : Type} (w : work P V) : threads_alike w -> forall raw o mem d, sound w (par o) raw d -> memory_moves mem ->
  (forall f, In f (Mean :: results (detailled o)) -> is_ok (expected w (par o) raw f) = true) -> snd (start w Compute o mem d) = Ok tt.
Proof. exact (prot_finishes w). Qed.
Print Assumptions C214_finishes.

Example C214_example : threads_alike toy /\ memory_moves ram /\
  let l := [Killed Compute (obj false 1) ram 3; Run Compute (obj true 1) ram; Delete Pod; Killed Recompute (obj true 1) ram 1; Delete RecDet] in
  (forall e, In e l -> orderly 1 e) /\
  map (fun n => show (history toy (only_source 5) (firstn n l))) [1; 2; 5] =
    [[Some (Whole 5); Some (Whole 6); Some (Whole 12); Some (Whole 60); None; None; None; None];
     [Some (Whole 5); Some (Whole 6); Some (Whole 12); Some (Whole 60); Some (Whole 61); Some (Whole 1061); Some (Whole 62); Some (Whole 1062)];
     [Some (Whole 5); Some (Whole 6); Some (Whole 12); None; Some (Whole 61); Some (Whole 1061); None; Some (Whole 1062)]] /\
  snd (start toy Compute (obj true 1) ram (history toy (only_source 5) l)) = Ok tt /\
  show (history toy (only_source 5) (l ++ [Run Compute (obj true 1) ram])) =
    [Some (Whole 5); Some (Whole 6); Some (Whole 12); Some (Whole 60); Some (Whole 61); Some (Whole 1061); Some (Whole 62); Some (Whole 1062)].
Proof.
  split; [exact toy_alike|]. split; [intros []; discriminate|]. cbv zeta.
  split; [|repeat split; vm_compute; reflexivity]. intros e H. cbn in H. repeat (destruct H as [<-|H]; [cbn; first [reflexivity|discriminate]|]). contradiction H.
Qed.

(** ** C215 *)
Theorem C215_again {P V : Type} (w : work P V) o mem d o' mem' : snd (start w Compute o mem d) = Ok tt -> (detailled o' = true -> detailled o = true) ->
  let d' := dsk (snd (fst (start w Compute o mem d))) in start w Compute o' mem' d' = ([], mkrun d' (threads o'), Ok tt).
Proof. exact (prot_again w o mem d o' mem'). Qed.
Print Assumptions C215_again.

Example C215_example : let d' := dsk (snd (fst (start toy Compute (obj false 1) ram (only_source 5)))) in
  snd (start toy Compute (obj false 1) ram (only_source 5)) = Ok tt /\ length (fst (fst (start toy Compute (obj false 1) ram (only_source 5)))) = 10 /\
  fst (fst (start toy Compute (obj false 1) ram d')) = [].
Proof. repeat split. Qed.

(** ** C216 *)
Theorem C216_recompute {P V : Type} (w : work P V) o mem d raw : threads_alike w -> d Raw = Some (Whole raw) -> snd (start w Recompute o mem d) = Ok tt ->
  forall f, In f [Cln; Mean; Pod; Rec; Traj] -> holds w (par o) raw (dsk (snd (fst (start w Recompute o mem d)))) f.
Proof. exact (recompute_run w o mem d raw). Qed.
Print Assumptions C216_recompute.

Example C216_example :
  let d := history toy (only_source 5) [Killed_in Compute (obj false 1) ram 2; Replace 7] in
  show d = [Some (Whole 7); Some (Whole 6); Some (Whole 12); Some Broken; None; None; None; None] /\ snd (start toy Recompute (obj false 3) ram d) = Ok tt /\
  show (history toy d [Run Recompute (obj false 3) ram]) = [Some (Whole 7); Some (Whole 10); Some (Whole 20); Some (Whole 100); Some (Whole 101); Some (Whole 3101); None; None].
Proof. repeat split. Qed.

(** ** C217: recompute_everything does not recompute the detailed results *)
Theorem C217_stale_refuted {P V : Type} (w : work P V) o mem raw raw' mem' f : threads_alike w -> snd (start w Compute o mem (only_source raw)) = Ok tt -> detailled o = true -> f = RecDet \/ f = TrajDet ->
  expected w (par o) raw f <> expected w (par o) raw' f -> ~ holds w (par o) raw' (history w (only_source raw) [Run Compute o mem; Replace raw'; Run Recompute o mem']) f.
Proof. exact (prot_details_stale w o mem raw raw' mem' f). Qed.
Print Assumptions C217_stale_refuted.

Example C217_example : let d := history toy (only_source 5) [Run Compute (obj true 1) ram; Replace 8; Run Recompute (obj true 1) ram] in
  snd (start toy Compute (obj true 1) ram (only_source 5)) = Ok tt /\ expected toy 1 5 RecDet = Ok 62 /\ expected toy 1 8 RecDet = Ok 92 /\
  show d = [Some (Whole 8); Some (Whole 9); Some (Whole 18); Some (Whole 90); Some (Whole 91); Some (Whole 1091); Some (Whole 62); Some (Whole 1062)].
Proof. repeat split. Qed.

(** ** C218: a save interrupted by a kill *)
Theorem C218_interrupted_refuted {P V : Type} (w : work P V) o mem raw k : snd (start w Compute o mem (only_source raw)) = Ok tt -> (k < 5)%nat ->
  exists f, In f [Cln; Mean; Pod; Rec; Traj] /\ forall l, (forall e, In e l -> plain_run e) -> history w (only_source raw) (Killed_in Compute o mem k :: l) f = Some Broken.
Proof. exact (prot_broken w o mem raw k). Qed.
Print Assumptions C218_interrupted_refuted.

Theorem C218_stuck_refuted {P V : Type} (w : work P V) d o mem : d Cln = Some Broken -> d Pod = None -> start w Compute o mem d = ([], mkrun d (threads o), Err EOFErr).
Proof. exact (prot_stuck w d o mem). Qed.
Print Assumptions C218_stuck_refuted.

Example C218_example : let d := history toy (only_source 5) [Killed_in Compute (obj false 1) ram 0] in
  d Cln = Some Broken /\ d Pod = None /\ snd (start toy Compute (obj false 1) ram d) = Err EOFErr /\
  let d := history toy (only_source 5) [Killed_in Compute (obj false 1) ram 4] in
  snd (start toy Compute (obj false 1) ram d) = Ok tt /\ history toy d [Run Compute (obj false 1) ram] Traj = Some Broken.
Proof. repeat split. Qed.

(** ** C219: the mean field *)
Theorem C219_mean_refuted {P V : Type} (w : work P V) o mem raw : snd (start w Compute o mem (only_source raw)) = Ok tt ->
  forall l, (forall e, In e l -> plain_run e) -> history w (only_source raw) (Killed Compute o mem 1 :: l) Mean = None.
Proof. exact (prot_mean_lost w o mem raw). Qed.
Print Assumptions C219_mean_refuted.

Example C219_example : show (history toy (only_source 5) [Killed Compute (obj false 1) ram 1; Run Compute (obj false 1) ram]) =
  [Some (Whole 5); Some (Whole 6); None; Some (Whole 60); Some (Whole 61); Some (Whole 1061); None; None].
Proof. reflexivity. Qed.

(** ** C220: a new source or new parameters *)
Theorem C220_unnoticed_refuted {P V : Type} (w : work P V) o mem raw raw' o' mem' : threads_alike w -> snd (start w Compute o mem (only_source raw)) = Ok tt -> (detailled o' = true -> detailled o = true) ->
  let d := history w (only_source raw) [Run Compute o mem; Replace raw'] in
  start w Compute o' mem' d = ([], mkrun d (threads o'), Ok tt) /\ forall f, In f (results (detailled o)) -> holds w (par o) raw (history w d [Run Compute o' mem']) f.
Proof. exact (prot_unnoticed w o mem raw raw' o' mem'). Qed.
Print Assumptions C220_unnoticed_refuted.

Example C220_example : let d := history toy (only_source 5) [Run Compute (obj false 1) ram; Replace 8; Run Compute (obj false 3) ram] in
  expected toy 3 8 Traj = Ok 3111 /\ d Traj = Some (Whole 1061).
Proof. split; reflexivity. Qed.

(** ** C221: the default number of threads *)
Theorem C221_default_refuted {P : Type} (p : P) det : make_proto p det None = Err AttrErr.
Proof. exact eq_refl. Qed.
Print Assumptions C221_default_refuted.

(** ** C222 *)
Theorem C222_threads before after n m : thread_limit before after n = Ok m -> (1 <= n)%Z -> (1 <= m <= n)%Z.
Proof. exact (limit_spec before after n m). Qed.
Print Assumptions C222_threads.

Theorem C222_memory before after n m : thread_limit before after n = Ok m -> (0 <= after < before)%Z -> (1 < m)%Z -> (m * (2 * (before - after)) <= before)%Z.
Proof. exact (limit_memory before after n m). Qed.
Print Assumptions C222_memory.

Example C222_example : thread_limit 1000 900 8 = Ok 5%Z /\ thread_limit 1000 900 2 = Ok 2%Z /\ thread_limit 1000 200 8 = Ok 1%Z /\ thread_limit 1000 1100 8 = Ok 1%Z.
Proof. repeat split. Qed.

(** ** C223: the free memory does not change *)
Theorem C223_same_refuted before n : thread_limit before before n = Err GenericErr.
Proof. exact (limit_zero before n). Qed.
Print Assumptions C223_same_refuted.

Example C223_example : snd (start toy Compute (obj false 1) (fun _ => (1000, 1000)%Z) (only_source 5)) = Err GenericErr /\
  show (history toy (only_source 5) [Run Compute (obj false 1) (fun _ => (1000, 1000)%Z)]) = [Some (Whole 5); Some (Whole 6); Some (Whole 12); Some (Whole 60); Some (Whole 61); None; None; None].
Proof. split; reflexivity. Qed.
