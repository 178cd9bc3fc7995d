(** * PropClo: the properties C308 to C313: surroundings of a point, local marginal values, text files, consistency of vector fields.
    Statements only; the proofs are in CloProofs*.v.  The vocabulary is in CloSpec. *)
From Coq Require Import Lia QArith Qcanon List.
From Verif Require Import Num Res ListLib SortLib Arr FieldModel ScalarFieldModel VectorFieldModel FieldSpec Concrete ProfileModel ProfileSpec TemporalEx Prof2Model Prof2Spec CloModel CloSpec CloProofs CloProofs2.

(** three columns and four lines *)
Definition ex_vfa : vfa :=
  let l := [zs [1; 2; 3]; zs [4; 5; 6]; zs [7; 8; 9]; zs [10; 11; 12]]%Z in
  mkvfa l l (even_axis 0 (qz 2) 3) (even_axis (qz 1) 1 4) (map (map (fun _ => false)) l) l 0.
Lemma ex_vfa_ok : vfa_ok ex_vfa.
Proof. repeat split; repeat (constructor; [reflexivity|]); constructor. Qed.

(** ** C308: the field around a point is that of the columns and lines at less than half of nmb_lc steps, rounded up, with their values. *)
Theorem C308_around f xc yc n dx dy : vfa_ok f -> 2 <= length (a_x f) -> 2 <= length (a_y f) -> reach (a_x f) n dx -> reach (a_y f) n dy ->
  (exists x, In x (a_x f) /\ closer xc dx x = true) -> (exists y, In y (a_y f) /\ closer yc dy y = true) ->
  let sel {A} := fun t : num * num * A => (closer xc dx (fst (fst t)) && closer yc dy (snd (fst t)))%bool in
  exists r, around_pt f xc yc n = Ok r /\ a_x r = filter (closer xc dx) (a_x f) /\ a_y r = filter (closer yc dy) (a_y f) /\ a_time r = a_time f /\
    cells (a_x r) (a_y r) (a_vx r) = filter sel (cells (a_x f) (a_y f) (a_vx f)) /\
    cells (a_x r) (a_y r) (a_vy r) = filter sel (cells (a_x f) (a_y f) (a_vy f)) /\
    cells (a_x r) (a_y r) (a_mask r) = filter sel (cells (a_x f) (a_y f) (a_mask f)) /\
    cells (a_x r) (a_y r) (a_theta r) = filter sel (cells (a_x f) (a_y f) (a_theta f)).
Proof. exact (around_lemma f xc yc n dx dy). Qed.
Print Assumptions C308_around.
Theorem C308_nothing f xc yc n dx dy : 2 <= length (a_x f) -> 2 <= length (a_y f) -> reach (a_x f) n dx -> reach (a_y f) n dy ->
  (forall x, In x (a_x f) -> closer xc dx x = false) \/ (forall y, In y (a_y f) -> closer yc dy y = false) -> around_pt f xc yc n = Err ValueErr.
Proof. exact (around_none f xc yc n dx dy). Qed.
Print Assumptions C308_nothing.
Example C308_example : vfa_ok ex_vfa /\ reach (a_x ex_vfa) 3 (qz 4) /\ reach (a_y ex_vfa) 3 (qz 2) /\ closer (qz 3) (qz 4) (nths (a_x ex_vfa) 2) = true /\
  closer (qz 1) (qz 2) (nths (a_y ex_vfa) 0) = true /\ closer (qz 1) (qz 2) (nths (a_y ex_vfa) 3) = false /\
  exists r, around_pt ex_vfa (qz 3) (qz 1) 3 = Ok r /\ length (a_x r) = 3 /\ length (a_y r) = 2.
Proof.
  split; [exact ex_vfa_ok|]. split; [exists 2; split; [right; reflexivity|apply Qc_is_canon; vm_compute; reflexivity]|]. split; [exists 2; split; [right; reflexivity|apply Qc_is_canon; vm_compute; reflexivity]|].
  split; [vm_compute; reflexivity|]. split; [vm_compute; reflexivity|]. split; [vm_compute; reflexivity|]. eexists. split; [vm_compute; reflexivity|]. split; reflexivity.
Qed.

(** ** C309: around a node of an even grid, nmb_lc lines and columns are taken.  Refuted when nmb_lc is even. *)
Theorem C309_number_partial f x0 hx nx y0 hy ny i0 j0 m : vfa_ok f -> (0 < hx)%num -> (0 < hy)%num -> 2 <= nx -> 2 <= ny ->
  a_x f = even_axis x0 hx nx -> a_y f = even_axis y0 hy ny -> m <= i0 -> i0 + m < nx -> m <= j0 -> j0 + m < ny ->
  exists r, around_pt f (x0 + qn i0 * hx) (y0 + qn j0 * hy) (2 * m + 1) = Ok r /\
    a_x r = map (fun i => (x0 + qn i * hx)%num) (seq (i0 - m) (2 * m + 1)) /\ a_y r = map (fun j => (y0 + qn j * hy)%num) (seq (j0 - m) (2 * m + 1)).
Proof. exact (count_lemma f x0 hx nx y0 hy ny i0 j0 m). Qed.
Print Assumptions C309_number_partial.
Theorem C309_number_refuted : exists f r, vfa_ok f /\ a_x f = even_axis 0 (qz 2) 3 /\ a_y f = even_axis (qz 1) 1 4 /\
  around_pt f (0 + qn 1 * qz 2)%num (qz 1 + qn 1 * 1)%num 2 = Ok r /\ length (a_x r) = 1 /\ length (a_y r) = 1.
Proof. exists ex_vfa. eexists. split; [exact ex_vfa_ok|]. split; [reflexivity|]. split; [reflexivity|]. split; [vm_compute; reflexivity|]. split; reflexivity. Qed.
Print Assumptions C309_number_refuted.
Example C309_example : vfa_ok ex_vfa /\ (0 < qz 2)%num /\ (0 < 1)%num /\ a_x ex_vfa = even_axis 0 (qz 2) 3 /\ a_y ex_vfa = even_axis (qz 1) 1 4 /\ 1 <= 1 /\ 1 + 1 < 3 /\ 1 <= 2 /\ 2 + 1 < 4.
Proof. split; [exact ex_vfa_ok|]. split; [reflexivity|]. split; [reflexivity|]. split; [reflexivity|]. split; [reflexivity|]. lia. Qed.

(** ** C310: local marginal values.  The points added to the mask are exactly those whose distance to the smoothed profile is further from its
    average than fact standard deviations; nothing else changes, no point is taken out of the mask, and at most one point in fact^2 is added. *)
Theorem C310_masked smooth p s fact : prof_ok p -> smooths smooth p s -> good_unit (puy p) -> (0 <= fact)%num ->
  let L := combine (samples p) (samples s) in
  exists p', remove_local_marginal smooth p fact = Ok p' /\ px p' = px p /\ py p' = py p /\ pux p' = pux p /\ puy p' = puy p /\
    Forall2 (fun st m => m = true <-> smask (fst st) = true \/ marginal fact (known (map residual L)) (residual st)) L (pm p').
Proof. exact (local_lemma smooth p s fact). Qed.
Print Assumptions C310_masked.
Theorem C310_count smooth p s fact : prof_ok p -> smooths smooth p s -> good_unit (puy p) -> (0 <= fact)%num ->
  let K := known (map residual (combine (samples p) (samples s))) in
  exists p' k, remove_local_marginal smooth p fact = Ok p' /\ k = length (filter (fun t => (negb (fst t) && snd t)%bool) (combine (pm p) (pm p'))) /\
    (qn k * (fact * fact) <= qn (length K))%num /\ ((1 <= fact)%num -> 0 < length K -> k < length K).
Proof. exact (local_count smooth p s fact). Qed.
Print Assumptions C310_count.
Definition ex_lp : profile := mkprof (zs [0; 1; 2; 3; 4]%Z) [oz 1; oz 1; None; oz 7; oz 1] [false; false; true; false; false] metre second.
Definition ex_ls : profile := mkprof (zs [0; 1; 2; 3; 4]%Z) [oz 1; oz 1; oz 2; oz 2; oz 1] [false; false; false; false; false] metre second.
Example C310_example : prof_ok ex_lp /\ smooths (fun _ => Ok ex_ls) ex_lp ex_ls /\ good_unit (puy ex_lp) /\ (0 <= 1)%num /\
  exists p', remove_local_marginal (fun _ => Ok ex_ls) ex_lp 1 = Ok p' /\ pm p' = [false; false; true; true; false].
Proof.
  split; [repeat split; apply increasing_nondecreasing; incr|]. split.
  - split; [reflexivity|]. split; [repeat split; apply increasing_nondecreasing; incr|]. split; [|repeat split].
    intros t H. cbn in H. repeat (destruct H as [<-|H]; [reflexivity|]). contradiction.
  - split; [reflexivity|]. split; [discriminate|]. eexists. split; [vm_compute; reflexivity|reflexivity].
Qed.

(** ** C311: vector fields are imported from text files.  Refuted: no call returns a series, since the method that reads a file does not exist. *)
Theorem C311_import_refuted lens kind incr interval times r : import_vfs_ascii lens kind incr interval times <> Ok r.
Proof. exact (ascii_never lens kind incr interval times r). Qed.
Print Assumptions C311_import_refuted.
Theorem C311_attribute_refuted lens kind : lens <> [] -> kind <> KOther -> import_vfs_ascii lens kind 1 None [] = Err AttrErr.
Proof. exact (ascii_default lens kind). Qed.
Print Assumptions C311_attribute_refuted.

(** ** C312: check_consistency accepts exactly the fields whose arrays have the shape of the axes and whose cells are masked or known. *)
Theorem C312_accepts f : vf_check f = Ok tt <-> vf_wf f /\ all_shown f.
Proof. exact (check_lemma f). Qed.
Print Assumptions C312_accepts.
Theorem C312_raises f : vf_check f = Ok tt \/ vf_check f = Err GenericErr.
Proof. exact (check_cases f). Qed.
Print Assumptions C312_raises.
Definition ex_cf (m : bool) : vfield :=
  mkvf (mkgrid (zs [0; 1]%Z) (zs [0; 1]%Z) metre metre) (mkarr 2 2 (fun i j => match i, j with 0, 1 => None | _, _ => oz 1 end)) (mkarr 2 2 (fun _ _ => oz 3)) (mkarr 2 2 (fun i j => match i, j with 0, 1 => m | _, _ => false end)) metre.
Example C312_example : vf_check (ex_cf true) = Ok tt /\ vf_check (ex_cf false) = Err GenericErr.
Proof. split; reflexivity. Qed.

(** ** C313: the fields made by import_from_arrays pass check_consistency.  Refuted when an axis decreases: the mask is not reversed with the
    components. *)
Theorem C313_imported_partial x y vx vy m u w v f : (nths x 0 <= last x (qz 0))%num -> (nths y 0 <= last y (qz 0))%num ->
  vf_import x y vx vy m u w v = Ok f -> vf_check f = Ok tt.
Proof. exact (import_check x y vx vy m u w v f). Qed.
Print Assumptions C313_imported_partial.
Theorem C313_imported_refuted : exists x y vx vy m u w v f, vf_import x y vx vy m u w v = Ok f /\ vf_check f = Err GenericErr.
Proof.
  exists (zs [1; 0]%Z), (zs [0; 1]%Z), (cx (ex_cf true)), (cy (ex_cf true)), (mkarr 2 2 (fun _ _ => false)), metre, metre, metre. eexists. split; [vm_compute; reflexivity|vm_compute; reflexivity].
Qed.
Print Assumptions C313_imported_refuted.
Example C313_example : (nths (zs [0; 1]%Z) 0 <= last (zs [0; 1]%Z) (qz 0))%num /\ exists f, vf_import (zs [0; 1]%Z) (zs [0; 1]%Z) (cx (ex_cf true)) (cy (ex_cf true)) (mkarr 2 2 (fun _ _ => false)) metre metre metre = Ok f /\ at_ (vmsk f) 0 1 = true.
Proof. split; [discriminate|]. eexists. split; [vm_compute; reflexivity|reflexivity]. Qed.
