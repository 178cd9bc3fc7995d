(** * PropRep: the properties C301 to C307: the text of a collection of files, conditional averages, modes, critical energies.
    Statements, examples and counterexamples; the proofs are in RepProofs.v to RepProofs4.v.  The vocabulary is in RepSpec. *)
From Coq Require Import String Reals Lra Lia Permutation.
From Verif Require Import Num Res ListLib SortLib SeqSpec Arr FieldModel ScalarFieldModel VectorFieldModel ProfileModel Concrete PointsModel PointsSpec TemporalModel TemporalSpec TemporalEx
  PodModel PodEx FilesModel FilesSpec StoreModel StoreSpec RepModel RepSpec RepProofs RepProofs2 RepProofs3 RepProofs4.
Import ListNotations.
Close Scope R_scope.
Open Scope string_scope.
Open Scope list_scope.

(** ** C301: the text of a collection shows each folder and each file once, under its folder *)
Theorem C301_text_partial st mx f :
  plain_files f -> (0 <= mx)%Z ->
  exists l fs, tree_repr st mx false f = Ok (String.concat "" l) /\ NoDup fs /\ (forall p, In p fs <-> p <> [] /\ folder_of f p) /\
    Permutation l (files_lines st mx (names_at f) [] ++ flat_map (folder_lines st mx (names_at f)) fs) /\
    forall p, In p fs -> exists a c b gs, l = a ++ folder_line st p :: c ++ b /\ NoDup gs /\
      (forall q, In q gs <-> exists r, r <> [] /\ q = p ++ r /\ folder_of f q) /\
      Permutation c (files_lines st mx (names_at f) p ++ flat_map (folder_lines st mx (names_at f)) gs).
Proof. exact (text_lemma st mx f). Qed.
Print Assumptions C301_text_partial.

(** a file in a folder that is called 'files' is not shown *)
Theorem C301_files_refuted :
  exists f t, files_ok f /\ NoDup (fpaths f) /\ In ["files"; "a"] (fpaths f) /\ tree_repr plain_style 10 false f = Ok t /\ t = ("|>|files" ++ nl)%string.
Proof. exact hidden_files. Qed.
Print Assumptions C301_files_refuted.

Example C301_example : plain_files shown_files /\
  tree_repr plain_style 2 false shown_files = Ok ("|>|d" ++ nl ++ "| |>|s" ++ nl ++ "| | |>|b" ++ nl ++ "| |>|e" ++ nl ++ "| |>|a" ++ nl ++ "| |>|c" ++ nl)%string.
Proof. split; apply shown_example. Qed.

(** ** C302: the heading is the deepest folder above everything, and the text below shows what is in it *)
Theorem C302_heading_partial st mx f :
  plain_files f -> (0 <= mx)%Z ->
  exists c l fs, tree_repr st mx true f = Ok (title st (String.concat "/" c) ++ String.concat "" l)%string /\ folder_of f c /\
    (forall p, folder_of f p -> (exists r, p = c ++ r) \/ exists r, c = p ++ r /\ r <> [] /\ names_at f p = []) /\
    (names_at f c <> [] \/ (forall n, ~ folder_of f (c ++ [n])) \/ exists m n, m <> n /\ folder_of f (c ++ [m]) /\ folder_of f (c ++ [n])) /\
    NoDup fs /\ (forall p, In p fs <-> p <> [] /\ folder_of f (c ++ p)) /\
    Permutation l (files_lines st mx (fun p => names_at f (c ++ p)) [] ++ flat_map (folder_lines st mx (fun p => names_at f (c ++ p))) fs).
Proof. exact (heading_lemma st mx f). Qed.
Print Assumptions C302_heading_partial.

(** with a folder that is called 'files' the heading is empty and the file is not shown *)
Theorem C302_files_refuted :
  exists f, files_ok f /\ NoDup (fpaths f) /\ fpaths f = [["files"; "a"]] /\ files_repr plain_style f = Ok (title plain_style "" ++ "|>|files" ++ nl)%string.
Proof.
  exists {| fpaths := [["files"; "a"]]; fexist := [true]; fisdir := [Some false] |}. split; [repeat split|]. split; [repeat constructor; intros []|]. split; reflexivity.
Qed.
Print Assumptions C302_files_refuted.

Example C302_example : plain_files shown_files /\
  tree_repr plain_style 1 true shown_files =
    Ok ("|===|" ++ nl ++ "| d |" ++ nl ++ "|===|" ++ nl ++ "|>|[2 Files]" ++ nl ++ "|>|s" ++ nl ++ "| |>|b" ++ nl ++ "|>|e" ++ nl)%string.
Proof. split; apply shown_example. Qed.

(** ** C303: each averaged time of a mean trajectory gets the average of the fields at its real times *)
Theorem C303_average_partial t asort av reals u :
  is_argsort asort -> sf_series_ok t -> tf_ok t -> (0 < sc u)%num -> length av = length reals -> av <> [] ->
  (forall xs, In xs reals -> xs <> [] /\ forall x, In x xs -> In x (tft t)) ->
  exists r gs, reconstruct_fields sf_ops asort t av reals u = Ok r /\ tf_ok r /\ tfu r = u /\ tfg r = tfg t /\
    Forall2 (average_at t) reals gs /\ Permutation (frames r) (combine av gs).
Proof. exact (reconstruct_lemma t asort av reals u). Qed.
Print Assumptions C303_average_partial.

Theorem C303_missing_partial t asort av reals u :
  sf_series_ok t -> tf_ok t -> length av = length reals ->
  (exists xs, In xs reals /\ (xs = [] \/ exists x, In x xs /\ ~ In x (tft t))) ->
  reconstruct_fields sf_ops asort t av reals u = Err IndexErr.
Proof. exact (reconstruct_missing t asort av reals u). Qed.
Print Assumptions C303_missing_partial.

(** the unit of the times of the series is not looked at: the frame at 1 ms is taken for the one at 1 s *)
Definition ms_t : tfield sfield := mktf g22 [fr (oz 1) (oz 2) (oz 3) None; fr (oz 5) (oz 6) (oz 4) None] true (zs [1; 1000]%Z) millisecond.
Theorem C303_units_refuted :
  exists r, sf_series_ok ms_t /\ tf_ok ms_t /\ reconstruct_fields sf_ops argsort ms_t [qz 1] [[qz 1]] second = Ok r /\
    (qz 1 * sc second = qz 1000 * sc (tfu ms_t))%num /\
    map (fun f => at_ (values f) 0 0) (tff r) = [oz 1] /\ map (fun f => at_ (values f) 0 0) (tff ms_t) = [oz 1; oz 5].
Proof.
  destruct (ok_ex (reconstruct_fields sf_ops argsort ms_t [qz 1] [[qz 1]] second) (fun r => oseqb (map (fun f => at_ (values f) 0 0) (tff r)) [oz 1])) as (r & E & H); [vmr|].
  exists r. split; [|split; [|split; [exact E|split; [apply Qc_is_canon; vm_compute; reflexivity|split; [now apply oseqb_eq|reflexivity]]]]].
  - split; [exact g22_ok|]. split; [each_frame_tac; reflexivity|]. split.
    + each_frame_tac; (split; [repeat split|split; [apply clean_b_ok; reflexivity|reflexivity]]).
    + intros f h I. revert f I h. each_frame_tac; each_frame_tac; reflexivity.
  - split; [reflexivity|]. apply increasing_nondecreasing. incr.
Qed.
Print Assumptions C303_units_refuted.

Example C303_example : sf_series_ok ex_t /\ tf_ok ex_t /\ (forall x, In x (zs [0; 3]%Z) -> In x (tft ex_t)) /\
  exists r, reconstruct_fields sf_ops argsort ex_t (zs [5; 2]%Z) [zs [0; 3]%Z; zs [1; 3; 4]%Z] second = Ok r /\
    oseqb (map (fun f => at_ (values f) 0 0) (tff r)) [Some (qq 11 3); Some (qq 7 2)] = true.
Proof.
  split; [exact ex_t_series|]. split; [exact ex_t_ok|]. split; [cbn; tauto|].
  apply (ok_ex _ (fun r => oseqb (map (fun f => at_ (values f) 0 0) (tff r)) [Some (qq 11 3); Some (qq 7 2)])). vmr.
Qed.

(** ** C304: the modes as a series: the mode n at the time n *)
Theorem C304_modes {F} (ops : fops F) asort m g :
  is_argsort asort -> mf_modes m <> [] -> (forall f, In f (mf_modes m) -> o_grid ops f = g) ->
  exists t, modes_as_tf ops asort m = Ok t /\ tff t = mf_modes m /\ length (tft t) = length (mf_modes m) /\ tfg t = g /\ tfu t = one_unit /\
    forall i, (i < length (mf_modes m))%nat -> nth_error (tft t) i = Some (qz (Z.of_nat i + 1)).
Proof.
  intros AS NE HG. eexists. split; [exact (modes_lemma ops asort m g AS NE HG)|]. cbn [tff tft tfg tfu]. rewrite map_length, seq_length. repeat (split; [reflexivity|]).
  intros i Hi. rewrite nth_error_map. rewrite (nth_error_nth' _ 0) by (now rewrite seq_length). rewrite seq_nth by exact Hi. cbn [option_map]. unfold qn. do 2 f_equal. lia.
Qed.
Print Assumptions C304_modes.

Example C304_example : is_argsort argsort /\ mf_modes ex_base <> [] /\ exists g, forall f, In f (mf_modes ex_base) -> o_grid sf_ops f = g.
Proof. split; [exact argsort_is|]. split; [discriminate|]. eexists. intros f I. cbn in I. repeat (destruct I as [<-|I]; [reflexivity|]). destruct I. Qed.

(** ** C305: smoothing of the temporal evolutions *)
Theorem C305_smoothed {F} smooth (m : mfield F) l' :
  length (mf_evo m) = length (mf_modes m) -> Forall2 (fun a b => smooth a = Ok b) (mf_evo m) l' ->
  exists m', smooth_temporal smooth true m = (m', Ok None) /\ smooth_temporal smooth false m = (m, Ok (Some m')) /\ mf_evo m' = l' /\ same_but_evo m m'.
Proof. intros L H. destruct (smooth_temporal_lemma smooth m l' L H) as [A B]. exists (set_evo m l'). split; [exact A|]. split; [exact B|]. split; reflexivity. Qed.
Print Assumptions C305_smoothed.

(** ** C306: smoothing of the modes *)
Theorem C306_smoothed_partial {F} (smooth : F -> res F) (m : mfield F) l' :
  Forall2 (fun a b => smooth a = Ok b) (mf_modes m) l' ->
  exists m', smooth_spatial smooth true m = (m', Ok None) /\ mf_modes m' = l' /\ same_but_modes m m'.
Proof. intro H. exists (set_modes m l'). split; [now apply smooth_spatial_lemma|]. split; reflexivity. Qed.
Print Assumptions C306_smoothed_partial.

(** a copy is never made when there is a mode *)
Theorem C306_copy_refuted {F} (smooth : F -> res F) (m : mfield F) : mf_modes m <> [] -> smooth_spatial smooth false m = (m, Err AttrErr).
Proof. intro N. unfold smooth_spatial. destruct (mf_modes m); [congruence|reflexivity]. Qed.
Print Assumptions C306_copy_refuted.

Example C306_example : mf_modes ex_base <> [] /\ Forall2 (fun a b => Ok (sf_neg a) = Ok b) (mf_modes ex_base) (map sf_neg (mf_modes ex_base)) /\
  length (mf_evo ex_base) = length (mf_modes ex_base) /\ Forall2 (fun a b : profile => Ok a = Ok b) (mf_evo ex_base) (mf_evo ex_base).
Proof. split; [discriminate|]. split; [repeat constructor|]. split; [reflexivity|repeat constructor]. Qed.

(** ** C307: the critical energy decreases with the number of points *)
Open Scope R_scope.
Theorem C307_line n m k : (0 < n)%nat -> (n < m)%nat -> critical_kappa n None = Ok k -> exists k', critical_kappa m None = Ok k' /\ 0 < k' < k.
Proof. exact (kappa_1d n m k). Qed.
Print Assumptions C307_line.

Theorem C307_plane n m n' m' k :
  (0 < n <= n')%nat -> (0 < m <= m')%nat -> (n + m < n' + m')%nat -> critical_kappa n (Some m) = Ok k ->
  exists k', critical_kappa n' (Some m') = Ok k' /\ 0 < k' < k /\ critical_kappa m' (Some n') = Ok k'.
Proof. exact (kappa_2d n m n' m' k). Qed.
Print Assumptions C307_plane.

Theorem C307_defined n m : (0 < n)%nat -> (0 < m)%nat ->
  (exists k, critical_kappa n None = Ok k /\ 0 < k) /\ exists k, critical_kappa n (Some m) = Ok k /\ 0 < k.
Proof. exact (kappa_defined n m). Qed.
Print Assumptions C307_defined.

(** the level it goes to: 1 - 0.98559246 *)
Theorem C307_floor eps : 0 < eps -> exists n0, (0 < n0)%nat /\ forall n, (n0 <= n)%nat ->
  exists k, critical_kappa n None = Ok k /\ 1 - 98559246 / 100000000 < k < 1 - 98559246 / 100000000 + eps.
Proof. exact (kappa_floor eps). Qed.
Print Assumptions C307_floor.

Example C307_example : exists k, critical_kappa 10 None = Ok k.
Proof. destruct (kappa_defined 10 10 ltac:(lia) ltac:(lia)) as [(k & E & _) _]. eauto. Qed.
