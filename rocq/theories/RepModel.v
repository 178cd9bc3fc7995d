(** * RepModel: the text of a collection of files (IMTreatment/utils/files.py), conditional averages along a mean trajectory
    (IMTreatment/vortex_detection/vortex_detection.py), the modes as a series and their smoothing, the critical energies
    (IMTreatment/pod/pod.py). *)
From Coq Require Import String Ascii DecimalString Reals.
From Verif Require Import Num Res ListLib Arr FieldModel ScalarFieldModel VectorFieldModel ProfileModel TemporalModel PodModel FilesModel StoreModel.
Import ListNotations.
#[local] Open Scope string_scope.
#[local] Open Scope list_scope.

(** ** Files.get_tree_representation (files.py 60-135) *)
(** The decorations (63-84): with colorama the strings carry the codes of colours, without it they do not. *)
Record style : Type := mkstyle { st_tabc : string; st_tab0 : string; st_tab1 : string; st_tab2 : string; st_fold : string; st_file : string; st_num : string }.
Definition plain_style : style := mkstyle "" "|" "|>|" "| " "" "" "".
Definition nl : string := String "010" EmptyString.
(** '{}'.format(n) of an integer *)
Definition dec (n : nat) : string := NilEmpty.string_of_uint (Nat.to_uint n).
(** len and iteration of what is under the key 'files': a list of names, or a dictionary when a folder has this name *)
Definition names_of (it : ditem) : list string := match it with DFiles l => l | DSub d => map fst d end.
(** the number of files, when there are too many (91-95) *)
Definition count_lines (st : style) (mx : Z) (d : list (string * ditem)) : list string :=
  match dget "files" d with
  | Some it => if (Z.of_nat (length (names_of it)) >? mx)%Z
               then [st_tab1 st ++ st_num st ++ "[" ++ dec (length (names_of it)) ++ " Files]" ++ nl] else []
  | None => []
  end%string.
(** the files (105-108) *)
Definition file_lines (st : style) (mx : Z) (d : list (string * ditem)) : list string :=
  match dget "files" d with
  | Some it => if (Z.of_nat (length (names_of it)) <=? mx)%Z
               then map (fun n => st_tab1 st ++ st_file st ++ n ++ nl)%string (names_of it) else []
  | None => []
  end.
(** get_info_for_folder (87-108): the strings that are yielded, in order; TypeError on something else than a dictionary *)
Fixpoint info_item (st : style) (mx : Z) (it : ditem) {struct it} : res (list string) :=
  match it with
  | DFiles _ => Err TypeErr
  | DSub d =>
    let* subs := (fix go (l : list (string * ditem)) : res (list string) :=
      match l with
      | [] => Ok []
      | (k, v) :: r =>
        if String.eqb k "files" then go r
        else let* ls := info_item st mx v in
             let* rest := go r in
             Ok ((st_tab1 st ++ st_fold st ++ k ++ nl)%string :: map (fun x => st_tab2 st ++ x)%string ls ++ rest)
      end) d in
    Ok (count_lines st mx d ++ subs ++ file_lines st mx d)
  end.
(** the folders above all the files (114-124): names, and the folder that is reached *)
Fixpoint top_chain (it : ditem) : list string * ditem :=
  match it with
  | DSub ((k, v) :: nil) => if String.eqb k "files" then ([], it) else let (c, e) := top_chain v in (k :: c, e)
  | _ => ([], it)
  end.
(** text[:-1] (126) *)
Definition drop_last (s : string) : string := String.substring 0 (String.length s - 1) s.
Fixpoint times_str (n : nat) (s : string) : string := match n with 0 => "" | Datatypes.S m => s ++ times_str m s end%string.
(** the heading (125-131); the length of a string is counted in bytes *)
Definition heading (st : style) (c : list string) : string :=
  let text := drop_last (String.concat "" (map (fun k => (k ++ "/")%string) c)) in
  let sep := times_str (String.length text + 2) "=" in
  (st_tab0 st ++ st_tabc st ++ sep ++ st_tab0 st ++ nl ++
   st_tab0 st ++ " " ++ text ++ " " ++ st_tab0 st ++ nl ++
   st_tabc st ++ st_tab0 st ++ st_tabc st ++ sep ++ st_tab0 st ++ nl)%string.
Definition tree_repr (st : style) (mx : Z) (hide : bool) (f : files) : res string :=
  let* d := build_tree f in
  if hide then
    let (c, e) := top_chain (DSub d) in
    let* l := info_item st mx e in Ok (heading st c ++ String.concat "" l)%string
  else let* l := info_item st mx (DSub d) in Ok (String.concat "" l).
(** __repr__ (56-58) *)
Definition files_repr (st : style) (f : files) : res string := tree_repr st 10 true f.

(** ** MeanTrajectory.reconstruct_fields (vortex_detection.py 2590-2613) *)
(** np.where(TF.times == real_t)[0][0] *)
Fixpoint first_time (l : list num) (x : num) : res nat :=
  match l with
  | [] => Err IndexErr
  | y :: r => if qeqb y x then Ok 0 else let* k := first_time r x in Ok (Datatypes.S k)
  end.
(** the sum (2606-2608): += makes a new field, as __iadd__ is not defined *)
Fixpoint sum_at {F} (ops : fops F) (t : tfield F) (acc : F) (inds : list nat) : res F :=
  match inds with
  | [] => Ok acc
  | i :: r => match nth_error (tff t) i with
              | Some f => let* acc' := o_add ops acc f in sum_at ops t acc' r
              | None => Err IndexErr
              end
  end.
Definition cond_average {F} (ops : fops F) (t : tfield F) (reals : list num) : res F :=
  let* inds := mapM (first_time (tft t)) reals in
  match inds with
  | [] => Err IndexErr
  | i :: r => match nth_error (tff t) i with
              | Some f => let* s := sum_at ops t f r in Ok (o_divn ops s (qn (length inds)))
              | None => Err IndexErr
              end
  end.
(** [av] and [reals]: the attributes time and assoc_real_times; [u]: unit_times of the trajectory *)
Definition reconstruct_fields {F} (ops : fops F) (asort : list num -> list nat) (t : tfield F) (av : list num) (reals : list (list num)) (u : unit_t)
  : res (tfield F) :=
  let* fs := mapM (fun p => let* f := cond_average ops t (snd p) in Ok (f, fst p, u)) (combine av reals) in
  out_res (add_all ops asort tf_new fs).

(** ** ModalFields.modes_as_tf (pod.py 140-151): both branches make the same calls; field_class is [F] *)
Definition modes_as_tf {F} (ops : fops F) (asort : list num -> list nat) (m : mfield F) : res (tfield F) :=
  out_res (add_all ops asort tf_new (map (fun p => (snd p, qn (fst p + 1), one_unit)) (combine (seq 0 (length (mf_modes m))) (mf_modes m)))).

(** ** smooth_temporal_evolutions (347-369) and smooth_spatial_evolutions (371-391).  The smoothing of a profile or of a field
    (scipy.ndimage) is a parameter that may fail; the base is left half done when it does. *)
Definition set_evo {F} (m : mfield F) (l : list profile) : mfield F :=
  mkmf (mf_kind m) (mf_mean m) (mf_modes m) (mf_nmb m) l (mf_times m) (mf_ut m) (mf_g m) (mf_uv m) (mf_eigvals m) (mf_eigvects m)
       (mf_ritz m) (mf_norms m) (mf_growth m) (mf_puls m).
Definition set_modes {F} (m : mfield F) (l : list F) : mfield F :=
  mkmf (mf_kind m) (mf_mean m) l (mf_nmb m) (mf_evo m) (mf_times m) (mf_ut m) (mf_g m) (mf_uv m) (mf_eigvals m) (mf_eigvects m)
       (mf_ritz m) (mf_norms m) (mf_growth m) (mf_puls m).
(** l[n].smooth(inplace=True) for n in range(k) *)
Fixpoint smooth_first {A} (smooth : A -> res A) (k : nat) (l : list A) : list A * option exn :=
  match k, l with
  | 0, _ => (l, None)
  | Datatypes.S _, [] => ([], Some IndexErr)
  | Datatypes.S k', a :: r =>
    match smooth a with
    | Ok b => let (r', e) := smooth_first smooth k' r in (b :: r', e)
    | Err e => (l, Some e)
    end
  end.
(** the base after the call, and what is returned: None in place, a new base otherwise *)
Definition smooth_temporal {F} (smooth : profile -> res profile) (inplace : bool) (m : mfield F) : mfield F * res (option (mfield F)) :=
  let (l, e) := smooth_first smooth (length (mf_modes m)) (mf_evo m) in
  if inplace then (set_evo m l, match e with None => Ok None | Some x => Err x end)
  else (m, match e with None => Ok (Some (set_evo m l)) | Some x => Err x end).
(** the copy has no attribute mdes (390) *)
Definition smooth_spatial {F} (smooth : F -> res F) (inplace : bool) (m : mfield F) : mfield F * res (option (mfield F)) :=
  if inplace then
    let (l, e) := smooth_first smooth (length (mf_modes m)) (mf_modes m) in
    (set_modes m l, match e with None => Ok None | Some x => Err x end)
  else (m, match mf_modes m with [] => Ok (Some m) | _ => Err AttrErr end).

(** ** get_critical_kappa (603-617), over the reals; Nx and Ny are numbers of points (0 points: ZeroDivisionError, [GenericErr] here) *)
Definition dec_R (a b : Z) : R := (IZR a / IZR b)%R.
Definition crit_term (a b : R) (n : nat) : R := exp (a / Rpower (INR n) b).
Definition critical_kappa (nx : nat) (ny : option nat) : res R :=
  raise GenericErr when (Nat.eqb nx 0) ;;
  match ny with
  | None => Ok (crit_term (dec_R 957253208 100000000) (dec_R 92940704 100000000) nx - dec_R 98559246 100000000)%R
  | Some m =>
    raise GenericErr when (Nat.eqb m 0) ;;
    let a := dec_R 22885989 1000000 in
    let b := dec_R 1552608 1000000 in
    Ok (crit_term a b nx + crit_term a b m - dec_R 1996703 1000000)%R
  end.
