(** * PodSpec: what a modal base is for its user.
    A modal base is a mean field and a list of modes, each with a number, a temporal evolution and an eigenvalue. *)
From Coq Require Import Sorted Permutation.
From Verif Require Import Num Res ListLib SortLib Arr FieldModel ScalarFieldModel VectorFieldModel ProfileModel FieldSpec SeqSpec
  ProfileSpec PointsModel PointsSpec TemporalModel TemporalSpec GradModel PodModel.

(** a base that can be used: one number and one evolution per mode, the evolutions are given at the times of the base *)
Definition base_core {F} (mf : mfield F) : Prop :=
  mf_kind mf = Pod /\ mf_modes mf <> [] /\ length (mf_nmb mf) = length (mf_modes mf) /\ length (mf_evo mf) = length (mf_modes mf) /\
  increasing (mf_times mf) /\ mf_times mf <> [] /\ (forall p, In p (mf_evo mf) -> prof_ok p /\ px p = mf_times mf).
(** a base as modal_decomposition builds it: one number, evolution and eigenvalue per mode, the evolutions are given at the
    times of the base, the matrix of the eigenvectors has a row per time and a column per mode *)
Definition base_ok {F} (mf : mfield F) (ev : profile) (vects : list (list num)) : Prop :=
  let n := length (mf_modes mf) in
  mf_kind mf = Pod /\ mf_modes mf <> [] /\ length (mf_nmb mf) = n /\ length (mf_evo mf) = n /\
  increasing (mf_times mf) /\ mf_times mf <> [] /\
  (forall p, In p (mf_evo mf) -> prof_ok p /\ px p = mf_times mf) /\
  mf_eigvals mf = Some ev /\ prof_ok ev /\ increasing (px ev) /\ length (px ev) = n /\
  mf_eigvects mf = Some vects /\ length vects = length (mf_times mf) /\ (forall r, In r vects -> length r = n) /\
  n <= length (mf_times mf).
(** [l] is [a], [b], ... taken in [whole] at the given places *)
Definition taken {A} (places : list nat) (whole l : list A) : Prop := Forall2 (fun k a => nth_error whole k = Some a) places l.
Definition going_up (l : list nat) : Prop := StronglySorted lt l.

(** ** Reconstruction *)
(** what the evolution [p] is worth at time t: its value at a node, or on the line between two consecutive nodes *)
Definition evo_at (p : profile) (t : num) (c : onum) : Prop :=
  (exists i, nth_error (px p) i = Some t /\ nth_error (yv p) i = Some c) \/
  (exists i x0 x1 a b, nth_error (px p) i = Some x0 /\ nth_error (px p) (S i) = Some x1 /\ (x0 < t < x1)%num /\
     nth_error (yv p) i = Some a /\ nth_error (yv p) (S i) = Some b /\
     match a, b with Some y0, Some y1 => exists r, c = Some r /\ on_line x0 x1 t y0 y1 r | _, _ => c = None end).
(** the numbers of a list, when none is NaN *)
Fixpoint numbers (l : list (onum * onum)) : option (list (num * num)) :=
  match l with
  | [] => Some []
  | (Some a, Some b) :: r => option_map (cons (a, b)) (numbers r)
  | _ => None
  end.
(** mean + sum of coefficient * mode; NaN when one of them is *)
Definition combination (mean : onum) (terms : list (onum * onum)) : onum :=
  match mean, numbers terms with
  | Some m, Some l => Some (m + total (map (fun p => fst p * snd p) l))%num
  | _, _ => None
  end.
(** the mean field and all the modes live on the grid of the base *)
Definition sf_base_ok (mf : mfield sfield) : Prop :=
  grid_ok2 (mf_g mf) /\ sg (mf_mean mf) = mf_g mf /\ uv (mf_mean mf) = mf_uv mf /\ sf_wf (mf_mean mf) /\
  (forall f, In f (mf_modes mf) -> sg f = mf_g mf /\ sf_wf f) /\ good_unit (mf_ut mf).
Definition vf_base_ok (mf : mfield vfield) : Prop :=
  grid_ok2 (mf_g mf) /\ vg (mf_mean mf) = mf_g mf /\ vuv (mf_mean mf) = mf_uv mf /\ vf_wf (mf_mean mf) /\
  (forall f, In f (mf_modes mf) -> vg f = mf_g mf /\ vf_wf f) /\ good_unit (mf_ut mf).
(** times, in any order, within the times of the base *)
Definition times_in {F} (mf : mfield F) (ts : list num) : Prop :=
  ts <> [] /\ forall t, In t ts -> (nths (mf_times mf) 0 <= t <= last (mf_times mf) (qz 0))%num.
(** the series [t'] holds the frames [fs] of the times [ts], in the order of time *)
Definition holds {F} (ts : list num) (fs : list F) (t' : tfield F) : Prop :=
  tf_ok t' /\ length fs = length ts /\ Permutation (frames t') (combine ts fs) /\ (increasing ts -> tft t' = ts /\ tff t' = fs).
(** the frame [f] of time [t]: at each cell, the combination of the mean field and of the modes [ks] weighted by their
    evolutions at [t]; masked where the first mode [m0] is, and where the combination is NaN *)
Definition sf_frame (mf : mfield sfield) (m0 : sfield) (ks : list nat) (t : num) (f : sfield) : Prop :=
  sg f = mf_g mf /\ uv f = mf_uv mf /\ sf_wf f /\
  exists modes evos cs, taken ks (mf_modes mf) modes /\ taken ks (mf_evo mf) evos /\ Forall2 (fun p c => evo_at p t c) evos cs /\
    forall i j, i < length (ax (mf_g mf)) -> j < length (ay (mf_g mf)) ->
      let v := combination (at_ (values (mf_mean mf)) i j) (combine (map (fun m => at_ (values m) i j) modes) cs) in
      at_ (msk f) i j = (at_ (msk m0) i j || isnan v)%bool /\
      at_ (values f) i j = (if at_ (msk m0) i j then None else v).
Definition vf_frame (mf : mfield vfield) (m0 : vfield) (ks : list nat) (t : num) (f : vfield) : Prop :=
  vg f = mf_g mf /\ vuv f = mf_uv mf /\ vf_wf f /\
  exists modes evos cs, taken ks (mf_modes mf) modes /\ taken ks (mf_evo mf) evos /\ Forall2 (fun p c => evo_at p t c) evos cs /\
    forall i j, i < length (ax (mf_g mf)) -> j < length (ay (mf_g mf)) ->
      let vx := combination (at_ (cx (mf_mean mf)) i j) (combine (map (fun m => at_ (cx m) i j) modes) cs) in
      let vy := combination (at_ (cy (mf_mean mf)) i j) (combine (map (fun m => at_ (cy m) i j) modes) cs) in
      at_ (vmsk f) i j = (at_ (vmsk m0) i j || isnan vx || isnan vy)%bool /\
      at_ (cx f) i j = (if at_ (vmsk f) i j then None else vx) /\ at_ (cy f) i j = (if at_ (vmsk f) i j then None else vy).

(** ** Eigen-decomposition of the snapshots.  [sumn n f] = f 0 + ... + f (n-1) *)
Fixpoint sumn (n : nat) (f : nat -> num) : num := match n with 0 => 0%num | S k => (sumn k f + f k)%num end.
(** the snapshots hold no NaN: number k, component c, cell (i, j) holds S k c i j *)
Definition snapshots_are (nc nx ny T : nat) (snaps : list (list (arr onum))) (s : nat -> nat -> nat -> nat -> num) : Prop :=
  length snaps = T /\ forall k, k < T -> exists comps, nth_error snaps k = Some comps /\ length comps = nc /\
    forall c, c < nc -> exists a, nth_error comps c = Some a /\ has_shape a nx ny /\
      forall i j, i < nx -> j < ny -> at_ a i j = Some (s k c i j).
(** the scalar product of two snapshots *)
Definition dot (nc nx ny : nat) (a b : nat -> nat -> nat -> num) : num :=
  sumn nc (fun c => sumn nx (fun i => sumn ny (fun j => a c i j * b c i j)%num)).
(** [sol] is the proper orthogonal decomposition of the snapshots: the eigenvectors of the matrix of their scalar products form
    an orthonormal basis, those of non null eigenvalues come first and only they are kept, and mode n is the sum of the
    snapshots weighted by eigenvector n, divided by the square root of eigenvalue n *)
Definition is_pod (root : num -> num) (nc nx ny T : nat) (s : nat -> nat -> nat -> nat -> num) (sol : solved) : Prop :=
  exists (N : nat) (lam : nat -> num) (V : nat -> nat -> num),
    N <= T /\ s_vals sol = map lam (seq 0 N) /\ s_vects sol = map (fun k => map (V k) (seq 0 N)) (seq 0 T) /\
    (forall k l, k < T -> l < T -> sumn T (fun n => V k n * V l n)%num = if Nat.eqb k l then 1%num else 0%num) /\
    (forall n p, n < T -> p < T -> sumn T (fun k => V k n * V k p)%num = if Nat.eqb n p then 1%num else 0%num) /\
    (forall n k, n < T -> k < T -> sumn T (fun l => dot nc nx ny (s k) (s l) * V l n)%num = (lam n * V k n)%num) /\
    (forall n, n < N -> lam n <> 0%num /\ (root (lam n) * root (lam n) = lam n)%num) /\
    (forall n, N <= n -> n < T -> lam n = 0%num) /\
    (forall n, n < N -> length (s_mode sol n) = nc /\ forall c, c < nc -> exists a, nth_error (s_mode sol n) c = Some a /\ has_shape a nx ny /\
       forall i j, i < nx -> j < ny -> at_ a i j = Some (sumn T (fun k => s k c i j * V k n) / root (lam n))%num).
(** no masked cell and no NaN *)
Definition sf_full (f : sfield) : Prop :=
  forall i j, i < length (ax (sg f)) -> j < length (ay (sg f)) -> at_ (msk f) i j = false /\ exists v, at_ (raw f) i j = Some v.
Definition vf_full (f : vfield) : Prop :=
  forall i j, i < length (ax (vg f)) -> j < length (ay (vg f)) -> at_ (vmsk f) i j = false /\ exists u v, at_ (cx f) i j = Some u /\ at_ (cy f) i j = Some v.
(** the places of the modes that [w] designates among [n] modes: all of them, the first ones, or the listed ones *)
Definition selects (n : nat) (w : wsel) (places : list nat) : Prop :=
  match w with
  | WAll => places = seq 0 n
  | WInt k => places = seq 0 (Z.to_nat k) /\ Z.to_nat k <= n
  | WArr l => l <> [] /\ Forall2 (designates n) l places
  end.
(** [r] = a + b - m, NaN when one of them is *)
Definition adds_up (a b m r : onum) : Prop :=
  match a, b, m with Some x, Some y, Some z => r = Some (x + y - z)%num | _, _, _ => r = None end.
(** ** Energy of a mode without NaN: the mean over the n cells of half the squared magnitude, times the mean over the times of the squared coefficient *)
Definition sf_energy (f : sfield) (p : profile) (e : num) : Prop :=
  exists v c : list num, flatten (values f) = map Some v /\ yv p = map Some c /\
    (e * (2 * qn (length v)) * qn (length c) = total (map (fun x => x * x) v) * total (map (fun x => x * x) c))%num.
Definition vf_energy (f : vfield) (p : profile) (e : num) : Prop :=
  exists x y c : list num, flatten (cx f) = map Some x /\ flatten (cy f) = map Some y /\ yv p = map Some c /\
    (e * (2 * qn (length x)) * qn (length c) = (total (map (fun a => a * a) x) + total (map (fun a => a * a) y)) * total (map (fun a => a * a) c))%num.
(** no NaN in the evolutions *)
Definition evo_full {F} (mf : mfield F) : Prop := forall p, In p (mf_evo mf) -> forall c, In c (yv p) -> c <> None.
(** ** Series without masked value.  Frame k holds v k i j at cell (i, j); all the frames have the unit [u] *)
Definition sf_frames_are (t : tfield sfield) (u : unit_t) (v : nat -> nat -> nat -> num) : Prop :=
  forall k f, nth_error (tff t) k = Some f -> sf_wf f /\ sg f = tfg t /\ uv f = u /\
    forall i j, i < length (ax (tfg t)) -> j < length (ay (tfg t)) -> at_ (msk f) i j = false /\ at_ (raw f) i j = Some (v k i j).
(** frame k holds the vector (v k 0 i j, v k 1 i j) *)
Definition vf_frames_are (t : tfield vfield) (u : unit_t) (v : nat -> nat -> nat -> nat -> num) : Prop :=
  forall k f, nth_error (tff t) k = Some f -> vf_wf f /\ vg f = tfg t /\ vuv f = u /\
    forall i j, i < length (ax (tfg t)) -> j < length (ay (tfg t)) ->
      at_ (vmsk f) i j = false /\ at_ (cx f) i j = Some (v k 0 i j) /\ at_ (cy f) i j = Some (v k 1 i j).
(** the value minus the average over the T frames *)
Definition deviation (T : nat) (v : nat -> num) (k : nat) : num := (v k - sumn T v / qn T)%num.
(** ** The result of the decomposition: mode n is the sum of the deviations weighted by eigenvector n, divided by the root of eigenvalue n,
    its coefficient at time k is the entry k of the eigenvector times this root *)
Definition sf_mode_is (root : num -> num) (g : grid) (T : nat) (s : nat -> nat -> nat -> nat -> num) (lam : nat -> num) (V : nat -> nat -> num) (n : nat) (f : sfield) : Prop :=
  sg f = g /\ sf_wf f /\ forall i j, i < length (ax g) -> j < length (ay g) -> at_ (msk f) i j = false /\
    at_ (values f) i j = Some (sumn T (fun k => s k 0%nat i j * V k n) / root (lam n))%num.
Definition vf_mode_is (root : num -> num) (g : grid) (T : nat) (s : nat -> nat -> nat -> nat -> num) (lam : nat -> num) (V : nat -> nat -> num) (n : nat) (f : vfield) : Prop :=
  vg f = g /\ vf_wf f /\ forall i j, i < length (ax g) -> j < length (ay g) -> at_ (vmsk f) i j = false /\
    at_ (cx f) i j = Some (sumn T (fun k => s k 0%nat i j * V k n) / root (lam n))%num /\
    at_ (cy f) i j = Some (sumn T (fun k => s k 1%nat i j * V k n) / root (lam n))%num.
Definition evo_is (root : num -> num) (ts : list num) (T : nat) (lam : nat -> num) (V : nat -> nat -> num) (n : nat) (p : profile) : Prop :=
  prof_ok p /\ px p = ts /\ yv p = map Some (map (fun k => V k n * root (lam n))%num (seq 0 T)).
(** the eigenvalues and eigenvectors of [is_pod] *)
Definition pod_facts (root : num -> num) (nc nx ny T : nat) (s : nat -> nat -> nat -> nat -> num) (N : nat) (lam : nat -> num) (V : nat -> nat -> num) : Prop :=
  (forall k l, k < T -> l < T -> sumn T (fun n => V k n * V l n)%num = if Nat.eqb k l then 1%num else 0%num) /\
  (forall n p, n < T -> p < T -> sumn T (fun k => V k n * V k p)%num = if Nat.eqb n p then 1%num else 0%num) /\
  (forall n k, n < T -> k < T -> sumn T (fun l => dot nc nx ny (s k) (s l) * V l n)%num = (lam n * V k n)%num) /\
  (forall n, n < N -> lam n <> 0%num /\ (root (lam n) * root (lam n) = lam n)%num) /\
  (forall n, N <= n -> n < T -> lam n = 0%num).
