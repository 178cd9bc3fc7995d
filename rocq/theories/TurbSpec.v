(** * TurbSpec: statistics of the fluctuations at a point, written from the physical values of the frames *)
From Verif Require Import Num Res ListLib Arr FieldModel ScalarFieldModel VectorFieldModel FieldSpec PointsSpec TemporalModel TemporalSpec.

(** the component [c] of [f] at cell (i, j) in base units, unless it is masked there *)
Definition phys (c : vfield -> arr onum) (f : vfield) (i j : nat) : option num :=
  if at_ (vmsk f) i j then None else option_map (fun v => v * sc (vuv f))%num (at_ (c f) i j).
(** its deviation from the field [m] *)
Definition dev (c : vfield -> arr onum) (m f : vfield) (i j : nat) : option num :=
  match phys c f i j, phys c m i j with Some a, Some b => Some (a - b)%num | _, _ => None end.
(** one number per frame of [l] for which both are known *)
Definition known2 (h : num -> num -> num) (a b : vfield -> option num) (l : list vfield) : list num :=
  flat_map (fun f => match a f, b f with Some x, Some y => [h x y] | _, _ => [] end) l.
Definition dev_products (c d : vfield -> arr onum) (m : vfield) (l : list vfield) (i j : nat) : list num :=
  known2 Qcmult (fun f => dev c m f i j) (fun f => dev d m f i j) l.
Definition energy (x y : num) : num := ((x * x + y * y) / 2)%num.
(** kinetic energies of the fluctuations, and of the whole motion *)
Definition dev_energies (m : vfield) (l : list vfield) (i j : nat) : list num :=
  known2 energy (fun f => dev cx m f i j) (fun f => dev cy m f i j) l.
Definition energies (l : list vfield) (i j : nat) : list num := known2 energy (fun f => phys cx f i j) (fun f => phys cy f i j) l.
(** all the frames give their values in the same unit *)
Definition one_unit_for (t : tfield vfield) (u : unit_t) : Prop := forall f, In f (tff t) -> vuv f = u.
(** the field [r] shows the average of [l i j] where it has more than [n] values, and is masked elsewhere *)
Definition shows_averages (r : sfield) (g : grid) (l : nat -> nat -> list num) (n : Z) : Prop :=
  sg r = g /\ sf_wf r /\ forall i j, i < length (ax g) -> j < length (ay g) ->
    (at_ (msk r) i j = true <-> (Z.of_nat (length (l i j)) <= n)%Z) /\
    (at_ (msk r) i j = false -> average_of (l i j) (uv r) (at_ (values r) i j)).
(** mean over the cells of the scalar product of two fields without masked value *)
Definition mean_product (f h : vfield) (v : num) : Prop :=
  exists l, length l = d0 (cx f) * d1 (cx f) /\ l <> [] /\ (v * qn (length l) = total l)%num /\
    Forall2 (fun p x => exists a b c d, at_ (cx f) (fst p) (snd p) = Some a /\ at_ (cx h) (fst p) (snd p) = Some b /\
                          at_ (cy f) (fst p) (snd p) = Some c /\ at_ (cy h) (fst p) (snd p) = Some d /\ x = (a * b + c * d)%num)
      (list_prod (seq 0 (d0 (cx f))) (seq 0 (d1 (cx f)))) l.
(** frame by frame, at the same times *)
Definition frame_by_frame {F G} (R : F -> G -> Prop) (t : tfield F) (e : tfield G) : Prop :=
  Forall2 (fun a b => fst b = fst a /\ R (snd a) (snd b)) (frames t) (frames e).
(** [e] shows in base units the value [v i j], and is masked where there is none *)
Definition shows_energy (g : grid) (v : nat -> nat -> option num) (e : sfield) : Prop :=
  sg e = g /\ sf_wf e /\ forall i j, i < length (ax g) -> j < length (ay g) ->
    (at_ (msk e) i j = true <-> v i j = None) /\
    (forall x, v i j = Some x -> exists y, at_ (values e) i j = Some y /\ (y * sc (uv e) = x)%num).
Definition both_energy (a b : option num) : option num := match a, b with Some x, Some y => Some (energy x y) | _, _ => None end.
(** no value of the field is masked *)
Definition nothing_masked (f : vfield) : Prop := forall i j, i < length (ax (vg f)) -> j < length (ay (vg f)) -> at_ (vmsk f) i j = false.
Definition something_masked (f : vfield) : Prop := exists i j, i < length (ax (vg f)) /\ j < length (ay (vg f)) /\ at_ (vmsk f) i j = true.
