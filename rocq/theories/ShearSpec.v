(** * ShearSpec: what a user expects of fields of gradients and of shear stresses. *)
From Verif Require Import Num Res ListLib Arr FieldModel ScalarFieldModel VectorFieldModel FieldSpec ProfileModel ProfileSpec GradModel GradSpec ShearModel.

(** v is the slope of the array along x at the cell (i, j): the quotient of the differences between the neighbours (or between the
    point and its neighbour at an end) *)
Definition slope_x (X : list num) (a : arr onum) (i j : nat) (v : onum) : Prop :=
  exists p q u w, stencil (length X) i p /\ stencil (length X) i q /\ lt p q /\ at_ a p j = Some u /\ at_ a q j = Some w /\
    v = Some ((w - u) / (nths X q - nths X p))%num.
Definition slope_y (Y : list num) (a : arr onum) (i j : nat) (v : onum) : Prop :=
  exists p q u w, stencil (length Y) j p /\ stencil (length Y) j q /\ lt p q /\ at_ a i p = Some u /\ at_ a i q = Some w /\
    v = Some ((w - u) / (nths Y q - nths Y p))%num.
(** a point needed for the slopes at (i, j) is masked *)
Definition needs_masked (f : vfield) (i j : nat) : Prop :=
  (exists k, stencil (length (ax (vg f))) i k /\ at_ (vmsk f) k j = true) \/
  (exists k, stencil (length (ay (vg f))) j k /\ at_ (vmsk f) i k = true).
(** the component whose gradient is asked *)
Definition comp_of (d : gdir) (f : vfield) : arr onum := match d with GX => cx f | _ => cy f end.
(** the stress of a newtonian fluid between the wall, at x = 0, and a point where the velocity is y, the velocity being linear *)
Definition linear_stress (rho nu : num) (t : sample) : sample :=
  (sx t, match sy t with Some y => Some (rho * (nu * (y / sx t)))%num | None => None end, smask t).
