(** * LayModel: the boundary layers of Blasius (boundary_layer/boundary_layer.py 36-298) and Thwaites (516-622), over the real numbers.
    Parameters: scipy's odeint and quad. *)
From Coq Require Import Reals List Bool ZArith Lra.
From Verif Require Import Res.
Import ListNotations.
#[local] Open Scope R_scope.

(** x**a for x >= 0 and a > 0 (np.power, 133-144, and **, 293, 545, 564): 0**a is 0.  Negative x give nan in python; they are outside the theorems. *)
Definition pw (x a : R) : R := if Req_EM_T x 0 then 0 else Rpower x a.
Definition ltb (x y : R) : bool := if Rlt_dec x y then true else false.
Definition eqb (x y : R) : bool := if Req_EM_T x y then true else false.

(** the attributes (49-63) *)
Record blasius := mkbl { Uinf : R; nu : R; rho : R }.
(** get_Rex (65-73): the warning is only displayed *)
Definition get_Rex (b : blasius) (x : R) : R := Uinf b * x / nu b.

(** ** get_BL_properties (75-157).  One record per position; H (119) is 2.59 everywhere.  'bl_perc' (109-114).
    NotImplementedError (141) is [GenericErr]. *)
Inductive perc := P95 | P99 | POther.
Record layer := mklayer { delta : R; delta2 : R; delta_star : R; shape : R; Cf : R; Rex : R; tau_w : R }.
Definition bl_at (b : blasius) (turb : bool) (p : perc) (coef x : R) : res layer :=
  if eqb x 0 then Ok (mklayer 0 0 0 2.59 0 0 0)                        (* 124-130 *)
  else
    let re := Uinf b * x / nu b in
    if (ltb re 500000 && negb turb)%bool then                          (* 133-138 *)
      let d2 := 0.664 * pw (nu b * x / Uinf b) 0.5 in
      let cf := 0.664 / pw re 0.5 in
      Ok (mklayer (x * coef / pw re 0.5) d2 (d2 * 2.59) 2.59 cf re (cf * 1 / 2 * rho b * Uinf b ^ 2))
    else
      raise GenericErr when (match p with P95 => true | _ => false end) ;;  (* 140-141 *)
      let cf := 0.0592 / pw re 0.2 in
      Ok (mklayer (x * 0.3806 / pw re 0.2) 0 (0 * 2.59) 2.59 cf re (cf * 1 / 2 * rho b * Uinf b ^ 2)).  (* 142-146 *)
Definition get_BL_properties (b : blasius) (xs : list R) (turb : bool) (p : perc) : res (list layer) :=
  match p with
  | POther => Err ValueErr
  | _ => mapM (bl_at b turb p (match p with P95 => 3.92 | _ => 4.91 end)) xs
  end.

(** ** get_thickness_with_confinement (160-194), h a number; the pairs (x, delta) given to the constructor of Profile *)
Definition with_confinement (b : blasius) (xs : list R) (h : R) (turb : bool) : res (list (R * R)) :=
  let* ls := get_BL_properties b xs turb P99 in
  Ok (combine xs (map (fun l => delta l * (1 - 0.26547 * delta l / h)) ls)).

(** ** get_x_from_delta (286-296) *)
Definition get_x_from_delta (b : blasius) (d : R) (turb : bool) : R :=
  let xpos := d ^ 2 * Uinf b / (4.92 ^ 2 * nu b) in
  if (ltb 500000 (get_Rex b xpos) || turb)%bool
  then pw (d * pw (Uinf b) 0.2 / (0.3806 * pw (nu b) 0.2)) (1 / 0.8)
  else xpos.

(** ** get_profile (196-253), y given as an array; the pairs (y, u) given to the constructor of Profile.  [odeint] gives the three
    components of the solution at each value of theta; np.sqrt is [sqrt].  The turbulent branch calls self.get_thickness, which no
    class defines (244). *)
Definition state : Type := (R * R * R)%type.
Definition f_deriv (F : state) : state := let '(a, b, c) := F in (b, c, - (1 / 2) * a * c).
Definition get_profile (odeint : (state -> state) -> state -> list R -> list state) (b : blasius) (x : R) (y : list R) (turb : bool) : res (list (R * R)) :=
  if turb then Err AttrErr
  else
    let theta := map (fun v => v / (sqrt x * sqrt (nu b / Uinf b))) y in
    let sol := odeint f_deriv (0, 0, 0.332) theta in
    Ok (combine y (map (fun s : state => snd (fst s) * Uinf b) sol)).

(** ** ThwaitesBL: u_e_pow and get_momentum_thikness (540-577).  None is the value given when the external velocity is null; in arrays
    it becomes nan (574). *)
Definition momentum (quad : (R -> R) -> R -> R -> R) (ue : R -> R) (nu x : R) : option R :=
  let res := quad (fun t => pw (ue t) (5.68 - 1)) 0 x in
  let denom := pw (ue x) 5.68 in
  if eqb denom 0 then None else Some (pw (0.441 * nu / denom * res) 0.5).
(** np.gradient of an array, without spacing (605) *)
Definition np_gradient (l : list R) : res (list R) :=
  let n := length l in
  raise ValueErr when (Nat.ltb n 2) ;;
  Ok (map (fun i => if Nat.eqb i 0 then nth 1 l 0 - nth 0 l 0
                    else if Nat.eqb i (n - 1) then nth i l 0 - nth (i - 1) l 0
                    else (nth (i + 1) l 0 - nth (i - 1) l 0) / 2) (seq 0 n)).
(** get_BL_properties (603-622): lambda, delta2, delta_star and H at each position; None is nan *)
Record thwaites := mkthw { t_lambda : option R; t_delta2 : option R; t_star : option R; t_H : option R }.
Definition h_factor (l : R) : option R :=
  if (negb (ltb l 0) && ltb l 0.1)%bool then Some (2.61 - 3.75 * l + 5.24 * l ^ 2)
  else if (ltb l 0 && ltb (-0.1) l)%bool then Some (2.088 + 0.0731 / (l + 0.14))
  else None.
Definition thw_properties (quad : (R -> R) -> R -> R -> R) (ue : R -> R) (nu : R) (xs : list R) : res (list thwaites) :=
  let* g := np_gradient (map ue xs) in
  Ok (map (fun z =>
        let d2 := momentum quad ue nu (fst z) in
        let l := option_map (fun d => d ^ 2 / nu * snd z) d2 in
        let h := match l with Some v => h_factor v | None => None end in
        mkthw l d2 (match h, d2 with Some a, Some c => Some (a * c) | _, _ => None end) h) (combine xs g)).

(** ** get_profile_with_confinement (255-284), x and h numbers, y an array.  The inverse is asked without 'allTurbulent' (282). *)
Definition profile_with_confinement (odeint : (state -> state) -> state -> list R -> list state) (b : blasius) (x h : R) (y : list R) (turb : bool) : res (list (R * R)) :=
  let* l := with_confinement b [x] h turb in
  match l with
  | [] => Err IndexErr
  | (_, d) :: _ => get_profile odeint b (get_x_from_delta b d false) y turb
  end.
