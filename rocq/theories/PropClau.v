(** * PropClau: the property C323: Clauser's thickness. *)
From Coq Require Import Lia.
From Verif Require Import Num Res ListLib SortLib Arr FieldModel ScalarFieldModel VectorFieldModel FieldSpec PointsSpec ProfileModel ProfileSpec Concrete TemporalEx TurbEx
  BlModel BlSpec BlProofs BlProofs2 BlProofs3 BlEx ClauModel.
#[local] Ltac vmr := vm_compute; reflexivity.

(** ** C323: the thickness of Clauser of a profile is the integral of (u_top - u)/u_star along the height, u_star being the root of tau/rho; it is
    given as well for each line of a scalar field. *)
(** what holds: u_star times it is the displacement thickness times the last velocity, so that it is never negative, nor above the
    thickness of the layer times that velocity *)
Theorem C323_profile_partial root p l m x0 u0 r h v u tau rho :
  curve p l -> from_wall l -> greatest l m -> l = (x0, u0) :: r -> (u0 < m * qq 19 20 <= m)%num -> (forall x w, In (x, w) l -> (0 <= w)%num) ->
  last l (0, 0)%num = (h, v) -> (0 < rho)%num -> (0 < u)%num -> tau = (rho * (u * u))%num -> root (u * u)%num = u ->
  exists d, bl_thickness p (qq 19 20) = Ok (Some d) /\
    ((exists x w, In (x, w) l /\ (x <= d)%num /\ w <> 0%num) ->
     exists a c, displ_thickness p = Ok (Some a) /\ clauser root p tau rho = Ok (Some c) /\ (c * u = a * v)%num /\ (0 <= c)%num /\ (c * u <= d * v)%num).
Proof.
  intros C FW G EL B P LA R U ET ER. destruct (thicknesses_ordered p l m x0 u0 r C FW G EL B P) as (d & D & _ & H). exists d. split; [exact D|]. intros X.
  destruct (H X) as (a & b & A & _ & B0 & BA & AD & _).
  assert (Y : rev (yv p) = Some v :: tl (rev (yv p))).
  { rewrite (proj1 (proj2 (curve_parts p l C))), <- map_rev. assert (LE : l = removelast l ++ [(h, v)]) by (rewrite <- LA; apply app_removelast_last; rewrite EL; discriminate). rewrite LE, rev_app_distr. reflexivity. }
  assert (V0 : (0 <= v)%num). { apply (P h). rewrite <- LA. rewrite (app_removelast_last (0, 0)%num (l := l)) by (rewrite EL; discriminate). apply in_or_app. right. rewrite <- (app_removelast_last (0, 0)%num) by (rewrite EL; discriminate). now left. }
  assert (RN : rho <> 0%num) by (apply qgt_neq, R). assert (UN : u <> 0%num) by (apply qgt_neq, U).
  assert (Q : (tau / rho = u * u)%num) by (rewrite ET; field; exact RN).
  exists a, (a * v / u)%num. split; [exact A|]. split.
  { unfold clauser. rewrite Y. cbn [bind]. rewrite A. cbn [bind]. unfold u_star. destruct (qeqb rho 0%num) eqn:E1; [apply qeqb_eq in E1; contradiction|]. rewrite Q.
    destruct (qltb (u * u)%num 0%num) eqn:E2; [apply qltb_lt in E2; exfalso; assert (0 < u * u)%num by qnra; qlra|]. rewrite ER. cbn [omul lift2 odiv].
    destruct (qeqb u 0%num) eqn:E3; [apply qeqb_eq in E3; contradiction|]. reflexivity. }
  assert (CU : (a * v / u * u = a * v)%num) by (field; exact UN).
  assert (A0 : (0 <= a)%num) by qlra. split; [exact CU|]. split.
  - assert (AV : (0 <= a * v)%num) by qnra. destruct (Qclt_le_dec (a * v / u)%num 0%num) as [N|N]; [|exact N]. exfalso. assert ((a * v / u) * u < 0)%num by qnra. qlra.
  - rewrite CU. qnra.
Qed.
Print Assumptions C323_profile_partial.
Example C323_example : curve (plain_prof ex_bl) ex_bl /\ from_wall ex_bl /\ greatest ex_bl (qz 20) /\ (qz 0 < qz 20 * qq 19 20 <= qz 20)%num /\ last ex_bl (0, 0)%num = (qz 6, qz 20) /\
  clauser (fun _ => qz 2) (plain_prof ex_bl) (qz 4000) (qz 1000) = Ok (Some (qq 55 3)).
Proof.
  split; [exact ex_bl_curve|]. split; [exact ex_bl_wall|]. split; [exact ex_bl_great|]. split; [split; [now apply qltb_lt|now apply qleb_le]|]. split; [reflexivity|].
  destruct (ok_ex (clauser (fun _ => qz 2) (plain_prof ex_bl) (qz 4000) (qz 1000)) (fun o => omb o (qq 55 3))) as (o & E & H); [vmr|]. rewrite E. f_equal. now apply omb_eq.
Qed.
(** it is not the integral of the definition: velocities 0, 1, 10 at 0, 1, 2, with u_star = 1, give 5 although the integral is 14 *)
Theorem C323_integral_refuted : exists p l, curve p l /\ from_wall l /\ (forall x u, In (x, u) l -> (0 <= u)%num) /\ last l (0, 0)%num = (qz 2, qz 10) /\
  clauser (fun _ => 1%num) p (qz 1000) (qz 1000) = Ok (Some (qz 5)) /\ area (map (fun t => (fst t, Some (qz 10 - snd t)%num)) l) = Some (qz 14).
Proof.
  pose (l := pairs_of [(0, 0); (1, 1); (2, 10)]%Z). exists (plain_prof l), l.
  assert (I : increasing (map fst l)) by incr. split; [now apply plain_curve, increasing_nondecreasing|]. split; [split; [exact I|pts]|]. split; [pts|]. split; [reflexivity|]. split.
  - destruct (ok_ex (clauser (fun _ => 1%num) (plain_prof l) (qz 1000) (qz 1000)) (fun o => omb o (qz 5))) as (o & E & H); [vmr|]. rewrite E. f_equal. now apply omb_eq.
  - apply omb_eq. vmr.
Qed.
Print Assumptions C323_integral_refuted.
(** and it is never given for a scalar field *)
Theorem C323_field_refuted ci f dir : ax (sg f) <> [] -> ay (sg f) <> [] -> exists e, clauser_field ci f dir = Err e.
Proof.
  intros NX NY. unfold clauser_field. set (axe := match dir with D1 => ax (sg f) | _ => ay (sg f) end). assert (N : axe <> []) by (unfold axe; destruct dir; assumption).
  destruct axe as [|x axe]; [congruence|]. cbn [mapM]. destruct (match dir with D1 | D2 => Err TypeErr | DStr d => profile_linear ci f d x end) as [q|e]; cbn [bind]; [|eexists; reflexivity].
  destruct (mapM _ axe) as [qs|e]; cbn [bind]; eexists; reflexivity.
Qed.
Print Assumptions C323_field_refuted.
