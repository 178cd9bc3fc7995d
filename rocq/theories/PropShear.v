(** * PropShear: fields of gradients (C264, C265), shear stress of a field (C266-C268) and at a wall (C269-C271). *)
From Verif Require Import Num Res ListLib SortLib Arr FieldModel ScalarFieldModel VectorFieldModel FieldSpec ProfileModel ProfileSpec Prof2Model Prof2Spec PointsModel GradModel GradSpec GradProofs6
  Concrete ShearModel ShearSpec ShearProofs.
#[local] Ltac vmr := vm_compute; reflexivity.

(** C264: get_grad_field gives, at each point, the slopes along x and y of the component asked; it masks exactly the points for
    which a neighbour needed is masked. *)
Theorem C264_slopes f hx hy d : vf_wf f -> vf_clean f -> evenly (ax (vg f)) hx -> evenly (ay (vg f)) hy -> d <> GOther ->
  exists g, get_grad_field f d = Ok g /\ vg g = vg f /\ vf_wf g /\
    forall i j, lt i (length (ax (vg f))) -> lt j (length (ay (vg f))) ->
      (at_ (vmsk g) i j = true <-> needs_masked f i j) /\
      (at_ (vmsk g) i j = false ->
         slope_x (ax (vg f)) (comp_of d f) i j (at_ (cx g) i j) /\ slope_y (ay (vg f)) (comp_of d f) i j (at_ (cy g) i j)).
Proof.
  intros W C Ex Ey D. destruct (grad_field_ok f hx hy d W C Ex Ey D) as (g & E & (G1 & _ & G3) & P). exists g.
  split; [exact E|]. split; [exact G1|]. split; [exact G3|exact P].
Qed.
Print Assumptions C264_slopes.
Theorem C264_linear f hx hy d a0 a1 a2 b0 b1 b2 : vf_wf f -> evenly (ax (vg f)) hx -> evenly (ay (vg f)) hy -> d <> GOther ->
  vf_is f (fun x y => a0 + a1 * x + a2 * y)%num (fun x y => b0 + b1 * x + b2 * y)%num ->
  exists g, get_grad_field f d = Ok g /\ vg g = vg f /\
    vf_is g (fun _ _ => match d with GX => a1 | _ => b1 end) (fun _ _ => match d with GX => a2 | _ => b2 end).
Proof. exact (grad_field_linear f hx hy d a0 a1 a2 b0 b1 b2). Qed.
Print Assumptions C264_linear.
Theorem C264_other f : get_grad_field f GOther = Err ValueErr. Proof. exact (grad_field_other f). Qed.
Print Assumptions C264_other.
Definition shear_ex : vfield := lin_vf 4 3 1%num (qz 2) 1%num (qz 2) (qz 3) 0%num (qz 5) (qz 7).
Definition shear_hole : vfield :=
  vf_of [0; 1; 2; 3; 4]%Z [0; 1; 2]%Z
    [[oz 0; oz 1; oz 2]; [oz 1; oz 2; oz 3]; [oz 2; None; oz 4]; [oz 3; oz 4; oz 5]; [oz 4; oz 5; oz 6]]
    [[oz 0; oz 2; oz 4]; [oz 3; oz 5; oz 7]; [oz 6; None; oz 10]; [oz 9; oz 11; oz 13]; [oz 12; oz 14; oz 16]]
    [[false; false; false]; [false; false; false]; [false; true; false]; [false; false; false]; [false; false; false]].
Lemma hole_ok : vf_wf shear_hole /\ vf_clean shear_hole /\ evenly (ax (vg shear_hole)) 1%num /\ evenly (ay (vg shear_hole)) 1%num.
Proof.
  split; [repeat split|]. split.
  - intros i j Hi Hj. cbn in Hi, Hj. do 5 (destruct i as [|i]; [do 3 (destruct j as [|j]; [vm_compute; split; split; congruence|]); lia|]). lia.
  - split; (split; [reflexivity|]; split; [cbn; lia|]; intros i Hi; cbn in Hi; repeat (destruct i as [|i]; [qc|]); lia).
Qed.
Example C264_example : (vf_wf shear_hole /\ vf_clean shear_hole /\ evenly (ax (vg shear_hole)) 1%num /\ evenly (ay (vg shear_hole)) 1%num) /\
  needs_masked shear_hole 1 1 /\ ~ needs_masked shear_hole 0 1 /\
  vf_wf shear_ex /\ evenly (ax (vg shear_ex)) 1%num /\ evenly (ay (vg shear_ex)) (qz 2) /\
  vf_is shear_ex (fun x y => 1 + qz 2 * x + qz 3 * y)%num (fun x y => 0 + qz 5 * x + qz 7 * y)%num.
Proof.
  split; [exact hole_ok|]. split.
  { apply (gmask_iff shear_hole 1%num 1%num 1 1); try apply hole_ok; cbn; lia. }
  split.
  { intros N. apply (gmask_iff shear_hole 1%num 1%num 0 1) in N; try apply hole_ok; try (cbn; lia). revert N. vm_compute. discriminate. }
  apply lin_vf_ok; try lia; reflexivity.
Qed.

(** C265: the gradients have the unit of the field divided by that of the lengths.  Refuted: they keep the unit of the field. *)
Theorem C265_unit_refuted : exists f hx hy g, vf_wf f /\ vf_clean f /\ evenly (ax (vg f)) hx /\ evenly (ay (vg f)) hy /\ ux (vg f) = uy (vg f) /\
  get_grad_field f GX = Ok g /\ dim (vuv g) <> dim (unit_div (vuv f) (ux (vg f))).
Proof.
  destruct hole_ok as (W & C & Ex & Ey). destruct (grad_field_ok shear_hole 1%num 1%num GX W C Ex Ey ltac:(discriminate)) as (g & E & (_ & G2 & _) & _).
  exists shear_hole, 1%num, 1%num, g. split; [exact W|]. split; [exact C|]. split; [exact Ex|]. split; [exact Ey|]. split; [reflexivity|]. split; [exact E|].
  rewrite G2. vm_compute. discriminate.
Qed.
Print Assumptions C265_unit_refuted.

(** C266: the shear stress of a field without missing values is, at each point, the slope of vy along x and the slope of vx along y. *)
Theorem C266_slopes f hx hy : vf_wf f -> vf_full f -> evenly (ax (vg f)) hx -> evenly (ay (vg f)) hy ->
  exists g, field_shear f = Ok g /\ vg g = vg f /\ vf_wf g /\
    forall i j, lt i (length (ax (vg f))) -> lt j (length (ay (vg f))) ->
      at_ (vmsk g) i j = false /\ slope_x (ax (vg f)) (cy f) i j (at_ (cx g) i j) /\ slope_y (ay (vg f)) (cx f) i j (at_ (cy g) i j).
Proof.
  intros W F Ex Ey. destruct (field_shear_ok f hx hy W F Ex Ey) as (g & E & (G1 & _ & G3) & P). exists g.
  split; [exact E|]. split; [exact G1|]. split; [exact G3|exact P].
Qed.
Print Assumptions C266_slopes.
Theorem C266_linear f hx hy a0 a1 a2 b0 b1 b2 : vf_wf f -> evenly (ax (vg f)) hx -> evenly (ay (vg f)) hy ->
  vf_is f (fun x y => a0 + a1 * x + a2 * y)%num (fun x y => b0 + b1 * x + b2 * y)%num ->
  exists g, field_shear f = Ok g /\ vg g = vg f /\ vf_is g (fun _ _ => b1) (fun _ _ => a2).
Proof. exact (field_shear_linear f hx hy a0 a1 a2 b0 b1 b2). Qed.
Print Assumptions C266_linear.
Example C266_example : vf_full shear_ex /\ vf_wf shear_ex /\ evenly (ax (vg shear_ex)) 1%num /\ evenly (ay (vg shear_ex)) (qz 2) /\
  vf_is shear_ex (fun x y => 1 + qz 2 * x + qz 3 * y)%num (fun x y => 0 + qz 5 * x + qz 7 * y)%num.
Proof.
  assert (H := lin_vf_ok 4 3 1%num (qz 2) 1%num (qz 2) (qz 3) 0%num (qz 5) (qz 7) ltac:(lia) ltac:(lia) eq_refl eq_refl). cbv zeta in H.
  split; [|exact H]. destruct H as (_ & _ & _ & H). exact (vf_is_full _ _ _ H).
Qed.

(** C267: missing values inside the field are filled before the stress is computed.  Refuted: one missing value in a linear flow, and the
    stress is also missing at that point and at points where the velocity is known. *)
Theorem C267_filled_refuted : exists f hx hy g, vf_wf f /\ vf_clean f /\ evenly (ax (vg f)) hx /\ evenly (ay (vg f)) hy /\
  (forall i j, lt i (length (ax (vg f))) -> lt j (length (ay (vg f))) -> at_ (vmsk f) i j = true -> i = 2 /\ j = 1) /\
  field_shear f = Ok g /\ vg g = vg f /\ at_ (vmsk f) 2 1 = true /\ at_ (vmsk g) 2 1 = true /\ at_ (vmsk f) 1 1 = false /\ at_ (vmsk g) 1 1 = true.
Proof.
  destruct hole_ok as (W & C & Ex & Ey). exists shear_hole, 1%num, 1%num. destruct (field_shear shear_hole) as [g|] eqn:E; [|exfalso; revert E; vm_compute; discriminate].
  exists g. split; [exact W|]. split; [exact C|]. split; [exact Ex|]. split; [exact Ey|]. split.
  { intros i j Hi Hj. cbn in Hi, Hj. do 5 (destruct i as [|i]; [do 3 (destruct j as [|j]; [vm_compute; first [discriminate|split; reflexivity]|]); lia|]). lia. }
  split; [reflexivity|]. split.
  { revert E. vm_compute. intros E. injection E as <-. reflexivity. }
  assert (M : forall i j, at_ (vmsk g) i j = match field_shear shear_hole with Ok g => at_ (vmsk g) i j | _ => false end) by (intros; rewrite E; reflexivity).
  rewrite !M. vm_compute. repeat split; reflexivity.
Qed.
Print Assumptions C267_filled_refuted.

(** C268: the stress has the unit of the field divided by that of the lengths.  Refuted. *)
Theorem C268_unit_refuted : exists f hx hy g, vf_wf f /\ vf_full f /\ evenly (ax (vg f)) hx /\ evenly (ay (vg f)) hy /\ ux (vg f) = uy (vg f) /\
  field_shear f = Ok g /\ dim (vuv g) <> dim (unit_div (vuv f) (ux (vg f))).
Proof.
  destruct C266_example as (F & W & Ex & Ey & _). destruct (field_shear_ok shear_ex 1%num (qz 2) W F Ex Ey) as (g & E & (_ & G2 & _) & _).
  exists shear_ex, 1%num, (qz 2), g. split; [exact W|]. split; [exact F|]. split; [exact Ex|]. split; [exact Ey|]. split; [reflexivity|]. split; [exact E|].
  rewrite G2. vm_compute. discriminate.
Qed.
Print Assumptions C268_unit_refuted.

(** C269: the 'simple' wall shear stress is the slope of the profile times the dynamic viscosity. *)
Theorem C269_simple visc p h rho nu : prof_ok p -> prof_clean p -> 2 <= length (px p) -> (0 < h)%num -> spaced (px p) h -> (0 < nu)%num ->
  exists g q, get_gradient p = Ok g /\ wall_shear visc p Simple rho nu = Ok q /\ prof_ok q /\ px q = px p /\ pux q = pux p /\
    puy q = unit_mul (unit_div (puy p) (pux p)) visc /\
    samples q = map (fun t => (sx t, oscale (rho * nu)%num (sy t), isnan (sy t))) (samples g).
Proof. exact (wall_simple_ok visc p h rho nu). Qed.
Print Assumptions C269_simple.
Theorem C269_line visc p h rho nu a b : prof_ok p -> 2 <= length (px p) -> (0 < h)%num -> spaced (px p) h -> (0 < nu)%num ->
  (forall t, In t (samples p) -> smask t = false /\ sy t = Some (a * sx t + b)%num) ->
  exists q, wall_shear visc p Simple rho nu = Ok q /\ px q = px p /\ forall t, In t (samples q) -> smask t = false /\ sy t = Some (rho * nu * a)%num.
Proof. exact (wall_simple_line visc p h rho nu a b). Qed.
Print Assumptions C269_line.

(** C270: the stress of the linear law of the wall is rho nu u / x at each point above the wall, and nothing is given at or below it. *)
Theorem C270_linear_law visc p rho nu : prof_ok p -> prof_clean p -> (0 < nu)%num ->
  exists q, wall_shear visc p WallLin rho nu = Ok q /\ prof_ok q /\ pux q = pux p /\ puy q = unit_mul (unit_div (puy p) (pux p)) visc /\
    samples q = map (linear_stress rho nu) (filter (fun t => qltb 0%num (sx t)) (samples p)).
Proof. exact (wall_lin_ok visc p rho nu). Qed.
Print Assumptions C270_linear_law.

(** C271: a viscosity which is not positive is refused, whatever the method. *)
Theorem C271_viscosity visc p m rho nu : (nu <= 0)%num -> wall_shear visc p m rho nu = Err ValueErr.
Proof. exact (wall_refused visc p m rho nu). Qed.
Print Assumptions C271_viscosity.

Definition wall_ex : profile := mkprof (zs [0; 1; 2; 3]%Z) [oz 0; oz 2; oz 4; oz 6] [false; false; false; false] metre second.
Definition wall_ex2 : profile := mkprof (zs [0; 1; 2; 3]%Z) [oz 0; oz 2; None; oz 6] [false; false; true; false] metre second.
Example C269_example : prof_ok wall_ex /\ prof_clean wall_ex /\ spaced (px wall_ex) 1 /\
  (forall t, In t (samples wall_ex) -> smask t = false /\ sy t = Some (qz 2 * sx t + 0)%num) /\
  match wall_shear second wall_ex Simple (qz 3) (qz 5) with Ok q => map sy (samples q) = [oz 30; oz 30; oz 30; oz 30] | _ => False end.
Proof.
  split. { split; [reflexivity|]. split; [reflexivity|]. split; [apply increasing_nondecreasing, increasingb_ok; vmr|vmr]. }
  split. { intros t H. cbn in H. repeat (destruct H as [<-|H]; [reflexivity|]). destruct H. }
  split. { intros i Hi. cbn in Hi. repeat (destruct i as [|i]; [qc|]). lia. }
  split. { intros t H. vm_compute in H. repeat (destruct H as [<-|H]; [split; vmr|]). destruct H. }
  vmr.
Qed.
Example C270_example : prof_ok wall_ex2 /\ prof_clean wall_ex2 /\
  match wall_shear second wall_ex2 WallLin (qz 3) (qz 5) with Ok q => samples q = [(qz 1, oz 30, false); (qz 2, None, true); (qz 3, oz 30, false)] | _ => False end.
Proof.
  split. { split; [reflexivity|]. split; [reflexivity|]. split; [apply increasing_nondecreasing, increasingb_ok; vmr|vmr]. }
  split. { intros t H. vm_compute in H. repeat (destruct H as [<-|H]; [vmr|]). destruct H. }
  vmr.
Qed.
