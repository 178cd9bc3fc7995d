(** * PropSf2: the properties C169 to C173 and C176 to C178: integrals, even spacing, zones and histograms of scalar fields.
    Statements only; the proofs are in Sf2Proofs*.v.  The vocabulary is in Sf2Spec, VpropSpec, BlSpec and FieldSpec. *)
From Coq Require Import Lia QArith Qcanon List ZArith.
From Verif Require Import Num Res ListLib Arr FieldModel ScalarFieldModel VectorFieldModel FieldSpec Concrete TemporalEx
  PointsSpec ProfileModel ProfileSpec BlModel BlSpec VpropModel VpropSpec VpropProofs2 Sf2Model Sf2Spec Sf2Proofs Sf2Proofs2 Sf2Proofs3 Sf2Proofs4 Sf2Proofs5 Sf2Proofs6.

(** ** C169 *)
Theorem C169_value ci f d p :
  field_ok f -> position_ok f d p ->
  exists ys, along f d p ys /\
    (In None ys -> integrate_line ci f d p = Err GenericErr) /\
    (~ In None ys -> exists u, integrate_line ci f d p = Ok (area (combine (other_axis f d) ys), u) /\ (d = DY -> u = unit_mul (uv f) (other_unit f d))).
Proof. exact (line_integral ci f d p). Qed.
Print Assumptions C169_value.

Theorem C169_bounds ci f d p lo hi :
  field_ok f -> position_ok f d p -> some_line f d p ->
  (forall k j, k < length (pos_axis f d) -> j < length (other_axis f d) -> exists v, cell_value f d k j = Some v /\ (lo <= v <= hi)%num) ->
  exists s u, integrate_line ci f d p = Ok (Some s, u) /\
    (lo * (last (other_axis f d) (qz 0) - nths (other_axis f d) 0) <= s <= hi * (last (other_axis f d) (qz 0) - nths (other_axis f d) 0))%num.
Proof. exact (line_integral_bounds ci f d p lo hi). Qed.
Print Assumptions C169_bounds.

Theorem C176_unit_partial ci f d p s u :
  integrate_line ci f d p = Ok (s, u) -> d = DY \/ ux (sg f) = uy (sg f) -> u = unit_mul (uv f) (other_unit f d).
Proof. exact (line_integral_unit ci f d p s u). Qed.
Print Assumptions C176_unit_partial.

Definition line33 : sfield := sf_of [0; 1; 3]%Z [0; 1; 2]%Z [[oz 1; oz 2; oz 3]; [oz 4; oz 5; oz 6]; [oz 2; oz 2; oz 2]] [].
Example C169_example : field_ok line33 /\ position_ok line33 DX (LAt (qz 1)) /\ some_line line33 DX (LOver (qz 1) (qz 3)) /\
  match integrate_line (fun _ _ _ _ _ => None) line33 DX (LAt (qz 1)) with Ok (Some v, _) => qeqb v (qz 10) | _ => false end = true.
Proof.
  split; [split; [repeat split|]; split; [split; incr|]; split; discriminate|]. split; [split; apply qleb_le; vmr|]. split; [exists 1; split; [cbn; lia|]; split; apply qleb_le; vmr|]. vmr.
Qed.
(** the line at a given x runs along y, but the unit of the integral is always built with the unit of x *)
Definition xs33 : sfield := mksf (mkgrid (zs [0; 1; 3]%Z) (zs [0; 1; 2]%Z) metre second) (raw line33) (msk line33) metre.
Theorem C176_unit_refuted : exists ci f p s u, field_ok f /\ position_ok f DX p /\ integrate_line ci f DX p = Ok (Some s, u) /\ u <> unit_mul (uv f) (other_unit f DX).
Proof.
  assert (E : integrate_line (fun _ _ _ _ _ => None) xs33 DX (LAt (qz 1)) = integrate_line (fun _ _ _ _ _ => None) xs33 DX (LAt (qz 1))) by reflexivity.
  destruct (integrate_line (fun _ _ _ _ _ => None) xs33 DX (LAt (qz 1))) as [[[s|] u]|] eqn:Q; [|vm_compute in Q; discriminate|vm_compute in Q; discriminate].
  exists (fun _ _ _ _ _ => None), xs33, (LAt (qz 1)), s, u. split; [split; [repeat split|]; split; [split; incr|]; split; discriminate|]. split; [split; apply qleb_le; vmr|]. split; [exact Q|].
  vm_compute in Q. injection Q as _ <-. vm_compute. discriminate.
Qed.
Print Assumptions C176_unit_refuted.

(** ** C170 *)
Theorem C170_bounds f ivx ivy x0 x1 y0 y1 lo hi :
  sf_wf f -> grid_sorted (sg f) -> all_shown f ivx ivy -> iv_ok2 (sg f) ivx ivy -> reaches (ax (sg f)) ivx x0 x1 -> reaches (ay (sg f)) ivy y0 y1 ->
  (forall x y v, sf_shows f x y (Some v) false -> FieldSpec.in_iv ivx x -> FieldSpec.in_iv ivy y -> (lo <= v <= hi)%num) ->
  exists s, integrate_over_surface f ivx ivy = Ok (Some s, unit_mul (unit_mul (uv f) (ux (sg f))) (uy (sg f))) /\
    (lo * ((x1 - x0) * (y1 - y0)) <= s <= hi * ((x1 - x0) * (y1 - y0)))%num.
Proof. exact (surface_bounds f ivx ivy x0 x1 y0 y1 lo hi). Qed.
Print Assumptions C170_bounds.

Theorem C170_affine f ivx ivy x0 x1 y0 y1 a b c :
  sf_wf f -> grid_sorted (sg f) -> all_shown f ivx ivy -> iv_ok2 (sg f) ivx ivy -> reaches (ax (sg f)) ivx x0 x1 -> reaches (ay (sg f)) ivy y0 y1 ->
  even_axis (ax (sg f)) -> even_axis (ay (sg f)) ->
  (forall x y v, sf_shows f x y (Some v) false -> FieldSpec.in_iv ivx x -> FieldSpec.in_iv ivy y -> v = (a + b * x + c * y)%num) ->
  integrate_over_surface f ivx ivy = Ok (Some ((a + b * ((x0 + x1) / 2) + c * ((y0 + y1) / 2)) * ((x1 - x0) * (y1 - y0))), unit_mul (unit_mul (uv f) (ux (sg f))) (uy (sg f)))%num.
Proof. exact (surface_affine f ivx ivy x0 x1 y0 y1 a b c). Qed.
Print Assumptions C170_affine.

Theorem C170_masked f ivx ivy x y v :
  sf_wf f -> grid_sorted (sg f) -> iv_ok2 (sg f) ivx ivy -> sf_shows f x y v true -> FieldSpec.in_iv ivx x -> FieldSpec.in_iv ivy y ->
  integrate_over_surface f ivx ivy = Err GenericErr.
Proof. exact (surface_masked f ivx ivy x y v). Qed.
Print Assumptions C170_masked.

Definition sq31 : sfield := sf_of [0; 1; 2]%Z [0; 1]%Z [[oz 0; oz 0]; [oz 1; oz 1]; [oz 4; oz 4]] [].
Ltac shown_tac := let x := fresh in let y := fresh in let v := fresh in let m := fresh in let i := fresh "i" in let j := fresh "j" in let A := fresh "A" in let B := fresh "B" in
  intros x y v m (i & j & A & B & <- & <-); pose proof (nth_error_Some_lt _ _ _ A); pose proof (nth_error_Some_lt _ _ _ B); cbn in *;
  intros _ _; destruct i as [|[|[|i]]]; try (exfalso; lia); destruct j as [|[|j]]; try (exfalso; lia); cbn; split; (reflexivity || discriminate).
Example C170_example : sf_wf sq31 /\ grid_sorted (sg sq31) /\ all_shown sq31 (Some (qz 0, qz 1)) None /\ iv_ok2 (sg sq31) (Some (qz 0, qz 1)) None /\ reaches (ax (sg sq31)) (Some (qz 0, qz 1)) (qz 0) (qz 1) /\
  reaches (ay (sg sq31)) None (qz 0) (qz 1) /\ even_axis (ax (sg sq31)).
Proof.
  split; [repeat split|]. split; [split; incr|]. split; [shown_tac|]. split; [split; [|exact I]|].
  - cbn. repeat split; try (apply qleb_le; vmr). 
  - split; [|split].
    + split; [now left|]. split; [cbn; split; apply qleb_le; vmr|]. split; [right; now left|]. split; [cbn; split; apply qleb_le; vmr|]. intros x _ H. exact H.
    + split; [now left|]. split; [exact I|]. split; [right; now left|]. split; [exact I|]. intros x [<-|[<-|[]]] _; split; apply qleb_le; vmr.
    + exists (qz 1). split; [reflexivity|]. intros i Hi. cbn in Hi. destruct i as [|[|[|i]]]; [qc|qc|qc|lia].
Qed.
(** the integrals over two adjacent rectangles do not add up to the integral over both *)
Theorem C177_additive_refuted : exists f a b c s1 s2 s u, sf_wf f /\ grid_sorted (sg f) /\ all_shown f None None /\ In b (ax (sg f)) /\ reaches (ax (sg f)) None a c /\
  integrate_over_surface f (Some (a, b)) None = Ok (Some s1, u) /\ integrate_over_surface f (Some (b, c)) None = Ok (Some s2, u) /\ integrate_over_surface f None None = Ok (Some s, u) /\ (s1 + s2)%num <> s.
Proof.
  destruct (integrate_over_surface sq31 (Some (qz 0, qz 1)) None) as [[[s1|] u1]|] eqn:E1; [|vm_compute in E1; discriminate|vm_compute in E1; discriminate].
  destruct (integrate_over_surface sq31 (Some (qz 1, qz 2)) None) as [[[s2|] u2]|] eqn:E2; [|vm_compute in E2; discriminate|vm_compute in E2; discriminate].
  destruct (integrate_over_surface sq31 None None) as [[[s|] u]|] eqn:E3; [|vm_compute in E3; discriminate|vm_compute in E3; discriminate].
  exists sq31, (qz 0), (qz 1), (qz 2), s1, s2, s, u. split; [repeat split|]. split; [split; incr|]. split; [shown_tac|]. split; [right; now left|].
  split; [split; [now left|]; split; [exact I|]; split; [right; right; now left|]; split; [exact I|]; intros x [<-|[<-|[<-|[]]]] _; split; apply qleb_le; vmr|].
  assert (u1 = u /\ u2 = u) as [<- <-] by (vm_compute in E1, E2, E3; injection E1 as _ <-; injection E2 as _ <-; injection E3 as _ <-; split; reflexivity).
  split; [exact E1|]. split; [exact E2|]. split; [exact E3|]. vm_compute in E1, E2, E3. injection E1 as <- _. injection E2 as <- _. injection E3 as <- _. intro Z. apply (f_equal this) in Z. vm_compute in Z. discriminate.
Qed.
Print Assumptions C177_additive_refuted.

(** ** C171 *)
Theorem C171_partial interp f r hx hy nx ny :
  grid_sorted (sg f) -> (0 < r)%num -> smallest_step (ax (sg f)) hx -> smallest_step (ay (sg f)) hy -> 2 <= nx -> 2 <= ny ->
  (qn nx * (hx / r) <= last (ax (sg f)) (qz 0) - nths (ax (sg f)) 0)%num -> (last (ax (sg f)) (qz 0) - nths (ax (sg f)) 0 < qn (S nx) * (hx / r))%num ->
  (qn ny * (hy / r) <= last (ay (sg f)) (qz 0) - nths (ay (sg f)) 0)%num -> (last (ay (sg f)) (qz 0) - nths (ay (sg f)) 0 < qn (S ny) * (hy / r))%num ->
  exists f' sx sy, make_evenly_spaced interp f r = Ok f' /\ sf_wf f' /\ grid_sorted (sg f') /\ spread_over (ax (sg f)) (ax (sg f')) nx sx /\ spread_over (ay (sg f)) (ay (sg f')) ny sy /\
    (hx / r < sx)%num /\ (hy / r < sy)%num /\ ux (sg f') = ux (sg f) /\ uy (sg f') = uy (sg f) /\ uv f' = uv f /\
    forall x y v m, sf_shows f' x y v m -> v = interp f x y /\ m = isnan v.
Proof. exact (evenly_spaced interp f r hx hy nx ny). Qed.
Print Assumptions C171_partial.

Theorem C171_regular_refuted interp f hx hy :
  regular_axis (ax (sg f)) hx -> regular_axis (ay (sg f)) hy -> 3 <= length (ax (sg f)) -> 3 <= length (ay (sg f)) ->
  exists f', make_evenly_spaced interp f (qz 1) = Ok f' /\ length (ax (sg f')) = length (ax (sg f)) - 1 /\ length (ay (sg f')) = length (ay (sg f)) - 1 /\
    forall i, S i < length (ax (sg f')) -> (hx < nths (ax (sg f')) (S i) - nths (ax (sg f')) i)%num.
Proof. exact (evenly_spaced_regular interp f hx hy). Qed.
Print Assumptions C171_regular_refuted.

Theorem C171_two_refuted interp f :
  grid_sorted (sg f) -> 2 <= length (ax (sg f)) -> length (ay (sg f)) = 2 -> make_evenly_spaced interp f (qz 1) = Err IndexErr.
Proof. exact (evenly_spaced_two interp f). Qed.
Print Assumptions C171_two_refuted.

Definition gap : sfield := sf_of [0; 1; 3]%Z [0; 2; 3]%Z [[oz 1; oz 2; oz 3]; [oz 4; oz 5; oz 6]; [oz 7; oz 8; oz 9]] [].
Example C171_example : grid_sorted (sg gap) /\ smallest_step (ax (sg gap)) (qz 1) /\ smallest_step (ay (sg gap)) (qz 1) /\
  (qn 3 * (qz 1 / qz 1) <= last (ax (sg gap)) (qz 0) - nths (ax (sg gap)) 0)%num /\ (last (ax (sg gap)) (qz 0) - nths (ax (sg gap)) 0 < qn 4 * (qz 1 / qz 1))%num /\
  match make_evenly_spaced (fun _ x y => Some (x + y)%num) gap (qz 1) with Ok f => Nat.eqb (length (ax (sg f))) 3 && qeqb (nths (ax (sg f)) 1) (qq 3 2) && oeqb (at_ (values f) 1 2) (Some (qq 9 2)) | _ => false end%bool = true.
Proof.
  split; [split; incr|]. split; [split; [exists 0; split; [cbn; lia|qc]|]|split; [split; [exists 1; split; [cbn; lia|qc]|]|]].
  - intros i Hi. cbn in Hi. destruct i as [|[|i]]; [| |lia]; apply qleb_le; vmr.
  - intros i Hi. cbn in Hi. destruct i as [|[|i]]; [| |lia]; apply qleb_le; vmr.
  - split; [apply qleb_le; vmr|]. split; [apply qltb_lt; vmr|]. vmr.
Qed.
Definition reg33 : sfield := sf_of [0; 1; 2]%Z [0; 1; 2]%Z [[oz 4; oz 0; oz 0]; [oz 0; oz 0; oz 0]; [oz 0; oz 5; oz 5]] [].
Lemma reg33_axes : regular_axis (ax (sg reg33)) (qz 1) /\ regular_axis (ay (sg reg33)) (qz 1).
Proof. split; (split; [reflexivity|]; split; [cbn; lia|]; intros i Hi; cbn in Hi; destruct i as [|[|[|i]]]; [qc|qc|qc|lia]). Qed.

(** ** C172 *)
Theorem C172_partial pick f b0 b1 rel k lo hi dx dy :
  picks pick -> sf_wf f -> sf_clean f -> (exists c v, shows_at f c v) -> regular_axis (ax (sg f)) dx -> regular_axis (ay (sg f)) dy ->
  bounds_meant f rel b0 b1 lo hi -> k <> ZOther ->
  (k = ZPonderated -> forall c, between f lo hi c -> exists d, joined (between f lo hi) c d /\ ~ shows_at f d (qz 0)) ->
  exists zones pts, are_zones (between f lo hi) zones /\ Forall2 (point_of f k lo hi) zones pts /\
    fst (zones_centers pick f (b0, b1) rel k) = Ok (match pts with [] => None | _ => Some pts end).
Proof. exact (zones_centers_lemma pick f b0 b1 rel k lo hi dx dy). Qed.
Print Assumptions C172_partial.

Theorem C172_default_drift_partial n :
  default_after n = (qq 3 4 * qpow (1 - qq 1 100000) n, qpow (1 + qq 1 100000) n)%num.
Proof. exact (default_drift n). Qed.
Print Assumptions C172_default_drift_partial.

Theorem C172_default_refuted n :
  (fst (default_after (S n)) < fst (default_after n))%num.
Proof. exact (default_decreases n). Qed.
Print Assumptions C172_default_refuted.

Theorem C172_default_vanishes_refuted t :
  (0 < t)%num -> exists n, (fst (default_after n) < t)%num.
Proof. exact (default_vanishes t). Qed.
Print Assumptions C172_default_vanishes_refuted.

Definition hd_cell (l : list cell) : cell := hd (0, 0) l.
Lemma hd_picks : picks hd_cell.
Proof. intros [|c l] N; [congruence|now left]. Qed.
(** the largest values of the field: two zones, a cell and two adjacent cells *)
Example C172_example : picks hd_cell /\ sf_wf reg33 /\ sf_clean reg33 /\ (exists c v, shows_at reg33 c v) /\ regular_axis (ax (sg reg33)) (qz 1) /\ regular_axis (ay (sg reg33)) (qz 1) /\
  (exists lo hi, bounds_meant reg33 true (qq 3 4) (qz 1) lo hi) /\
  match fst (zones_centers hd_cell reg33 (qq 3 4, qz 1) true ZPonderated) with
  | Ok (Some [p; q]) => qeqb (fst p) (qz 0) && qeqb (snd p) (qz 0) && qeqb (fst q) (qz 2) && qeqb (snd q) (qq 3 2) | _ => false end%bool = true.
Proof.
  split; [apply hd_picks|]. split; [repeat split|]. split; [apply clean_b_ok; vmr|]. split; [exists (0, 0), (qz 4); repeat split; cbn; lia|]. split; [apply reg33_axes|]. split; [apply reg33_axes|]. split; [|vmr].
  assert (S0 : forall c v, shows_at reg33 c v -> (qz 0 <= v)%num /\ (v <= qz 5)%num).
  { intros [i j] v (H1 & H2 & _ & E). cbn in H1, H2. destruct i as [|[|[|i]]]; [| | |exfalso; lia]; (destruct j as [|[|[|j]]]; [| | |exfalso; lia]); cbn in E; injection E as <-; split; apply qleb_le; vmr. }
  eexists. eexists. eexists. eexists. split; [split; reflexivity|]. split; [apply qltb_lt; vmr|]. exists (qz 0), (qz 5).
  split; [split; [exists (1, 1); repeat split; cbn; lia|intros c v Q; apply (S0 c v Q)]|]. split; [split; [exists (2, 2); repeat split; cbn; lia|intros c v Q; apply (S0 c v Q)]|].
  split; [apply qleb_le; vmr|]. left. split; [apply qleb_le; vmr|]. split; reflexivity.
Qed.
(** a second call of the same method without bounds gives another answer *)
Definition near : sfield := sf_of [0; 1]%Z [0; 1]%Z [[oz 0; oz 1]; [Some (qq 74999 100000); oz 0]] [].
Theorem C172_repeated_refuted : exists pick f a b, picks pick /\ sf_wf f /\ sf_clean f /\
  fst (zones_centers pick f (default_after 0) true ZExtremum) = Ok (Some a) /\ snd (zones_centers pick f (default_after 0) true ZExtremum) = default_after 1 /\
  fst (zones_centers pick f (default_after 1) true ZExtremum) = Ok (Some b) /\ length a <> length b.
Proof.
  destruct (ok_ex (fst (zones_centers hd_cell near (default_after 0) true ZExtremum)) (fun r => match r with Some [_] => true | _ => false end)) as (r & E & H); [vmr|].
  destruct (ok_ex (fst (zones_centers hd_cell near (default_after 1) true ZExtremum)) (fun r => match r with Some [_; _] => true | _ => false end)) as (r' & E' & H'); [vmr|].
  destruct r as [[|a [|]]|]; try discriminate H. destruct r' as [[|b [|c [|]]]|]; try discriminate H'. exists hd_cell, near, [a], [b; c]. split; [apply hd_picks|]. split; [repeat split|]. split; [apply clean_b_ok; vmr|].
  split; [exact E|]. split; [unfold zones_centers; cbn [snd]; reflexivity|]. split; [exact E'|]. cbn. lia.
Qed.
Print Assumptions C172_repeated_refuted.
(** an irregular axis: the centre of a zone is not at the mean of the positions *)
Definition jump : sfield := sf_of [0; 1; 10]%Z [0; 1]%Z [[oz 0; oz 0]; [oz 5; oz 0]; [oz 5; oz 0]] [].
Theorem C172_irregular_refuted : exists pick f b0 b1 z x y, picks pick /\ sf_wf f /\ sf_clean f /\ grid_sorted (sg f) /\ zone (between f (fst (nudge (b0, b1))) (snd (nudge (b0, b1)))) (1, 0) z /\ length z = 2 /\
  fst (zones_centers pick f (b0, b1) false ZCenter) = Ok (Some [(x, y)]) /\ (x * qn 2)%num <> total (map (cell_x f) z).
Proof.
  destruct (ok_ex (fst (zones_centers hd_cell jump (qz 4, qz 6) false ZCenter)) (fun r => match r with Some [(x, y)] => qeqb x (qq 3 2) | _ => false end)) as (r & E & H); [vmr|].
  destruct r as [[|[x y] [|]]|]; try discriminate H. assert (W : sf_wf jump) by repeat split. assert (C : sf_clean jump) by (apply clean_b_ok; vmr).
  set (lo := fst (nudge (qz 4, qz 6))). set (hi := snd (nudge (qz 4, qz 6))).
  set (ok := fun c : cell => (within (values jump) (lo, hi) c && negb (at_ (msk jump) (fst c) (snd c)))%bool).
  exists hd_cell, jump, (qz 4), (qz 6), [(1, 0); (2, 0)], x, y. split; [apply hd_picks|]. split; [exact W|]. split; [exact C|]. split; [split; incr|]. split; [|split; [reflexivity|split; [exact E|]]].
  - replace [(1, 0); (2, 0)] with (component (all_cells 3 2) ok (1, 0)) by vmr. apply (comp_zone 3 2 ok (between jump lo hi)); [intro e; now apply (within_iff jump lo hi e)|].
    exists (qz 5). split; [repeat split; cbn; lia|split; apply qleb_le; vmr].
  - apply qeqb_eq in H. subst x. intro Z. apply (f_equal this) in Z. vm_compute in Z. discriminate.
Qed.
Print Assumptions C172_irregular_refuted.
(** zones of null values have no centre of mass *)
Definition zeros23 : sfield := sf_of [0; 1; 2]%Z [0; 1]%Z [[oz 0; oz 0]; [oz 0; oz 1]; [oz 1; oz 1]] [].
Theorem C172_null_refuted : exists pick f b, picks pick /\ sf_wf f /\ sf_clean f /\ (exists c, between f (fst (nudge b)) (snd (nudge b)) c) /\ fst (zones_centers pick f b false ZPonderated) = Err ValueErr.
Proof.
  exists hd_cell, zeros23, (qz 0, qq 1 2). split; [apply hd_picks|]. split; [repeat split|]. split; [apply clean_b_ok; vmr|]. split; [|vmr]. exists (0, 0), (qz 0). split; [repeat split; cbn; lia|]. split; apply qleb_le; vmr.
Qed.
Print Assumptions C172_null_refuted.

(** ** C173 *)
Theorem C173_counts counts f cum normalized bins n range a b :
  sf_wf f -> sf_clean f -> bins_meant bins n -> bin_range f range a b ->
  exists p e, get_histogram counts f cum normalized bins range = Ok p /\ equal_bins a b n e /\ length (px p) = n /\ length (yv p) = n /\ pux p = uv f /\ puy p = counts /\
    (forall i, i < n -> nths (px p) i = ((e i + e (S i)) / 2 + a)%num) /\
    forall N, cells_showing f (fun v => (a <= v <= b)%num) N -> (normalized = true -> 0 < N) -> forall i, i < n ->
      exists k y, cells_showing f (if cum then up_to_bin n e i else in_bin n e i) k /\ nth i (yv p) None = Some y /\
        if normalized then (y * (qn N * (e (S i) - e i)) = qn k)%num else y = qn k.
Proof. exact (histogram_lemma counts f cum normalized bins n range a b). Qed.
Print Assumptions C173_counts.

Theorem C178_masked_refuted counts f cum normalized bins n i j :
  sf_wf f -> sf_clean f -> bins_meant bins n -> i < length (ax (sg f)) -> j < length (ay (sg f)) -> at_ (msk f) i j = true ->
  get_histogram counts f cum normalized bins None = Err ValueErr.
Proof. exact (histogram_masked counts f cum normalized bins n i j). Qed.
Print Assumptions C178_masked_refuted.

Example C173_example : sf_wf reg33 /\ sf_clean reg33 /\ bins_meant (Some 5%Z) 5 /\ bin_range reg33 None (qz 0) (qz 5) /\ cells_showing reg33 (fun v => (qz 0 <= v <= qz 5)%num) 9 /\
  match get_histogram metre reg33 false false (Some 5%Z) None with Ok p => oeqb (nth 0 (yv p) None) (oz 6) && oeqb (nth 4 (yv p) None) (oz 3) | _ => false end%bool = true.
Proof.
  assert (S0 : forall c v, shows_at reg33 c v -> (qz 0 <= v)%num /\ (v <= qz 5)%num).
  { intros [i j] v (H1 & H2 & _ & E). cbn in H1, H2. destruct i as [|[|[|i]]]; [| | |exfalso; lia]; (destruct j as [|[|[|j]]]; [| | |exfalso; lia]); cbn in E; injection E as <-; split; apply qleb_le; vmr. }
  assert (NM : nothing_masked reg33).
  { intros i j H1 H2. cbn in H1, H2. destruct i as [|[|[|i]]]; [| | |exfalso; lia]; (destruct j as [|[|[|j]]]; [| | |exfalso; lia]); eexists; repeat split; cbn; lia. }
  split; [repeat split|]. split; [apply clean_b_ok; vmr|]. split; [split; [reflexivity|lia]|]. split; [|split; [|vmr]].
  - exists (qz 0), (qz 5). split; [split; [exact NM|]|left; split; [reflexivity|auto]]. split; (split; [|intros c v Q; apply (S0 c v Q)]); [exists (1, 1)|exists (2, 2)]; repeat split; cbn; lia.
  - exists (all_cells 3 3). split; [apply all_nodup|]. split; [reflexivity|]. intros [i j]. rewrite in_all. cbn [fst snd]. split.
    + intros [H1 H2]. destruct (NM i j H1 H2) as (v & S1). exists v. split; [exact S1|]. apply (S0 _ _ S1).
    + intros (v & (H1 & H2 & _) & _). auto.
Qed.
Example C178_masked_example : sf_wf ex_sf /\ sf_clean ex_sf /\ at_ (msk ex_sf) 1 0 = true.
Proof. split; [repeat split|]. split; [apply clean_b_ok; vmr|reflexivity]. Qed.
(** the abscissas are not the middles of the bins *)
Definition far22 : sfield := sf_of [0; 1]%Z [0; 1]%Z [[oz 10; oz 10]; [oz 12; oz 12]] [].
Theorem C178_middle_refuted : exists counts f p, sf_wf f /\ sf_clean f /\ bin_range f None (qz 10) (qz 12) /\ get_histogram counts f false false (Some 2%Z) None = Ok p /\
  nths (px p) 0 <> ((qz 10 + qz 11) / 2)%num /\ (qz 12 < nths (px p) 0)%num.
Proof.
  destruct (ok_ex (get_histogram metre far22 false false (Some 2%Z) None) (fun p => qeqb (nths (px p) 0) (qq 41 2))) as (p & E & H); [vmr|]. apply qeqb_eq in H.
  assert (S0 : forall c v, shows_at far22 c v -> (qz 10 <= v)%num /\ (v <= qz 12)%num).
  { intros [i j] v (H1 & H2 & _ & E'). cbn in H1, H2. destruct i as [|[|i]]; [| |exfalso; lia]; (destruct j as [|[|j]]; [| |exfalso; lia]); cbn in E'; injection E' as <-; split; apply qleb_le; vmr. }
  exists metre, far22, p. split; [repeat split|]. split; [apply clean_b_ok; vmr|]. split; [|split; [exact E|]].
  - exists (qz 10), (qz 12). split; [split|left; split; [reflexivity|auto]].
    + intros i j H1 H2. cbn in H1, H2. destruct i as [|[|i]]; [| |exfalso; lia]; (destruct j as [|[|j]]; [| |exfalso; lia]); eexists; repeat split; cbn; lia.
    + split; (split; [|intros c v Q; apply (S0 c v Q)]); [exists (0, 0)|exists (1, 1)]; repeat split; cbn; lia.
  - rewrite H. split; [intro Z; apply (f_equal this) in Z; vm_compute in Z; discriminate|reflexivity].
Qed.
Print Assumptions C178_middle_refuted.

