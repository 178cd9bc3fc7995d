(** * Sf2Proofs2: surface integrals, even spacing. *)
From Coq Require Import Lia QArith Qcanon List ZArith.
From Verif Require Import Num Res ListLib SortLib Arr FieldModel ScalarFieldModel FieldSpec PointsSpec PointsProofs5 ProfileModel ProfileSpec ProfileProofs3 ProfileProofs4 CritProofs2 Prof2Model BlModel BlSpec BlProofs VpropSpec Sf2Model Sf2Spec.
From Verif Require Import FieldProofs FieldProofs2 ScalarProofs PodModel PodSpec PodProofs5 PodProofs8 Sf2Proofs.

Lemma crop_subgrid f ivx ivy f' : sf_crop f ivx ivy = Ok f' -> sf_wf f -> subgrid f f'.
Proof.
  intros H [[R0 R1] [M0 M1]]. unfold sf_crop, grid_crop in H.
  destruct (crop_window (ax (sg f)) ivx) as [[x0 x1]|] eqn:Ex; [|discriminate].
  destruct (crop_window (ay (sg f)) ivy) as [[y0 y1]|] eqn:Ey; [|discriminate].
  cbn [bind] in H. injection H as <-. unfold sf_crop_to, grid_crop_to.
  exists x0, y0. cbn [sg ax ay]. rewrite !slice_length. repeat split.
    + intros i Hi. apply nth_error_slice. lia.
    + intros i Hi. apply nth_error_slice. lia.
    + cbn [values at_ aslice msk raw]. destruct (at_ (msk f) (x0 + i) (y0 + j)); reflexivity.
Qed.
Lemma even_part (l l' : list num) k : even_axis l -> (forall i, i < length l' -> nth_error l' i = nth_error l (k + i)) -> even_axis l'.
Proof.
  intros (h & P & E) H. exists h. split; [exact P|]. intros i Hi.
  assert (N : forall i, i < length l' -> nths l' i = nths l (k + i) /\ k + i < length l).
  { intros j Hj. assert (Q := H j Hj). assert (L : nth_error l' j <> None) by (apply nth_error_Some; exact Hj). split; [|rewrite Q in L; now apply nth_error_Some].
    destruct (nth_error l' j) as [x|] eqn:E1; [|congruence]. rewrite (nth_error_nth _ _ (qz 0) E1). symmetry in Q. now rewrite (nth_error_nth _ _ (qz 0) Q). }
  destruct (N i Hi) as [-> L1]. destruct (N 0 ltac:(lia)) as [-> L2]. rewrite (E (k + i) L1), (E (k + 0) L2), Nat.add_0_r, qn_add. qring.
Qed.
Lemma reaches_ends (l l' : list num) iv a b : reaches l iv a b -> increasing l' -> (forall x, In x l' <-> In x l /\ FieldSpec.in_iv iv x) -> l' <> [] /\ nths l' 0 = a /\ last l' (qz 0) = b.
Proof.
  intros (A1 & A2 & B1 & B2 & R) I E. assert (IA : In a l') by (apply E; auto). assert (IB : In b l') by (apply E; auto). assert (NE : l' <> []) by (intros ->; contradiction).
  split; [exact NE|]. assert (L : 0 < length l') by (destruct l'; [congruence|cbn; lia]).
  apply (In_nth _ _ (qz 0)) in IA. destruct IA as (i & Hi & Ei). apply (In_nth _ _ (qz 0)) in IB. destruct IB as (j & Hj & Ej).
  rewrite last_nths by exact NE. split; apply Qcle_antisym.
  - rewrite <- Ei. destruct i; [apply qle_refl|]. apply Qclt_le_weak. apply I; lia.
  - apply R; apply E; apply nth_In; lia.
  - apply R; apply E; apply nth_In; lia.
  - rewrite <- Ej. destruct (Nat.eq_dec j (length l' - 1)) as [->|]; [apply qle_refl|]. apply Qclt_le_weak. apply I; lia.
Qed.
Lemma qn_mul' n m : qn (n * m) = (qn n * qn m)%num.
Proof. induction n as [|n IH]; cbn [Nat.mul]; [change (qn 0) with (qz 0); qring|]. rewrite qn_add, IH, qn_S. qring. Qed.
Lemma osum_total l : ScalarFieldModel.osum (map Some l) = Some (total l).
Proof. induction l as [|a l IH]; [reflexivity|]. cbn [map ScalarFieldModel.osum fold_right]. unfold ScalarFieldModel.osum in IH. rewrite IH. reflexivity. Qed.
(** the cropped field, when all is shown *)
Lemma surface_facts f ivx ivy x0 x1 y0 y1 : sf_wf f -> grid_sorted (sg f) -> all_shown f ivx ivy -> iv_ok2 (sg f) ivx ivy -> reaches (ax (sg f)) ivx x0 x1 -> reaches (ay (sg f)) ivy y0 y1 ->
  exists f' g, subgrid f f' /\ 0 < length (ax (sg f')) /\ 0 < length (ay (sg f')) /\ nths (ax (sg f')) 0 = x0 /\ last (ax (sg f')) (qz 0) = x1 /\ nths (ay (sg f')) 0 = y0 /\ last (ay (sg f')) (qz 0) = y1 /\
    (forall i j, i < length (ax (sg f')) -> j < length (ay (sg f')) -> sf_shows f (nths (ax (sg f')) i) (nths (ay (sg f')) j) (Some (g i j)) false /\ FieldSpec.in_iv ivx (nths (ax (sg f')) i) /\ FieldSpec.in_iv ivy (nths (ay (sg f')) j)) /\
    integrate_over_surface f ivx ivy = Ok (Some (total (map (fun p => g (fst p) (snd p)) (aidx (length (ax (sg f'))) (length (ay (sg f'))))) * (x1 - x0) * (y1 - y0) / qn (length (ax (sg f'))) / qn (length (ay (sg f')))),
       unit_mul (unit_mul (uv f) (ux (sg f))) (uy (sg f)))%num.
Proof.
  intros W G AS [OX OY] RX RY.
  assert (NX : ax (sg f) <> []) by (destruct RX as (I & _); intros Z; rewrite Z in I; contradiction). assert (NY : ay (sg f) <> []) by (destruct RY as (I & _); intros Z; rewrite Z in I; contradiction).
  destruct (sf_crop_lemma f ivx ivy W G NX NY) as [_ K]. destruct (K OX OY) as (f' & E & SH & IX & IY & [GX GY] & W' & UX & UY & UV). clear K.
  destruct (reaches_ends _ _ _ _ _ RX GX IX) as (NX' & X0 & X1). destruct (reaches_ends _ _ _ _ _ RY GY IY) as (NY' & Y0 & Y1).
  assert (LX : 0 < length (ax (sg f'))) by (destruct (ax (sg f')); [congruence|cbn; lia]). assert (LY : 0 < length (ay (sg f'))) by (destruct (ay (sg f')); [congruence|cbn; lia]).
  assert (CS : forall i j, i < length (ax (sg f')) -> j < length (ay (sg f')) -> sf_shows f' (nths (ax (sg f')) i) (nths (ay (sg f')) j) (at_ (values f') i j) (at_ (msk f') i j)).
  { intros i j Hi Hj. exists i, j. split; [now apply nth_error_nth'|]. split; [now apply nth_error_nth'|]. auto. }
  assert (CV : forall i j, i < length (ax (sg f')) -> j < length (ay (sg f')) -> at_ (msk f') i j = false /\ at_ (values f') i j <> None).
  { intros i j Hi Hj. pose proof (CS i j Hi Hj) as Q. apply SH in Q. destruct Q as (Q & Q1 & Q2). apply (AS _ _ _ _ Q Q1 Q2). }
  exists f', (fun i j => match at_ (values f') i j with Some v => v | None => qz 0 end). split; [apply (crop_subgrid _ _ _ _ E W)|]. do 6 (split; [assumption|]). split.
  - intros i j Hi Hj. pose proof (CS i j Hi Hj) as Q. destruct (CV i j Hi Hj) as [Z1 Z2]. rewrite Z1 in Q. destruct (at_ (values f') i j); [|congruence]. now apply SH.
  - unfold integrate_over_surface. rewrite E. cbn [bind]. unfold integrate_surface.
    destruct W' as [[D0 D1] [M0 M1]].
    assert (existsb (fun b => b) (flatten (msk f')) = false) as ->.
    { destruct (existsb (fun b => b) (flatten (msk f'))) eqn:Q; [|reflexivity]. apply existsb_exists in Q. destruct Q as (b & I & ->). unfold flatten in I. apply in_map_iff in I. destruct I as ([i j] & Q & I). rewrite M0, M1 in I. apply in_aidx in I. cbn in Q. rewrite (proj1 (CV i j (proj1 I) (proj2 I))) in Q. discriminate. }
    assert (Nat.eqb (length (ax (sg f'))) 0 = false) as -> by (apply Nat.eqb_neq; lia). assert (Nat.eqb (length (ay (sg f'))) 0 = false) as -> by (apply Nat.eqb_neq; lia). cbn [guard orb].
    rewrite (flatten_nums (values f') (length (ax (sg f'))) (length (ay (sg f'))) (fun i j => match at_ (values f') i j with Some v => v | None => qz 0 end)).
    + rewrite osum_total. cbn [option_map bind]. rewrite X0, X1, Y0, Y1, UX, UY, UV.
      assert (PX : (0 <= x1 - x0)%num) by (destruct RX as (_ & _ & B1 & B2 & R); destruct (R x1 B1 B2); qlra). assert (PY : (0 <= y1 - y0)%num) by (destruct RY as (_ & _ & B1 & B2 & R); destruct (R y1 B1 B2); qlra).
      unfold qabs. rewrite (proj2 (qleb_le _ _) PX), (proj2 (qleb_le _ _) PY). reflexivity.
    + split; assumption.
    + intros i j Hi Hj. destruct (CV i j Hi Hj) as [_ Z]. destruct (at_ (values f') i j); [reflexivity|congruence].
Qed.
(** the integral is between the extreme values times the area *)
Lemma surface_bounds f ivx ivy x0 x1 y0 y1 lo hi : sf_wf f -> grid_sorted (sg f) -> all_shown f ivx ivy -> iv_ok2 (sg f) ivx ivy -> reaches (ax (sg f)) ivx x0 x1 -> reaches (ay (sg f)) ivy y0 y1 ->
  (forall x y v, sf_shows f x y (Some v) false -> FieldSpec.in_iv ivx x -> FieldSpec.in_iv ivy y -> (lo <= v <= hi)%num) ->
  exists s, integrate_over_surface f ivx ivy = Ok (Some s, unit_mul (unit_mul (uv f) (ux (sg f))) (uy (sg f))) /\
    (lo * ((x1 - x0) * (y1 - y0)) <= s <= hi * ((x1 - x0) * (y1 - y0)))%num.
Proof.
  intros W G AS OK RX RY B. destruct (surface_facts f ivx ivy x0 x1 y0 y1 W G AS OK RX RY) as (f' & g & SG & LX & LY & _ & _ & _ & _ & SH & E). eexists. split; [exact E|].
  assert (PX : (0 <= x1 - x0)%num) by (destruct RX as (_ & _ & B1 & B2 & R); destruct (R x1 B1 B2); qlra). assert (PY : (0 <= y1 - y0)%num) by (destruct RY as (_ & _ & B1 & B2 & R); destruct (R y1 B1 B2); qlra).
  set (n := length (ax (sg f'))) in *. set (m := length (ay (sg f'))) in *. set (l := map (fun p => g (fst p) (snd p)) (aidx n m)).
  assert (TB : (lo * qn (length l) <= total l <= hi * qn (length l))%num).
  { apply total_bounds. intros v I. apply in_map_iff in I. destruct I as ([i j] & <- & I). apply in_aidx in I. destruct (SH i j (proj1 I) (proj2 I)) as (S1 & S2 & S3). apply (B _ _ _ S1 S2 S3). }
  assert (LL : length l = n * m) by (unfold l; rewrite map_length; apply aidx_length). rewrite LL, qn_mul' in TB.
  assert (PN : (0 < qn n)%num) by (destruct n; [lia|]; rewrite qn_S; pose proof (qn_nonneg n); qlra). assert (PM : (0 < qn m)%num) by (destruct m; [lia|]; rewrite qn_S; pose proof (qn_nonneg m); qlra).
  set (A := ((x1 - x0) * (y1 - y0))%num) in *. assert (PA : (0 <= A)%num) by now apply qmul_nonneg.
  replace (total l * (x1 - x0) * (y1 - y0) / qn n / qn m)%num with (total l / (qn n * qn m) * A)%num by (unfold A; qfield; repeat split; apply qgt_neq; assumption).
  assert (PNM : (0 < qn n * qn m)%num) by now apply qmul_pos. set (q := (total l / (qn n * qn m))%num). assert (D := qdiv_mul (total l) (qn n * qn m)%num ltac:(apply qgt_neq; exact PNM)). fold q in D. clearbody q. rewrite <- D in TB.
  assert (Q : (lo <= q <= hi)%num).
  { destruct TB as [T1 T2]. split.
    - destruct (Qclt_le_dec q lo) as [Z|]; [|assumption]. exfalso. pose proof (qmul_lt_r _ _ _ PNM Z). qlra.
    - destruct (Qclt_le_dec hi q) as [Z|]; [|assumption]. exfalso. pose proof (qmul_lt_r _ _ _ PNM Z). qlra. }
  split; apply qmul_le_r; tauto.
Qed.
Lemma even_sum (l : list num) : even_axis l -> l <> [] -> (sumn (length l) (fun i => nths l i) * 2 = qn (length l) * (nths l 0 + last l (qz 0)))%num.
Proof.
  intros (h & P & E) NE. rewrite last_nths by exact NE. assert (L : 0 < length l) by (destruct l; [congruence|cbn; lia]). rewrite (E (length l - 1)) by lia. set (a := nths l 0) in *.
  assert (S0 : forall n, n <= length l -> (sumn n (fun i => nths l i) * 2 = qn n * (a + a + (qn n - 1) * h))%num).
  { induction n as [|n IH]; intro H; [change (qn 0) with (qz 0); cbn; qring|]. change (sumn (S n) (fun i => nths l i)) with (sumn n (fun i => nths l i) + nths l n)%num. rewrite qn_S. assert (IHn := IH ltac:(lia)). rewrite (E n) by lia. fold a.
    replace ((sumn n (fun i => nths l i) + (a + qn n * h)) * 2)%num with (sumn n (fun i => nths l i) * 2 + (a + qn n * h) * 2)%num by qring. rewrite IHn. qring. }
  rewrite S0 by lia. replace (qn (length l - 1)) with (qn (length l) - 1)%num; [qring|]. destruct (length l) as [|k]; [lia|]. cbn [Nat.sub]. rewrite Nat.sub_0_r, qn_S. qring.
Qed.
(** linear variations are integrated exactly on regular axes *)
Lemma surface_affine f ivx ivy x0 x1 y0 y1 a b c : sf_wf f -> grid_sorted (sg f) -> all_shown f ivx ivy -> iv_ok2 (sg f) ivx ivy -> reaches (ax (sg f)) ivx x0 x1 -> reaches (ay (sg f)) ivy y0 y1 ->
  even_axis (ax (sg f)) -> even_axis (ay (sg f)) ->
  (forall x y v, sf_shows f x y (Some v) false -> FieldSpec.in_iv ivx x -> FieldSpec.in_iv ivy y -> v = (a + b * x + c * y)%num) ->
  integrate_over_surface f ivx ivy = Ok (Some ((a + b * ((x0 + x1) / 2) + c * ((y0 + y1) / 2)) * ((x1 - x0) * (y1 - y0))), unit_mul (unit_mul (uv f) (ux (sg f))) (uy (sg f)))%num.
Proof.
  intros W G AS OK RX RY EX EY B. destruct (surface_facts f ivx ivy x0 x1 y0 y1 W G AS OK RX RY) as (f' & g & (i0 & j0 & SX & SY & _) & LX & LY & X0 & X1 & Y0 & Y1 & SH & E). rewrite E. do 3 f_equal.
  apply (even_part _ _ _ EX) in SX. apply (even_part _ _ _ EY) in SY.
  assert (NX : ax (sg f') <> []) by (intros Z; rewrite Z in LX; cbn in LX; lia). assert (NY : ay (sg f') <> []) by (intros Z; rewrite Z in LY; cbn in LY; lia).
  apply even_sum in SX; [|exact NX]. apply even_sum in SY; [|exact NY]. rewrite X0, X1 in SX. rewrite Y0, Y1 in SY.
  set (n := length (ax (sg f'))) in *. set (m := length (ay (sg f'))) in *.
  rewrite total_aidx.
  assert (T : sumn n (fun i => sumn m (fun j => g i j)) = (qn n * qn m * a + b * qn m * sumn n (fun i => nths (ax (sg f')) i) + c * qn n * sumn m (fun j => nths (ay (sg f')) j))%num).
  { rewrite (sumn_ext n _ (fun i => ((a + b * nths (ax (sg f')) i) * qn m + c * sumn m (fun j => nths (ay (sg f')) j))%num)).
    - assert (Z : forall k, (sumn k (fun i => (a + b * nths (ax (sg f')) i) * qn m + c * sumn m (fun j => nths (ay (sg f')) j)) = qn k * qn m * a + b * qn m * sumn k (fun i => nths (ax (sg f')) i) + c * qn k * sumn m (fun j => nths (ay (sg f')) j))%num); [|apply Z].
      induction k as [|k IH]; [change (qn 0) with (qz 0); cbn; qring|]. cbn [sumn]; rewrite IH, qn_S. qring.
    - intros i Hi. assert (Z : forall k, k <= m -> sumn k (fun j => g i j) = ((a + b * nths (ax (sg f')) i) * qn k + c * sumn k (fun j => nths (ay (sg f')) j))%num); [|apply Z; lia].
      induction k as [|k IH]; intro Hk; [change (qn 0) with (qz 0); cbn; qring|]. cbn [sumn]; rewrite IH, qn_S by lia. destruct (SH i k Hi ltac:(lia)) as (S1 & S2 & S3). rewrite (B _ _ _ S1 S2 S3). qring. }
  rewrite T. set (sx := sumn n (fun i => nths (ax (sg f')) i)) in *. set (sy := sumn m (fun j => nths (ay (sg f')) j)) in *.
  assert (PN : (0 < qn n)%num) by (destruct n; [lia|]; rewrite qn_S; pose proof (qn_nonneg n); qlra). assert (PM : (0 < qn m)%num) by (destruct m; [lia|]; rewrite qn_S; pose proof (qn_nonneg m); qlra).
  assert (HX : sx = (qn n * ((x0 + x1) / 2))%num) by (replace sx with (sx * 2 / 2)%num by (qfield; discriminate); rewrite SX; qfield; discriminate).
  assert (HY : sy = (qn m * ((y0 + y1) / 2))%num) by (replace sy with (sy * 2 / 2)%num by (qfield; discriminate); rewrite SY; qfield; discriminate).
  rewrite HX, HY. qfield; repeat split; try discriminate; apply qgt_neq; assumption.
Qed.
(** a masked value in the rectangle *)
Lemma surface_masked f ivx ivy x y v : sf_wf f -> grid_sorted (sg f) -> iv_ok2 (sg f) ivx ivy -> sf_shows f x y v true -> FieldSpec.in_iv ivx x -> FieldSpec.in_iv ivy y ->
  integrate_over_surface f ivx ivy = Err GenericErr.
Proof.
  intros W G [OX OY] (i & j & Ex & Ey & Ev & Em) IX IY.
  assert (NX : ax (sg f) <> []) by (intros Z; rewrite Z in Ex; destruct i; discriminate). assert (NY : ay (sg f) <> []) by (intros Z; rewrite Z in Ey; destruct j; discriminate).
  destruct (sf_crop_lemma f ivx ivy W G NX NY) as [_ K]. destruct (K OX OY) as (f' & E & SH & _ & _ & _ & W' & _). clear K.
  assert (S1 : sf_shows f' x y v true) by (apply SH; repeat split; auto; exists i, j; auto). destruct S1 as (i' & j' & Ex' & Ey' & _ & Em').
  unfold integrate_over_surface. rewrite E. cbn [bind]. unfold integrate_surface. destruct W' as [_ [M0 M1]].
  assert (existsb (fun b => b) (flatten (msk f')) = true) as ->; [|reflexivity]. apply existsb_exists. exists true. split; [|reflexivity]. unfold flatten. apply in_map_iff. exists (i', j'). split; [exact Em'|].
  rewrite M0, M1. apply in_aidx. split; eapply nth_error_Some_lt; eassumption.
Qed.
