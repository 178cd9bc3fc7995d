(** * MirrorProofs3: the kept part and its extension *)
From Verif Require Import Num Res ListLib Arr FieldModel FieldSpec FieldProofs FieldProofs2 FieldProofs3 ScalarFieldModel ScalarProofs
  BlModel MirrorModel MirrorSpec MirrorProofs MirrorProofs2.
Open Scope num_scope.

Lemma list_nth_eq (l l' : list num) : length l = length l' -> (forall i, (i < length l)%nat -> nth_error l' i = nth_error l i) -> l' = l.
Proof.
  revert l'. induction l as [|a l IH]; intros [|b l'] L H; try discriminate; [reflexivity|].
  pose proof (H 0%nat ltac:(cbn; lia)) as Q. injection Q as ->. f_equal. apply IH; [now injection L|].
  intros i Hi. exact (H (S i) ltac:(cbn; lia)).
Qed.
Lemma axis_extends_none l l' : axis_extends l l' 0 0 -> l' = l.
Proof.
  intros (L & _ & _ & H & _). apply list_nth_eq; [lia|]. intros i Hi. exact (H i Hi).
Qed.
Lemma sub_increasing (l l' : list num) x0 : increasing l -> (forall i, (i < length l')%nat -> nth_error l' i = nth_error l (x0 + i)) -> increasing l'.
Proof.
  intros H E i j Hij Hj.
  pose proof (E i ltac:(lia)) as Ei. pose proof (E j Hj) as Ej.
  rewrite (nths_nth_error l' i) in Ei by lia. rewrite (nths_nth_error l' j) in Ej by exact Hj.
  symmetry in Ei, Ej. pose proof (nth_error_Some_lt _ _ _ Ej). apply nth_error_nths in Ei. apply nth_error_nths in Ej.
  rewrite <- Ei, <- Ej. apply H; lia.
Qed.
Lemma sub_evenly (l l' : list num) x0 dl : axis_evenly l dl -> (forall i, (i < length l')%nat -> nth_error l' i = nth_error l (x0 + i)) -> axis_evenly l' dl.
Proof.
  intros H E i Hi. pose proof (E i ltac:(lia)) as Ei. pose proof (E (S i) Hi) as Ej.
  rewrite (nths_nth_error l' i) in Ei by lia. rewrite (nths_nth_error l' (S i)) in Ej by exact Hi.
  symmetry in Ei, Ej. pose proof (nth_error_Some_lt _ _ _ Ej). apply nth_error_nths in Ei. apply nth_error_nths in Ej.
  rewrite <- Ei, <- Ej. replace (x0 + S i)%nat with (S (x0 + i)) by lia. apply H. lia.
Qed.
(** the nodes of an interval of an evenly spaced axis are evenly spaced *)
Lemma window_evenly A K dl (P : num -> Prop) : increasing A -> axis_evenly A dl -> increasing K ->
  (forall x, In x K <-> In x A /\ P x) -> (forall x y z, P x -> P z -> x <= y -> y <= z -> P y) -> axis_evenly K dl.
Proof.
  intros HA HE HK HI HP i Hi.
  assert (In (nths K i) K) as I1 by (apply nth_In; lia). assert (In (nths K (S i)) K) as I2 by (apply nth_In; lia).
  apply HI in I1. apply HI in I2. destruct I1 as [I1 P1], I2 as [I2 P2].
  apply (In_nth _ _ (qz 0)) in I1. apply (In_nth _ _ (qz 0)) in I2.
  destruct I1 as (a & La & Ea). destruct I2 as (b & Lb & Eb).
  assert (nths K i < nths K (S i)) as LT by (apply HK; lia).
  rewrite <- Ea, <- Eb in LT. apply increasing_lt_inv in LT; auto.
  destruct (Nat.eq_dec b (S a)) as [->|N]; [rewrite <- Ea, <- Eb; apply HE; exact Lb|]. exfalso.
  assert (nths A a < nths A (S a)) as B1 by (apply HA; lia). assert (nths A (S a) < nths A b) as B2 by (apply HA; lia).
  assert (In (nths A (S a)) K) as Q.
  { apply HI. split; [apply nth_In; lia|]. apply (HP (nths K i) _ (nths K (S i))); auto; rewrite <- ?Ea, <- ?Eb; qlra. }
  apply (In_nth _ _ (qz 0)) in Q. destruct Q as (c & Lc & Ec).
  rewrite Ea in B1. rewrite Eb in B2. rewrite <- Ec in B1, B2. apply increasing_lt_inv in B1; auto; try lia.
  apply increasing_lt_inv in B2; auto; lia.
Qed.

Lemma shows_idx f i j : inr f i j -> sf_shows f (nths (ax (sg f)) i) (nths (ay (sg f)) j) (at_ (values f) i j) (at_ (msk f) i j).
Proof. intros [H1 H2]. exists i, j. repeat split; now apply nths_nth_error. Qed.
Lemma clean_cells f : sf_clean f -> cells_clean f.
Proof.
  intros C i j R. destruct (C _ _ _ _ (shows_idx f i j R)) as [Q1 Q2].
  destruct (at_ (values f) i j), (at_ (msk f) i j); try reflexivity; [specialize (Q2 eq_refl)|specialize (Q1 eq_refl)]; discriminate.
Qed.
Lemma cells_clean_sf f : cells_clean f -> sf_clean f.
Proof.
  intros C x y v m (i & j & E1 & E2 & <- & <-). apply nth_error_Some_lt in E1. apply nth_error_Some_lt in E2.
  rewrite (C i j (conj E1 E2)). destruct (at_ (values f) i j); cbn; split; intro; congruence.
Qed.
Lemma without_border_sub f g : without_border f = Ok g -> sf_wf f -> grid_sorted (sg f) -> sf_clean f ->
  borderless f g /\ subgrid f g /\ sf_wf g /\ grid_sorted (sg g) /\ sf_clean g /\
  ux (sg g) = ux (sg f) /\ uy (sg g) = uy (sg f) /\ uv g = uv f.
Proof.
  intros H W [HX HY] C. unfold without_border in H.
  assert (borderless f g) as B.
  { unfold borderless. destruct (crop_masked_border f false) as [[g'|]|e]; cbn in H; try discriminate;
    injection H as <-; [left|right]; auto. }
  assert (subgrid f g /\ sf_wf g /\ ux (sg g) = ux (sg f) /\ uy (sg g) = uy (sg f) /\ uv g = uv f) as (S & W' & U1 & U2 & U3).
  { destruct B as [B|[_ ->]].
    - unfold crop_masked_border in B. destruct (any_masked f); [|discriminate].
      destruct (soft_crop f) as [h|] eqn:E; cbn in B; [|discriminate]. injection B as ->.
      destruct (soft_crop_sub f g E W) as [Q1 Q2]. split; [exact Q1|]. split; [exact Q2|].
      unfold soft_crop, sf_crop_ind, grid_crop_ind in E.
      destruct (first_ok (row_ok f) _); [|discriminate]. destruct (last_ok (row_ok f) _); [|discriminate].
      destruct (first_ok (col_ok f) _); [|discriminate]. destruct (last_ok (col_ok f) _); [|discriminate].
      destruct (crop_window_ind (ax (sg f)) _) as [[a b]|]; cbn [bind] in E; [|discriminate].
      destruct (crop_window_ind (ay (sg f)) _) as [[a' b']|]; cbn [bind] in E; [|discriminate].
      injection E as <-. repeat split; reflexivity.
    - repeat split; try apply W; try reflexivity. exists 0%nat, 0%nat. repeat split; intros; reflexivity. }
  split; [exact B|]. split; [exact S|]. split; [exact W'|].
  destruct S as (x0 & y0 & S1 & S2 & S3).
  split; [split; [apply (sub_increasing _ _ x0 HX S1)|apply (sub_increasing _ _ y0 HY S2)]|].
  split; [|auto].
  intros x y v m (i & j & E1 & E2 & <- & <-). pose proof (nth_error_Some_lt _ _ _ E1) as L1. pose proof (nth_error_Some_lt _ _ _ E2) as L2.
  destruct (S3 i j L1 L2) as [-> ->]. apply (C x y). exists (x0 + i)%nat, (y0 + j)%nat.
  rewrite <- S1, <- S2 by assumption. auto.
Qed.

(** ** The side *)
Lemma crop_along_part g d iv k : sf_wf g -> grid_sorted (sg g) -> sf_clean g -> crop_along g d iv = Ok k ->
  sf_wf k /\ sf_clean k /\ grid_sorted (sg k) /\ ux (sg k) = ux (sg g) /\ uy (sg k) = uy (sg g) /\ uv k = uv g /\
  (forall x y v m, sf_shows k x y v m <-> sf_shows g x y v m /\ in_iv (Some iv) (coord d x y)) /\
  (forall c, In c (pos_axis k d) <-> In c (pos_axis g d) /\ in_iv (Some iv) c).
Proof.
  intros W S C H.
  assert (ax (sg g) <> [] /\ ay (sg g) <> []) as [NX NY].
  { unfold crop_along, sf_crop, grid_crop, crop_window in H. destruct (ax (sg g)); [now destruct d|].
    destruct (ay (sg g)); [|split; discriminate]. exfalso. destruct d; cbn [guard bind] in H.
    - destruct iv as [a b]. match type of H with (let* _ := (let* _ := ?q in _) in _) = _ => destruct q end; cbn in H; discriminate.
    - match type of H with (let* _ := (let* _ := ?q in _) in _) = _ => destruct q end; cbn in H; discriminate. }
  assert (forall ivx ivy, sf_crop g ivx ivy = Ok k -> iv_ok (ax (sg g)) ivx /\ iv_ok (ay (sg g)) ivy) as OK.
  { intros ivx ivy E. destruct (sf_crop_lemma g ivx ivy W S NX NY) as [[Q _] _].
    assert (forall P : Prop, (P \/ ~ P) -> (~ P -> False) -> P) as DN by tauto.
    assert (forall A iv', iv_ok A iv' \/ ~ iv_ok A iv') as DEC.
    { intros A [[a b]|]; cbn; [|left; exact Logic.I]. destruct (qleb_spec a b), (qleb_spec (nths A 0) b), (qleb_spec a (last A (qz 0)));
      try (left; repeat split; assumption); right; intros (? & ? & ?); qlra. }
    split; apply DN; auto; intro N; rewrite Q in E by auto; discriminate. }
  assert (exists ivx ivy, sf_crop g ivx ivy = Ok k /\ (forall x y, in_iv (Some iv) (coord d x y) <-> in_iv ivx x /\ in_iv ivy y) /\
    match d with DX => ivx | DY => ivy end = Some iv) as (ivx & ivy & E & EQ & ED).
  { unfold crop_along in H. destruct d; [exists (Some iv), None|exists None, (Some iv)]; (split; [exact H|split; [|reflexivity]]); cbn; tauto. }
  destruct (OK ivx ivy E) as [O1 O2].
  destruct (sf_crop_lemma g ivx ivy W S NX NY) as [_ Q]. destruct (Q O1 O2) as (k' & E' & P1 & P2 & P3 & P4 & P5 & P6 & P7 & P8).
  rewrite E in E'. injection E' as <-.
  split; [exact P5|]. split.
  { intros x y v m Hs. apply P1 in Hs. apply (C x y). apply Hs. }
  split; [exact P4|]. split; [exact P6|]. split; [exact P7|]. split; [exact P8|]. split.
  - intros x y v m. rewrite P1, EQ. tauto.
  - intros c. destruct d; cbn [pos_axis]; rewrite <- ED; [apply P2|apply P3].
Qed.

Definition is_side (A : list num) (p : num) (s : side) : Prop := match s with Low => low_plane A p | High => high_plane A p end.
Definition sgn (s : side) : num := match s with Low => 1 | High => - (1) end.
(** the border used to measure the gap: the end of the axis of [f] when the plane is off this axis, else the end of the kept part *)
Definition gap_border (A K : list num) (p : num) (s : side) : num :=
  match s with
  | Low => if qltb p (nths A 0) then nths A 0 else nths K 0
  | High => if qltb (last A (qz 0)) p then last A (qz 0) else last K (qz 0)
  end.
Lemma side_kept A p s c : is_side A p s -> (kept_side A p c <-> 0 <= sgn s * (c - p)).
Proof.
  unfold kept_side, low_plane, high_plane. destruct s; cbn [is_side sgn]; unfold low_plane, high_plane; intro H.
  - split; [intros [[_ Q]|[Q _]]; qlra|]. intro. left. split; [exact H|qlra].
  - split; [intros [[Q _]|[_ Q]]; qlra|]. intro. right. split; [exact H|qlra].
Qed.
Lemma mirror_side_part f g d p k s b : sf_wf g -> grid_sorted (sg g) -> sf_clean g -> increasing (pos_axis f d) ->
  (forall x, In x (pos_axis g d) -> In x (pos_axis f d)) ->
  mirror_side f g d p = Ok (k, s, b) ->
  (2 <= length (pos_axis f d))%nat /\ is_side (pos_axis f d) p s /\ kept_part (pos_axis f d) d p g k /\
  (forall c, In c (pos_axis k d) <-> In c (pos_axis g d) /\ kept_side (pos_axis f d) p c) /\
  b = gap_border (pos_axis f d) (pos_axis k d) p s.
Proof.
  intros W S C HA HI H. unfold mirror_side in H.
  destruct (Nat.ltb_spec (length (pos_axis f d)) 2) as [?|LA]; cbn [guard] in H; [discriminate|]. split; [exact LA|].
  set (A := pos_axis f d) in *.
  assert (forall c, In c A -> nths A 0 <= c /\ c <= last A (qz 0)) as IN.
  { intros c Q. apply (In_nth _ _ (qz 0)) in Q. destruct Q as (i & L & <-). now apply last_le_nth. }
  assert (nths A 0 < last A (qz 0)) as LT. { rewrite last_nths by (intros Q; rewrite Q in LA; cbn in LA; lia). apply HA; lia. }
  set (me := (last A (qz 0) + nths A 0) / 2) in H.
  assert (me * 2 = last A (qz 0) + nths A 0) as ME by (unfold me; apply qdiv_mul; discriminate). clearbody me.
  assert (forall x y v m, sf_shows g x y v m -> In (coord d x y) (pos_axis g d)) as SI.
  { intros x y v m (i & j & E1 & E2 & _). destruct d; cbn [coord pos_axis]; eapply nth_error_In; eassumption. }
  assert (forall P : num -> Prop, (forall c, In c A -> P c) ->
           (forall x y v m, sf_shows g x y v m <-> sf_shows g x y v m /\ P (coord d x y))) as TR.
  { intros P HP x y v m. split; [|tauto]. intro Q. split; [exact Q|]. apply HP, HI. eapply SI; eauto. }
  destruct (qltb_spec p (nths A 0)) as [C1|C1].
  { injection H as <- <- <-.
    assert (is_side A p Low) as I by (cbn; unfold low_plane; qlra). split; [exact I|].
    assert (forall c, In c A -> kept_side A p c) as KA. { intros c Q. apply (side_kept A p Low c I). cbn. apply IN in Q. qlra. }
    split; [|split].
    - repeat (split; [assumption || reflexivity|]). now apply TR.
    - intro c. split; [|tauto]. intro Q. split; [exact Q|]. now apply KA, HI.
    - cbn. now rewrite (proj2 (qltb_lt _ _) C1). }
  destruct (qltb_spec (last A (qz 0)) p) as [C2|C2].
  { injection H as <- <- <-.
    assert (is_side A p High) as I by (cbn; unfold high_plane; qlra). split; [exact I|].
    assert (forall c, In c A -> kept_side A p c) as KA. { intros c Q. apply (side_kept A p High c I). cbn. apply IN in Q. qlra. }
    split; [|split].
    - repeat (split; [assumption || reflexivity|]). now apply TR.
    - intro c. split; [|tauto]. intro Q. split; [exact Q|]. now apply KA, HI.
    - cbn. now rewrite (proj2 (qltb_lt _ _) C2). }
  destruct (qltb_spec p me) as [C3|C3].
  { destruct (crop_along g d (p, last A (qz 0))) as [k'|] eqn:E; cbn [bind] in H; [|discriminate]. injection H as <- <- <-.
    destruct (crop_along_part g d _ k' W S C E) as (P1 & P2 & P3 & P4 & P5 & P6 & P7 & P8).
    assert (is_side A p Low) as I by (cbn; unfold low_plane; qlra). split; [exact I|].
    assert (forall c, In c A -> (in_iv (Some (p, last A (qz 0))) c <-> kept_side A p c)) as KA.
    { intros c Q. rewrite (side_kept A p Low c I). cbn [in_iv sgn]. apply IN in Q. split; [intros; qlra|]. intro. split; qlra. }
    split; [|split].
    - repeat (split; [assumption|]). intros x y v m. rewrite P7. split; intros [Q1 Q2]; (split; [exact Q1|]);
      apply KA; auto; apply HI; eapply SI; eauto.
    - intro c. rewrite P8. split; intros [Q1 Q2]; (split; [exact Q1|]); apply KA; auto.
    - cbn. now rewrite (proj2 (qltb_ge _ _) C1). }
  destruct (qltb_spec me p) as [C4|C4]; [|discriminate].
  destruct (crop_along g d (nths A 0, p)) as [k'|] eqn:E; cbn [bind] in H; [|discriminate]. injection H as <- <- <-.
  destruct (crop_along_part g d _ k' W S C E) as (P1 & P2 & P3 & P4 & P5 & P6 & P7 & P8).
  assert (is_side A p High) as I by (cbn; unfold high_plane; qlra). split; [exact I|].
  assert (forall c, In c A -> (in_iv (Some (nths A 0, p)) c <-> kept_side A p c)) as KA.
  { intros c Q. rewrite (side_kept A p High c I). cbn [in_iv sgn]. apply IN in Q. split; [intros; qlra|]. intro. split; qlra. }
  split; [|split].
  - repeat (split; [assumption|]). intros x y v m. rewrite P7. split; intros [Q1 Q2]; (split; [exact Q1|]);
    apply KA; auto; apply HI; eapply SI; eauto.
  - intro c. rewrite P8. split; intros [Q1 Q2]; (split; [exact Q1|]); apply KA; auto.
  - cbn. now rewrite (proj2 (qltb_ge _ _) C2).
Qed.
