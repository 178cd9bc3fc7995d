(** * PropAscii: text files (C128, C129, C130, C131).
    Statements, examples and counterexamples; the proofs are in AsciiProofs*.v and AsciiEx.v, the vocabulary in AsciiSpec, FieldSpec and ProfileSpec. *)
From Coq Require Import Lia Permutation.
From Verif Require Import Num Res ListLib SortLib Arr FieldModel ScalarFieldModel VectorFieldModel FieldSpec ProfileModel PointsModel ProfileSpec Concrete TemporalModel TemporalSpec TemporalEx
  AsciiModel AsciiSpec AsciiProofs AsciiProofs2 AsciiProofs3 AsciiProofs4 AsciiEx.

(** ** C128: a field written to a text file is read back *)
Theorem C128_scalar f :
  sf_wf f -> sf_clean f -> grid_sorted (sg f) -> 2 <= length (ax (sg f)) -> 2 <= length (ay (sg f)) ->
  exists g, import_sf (export_sf f) 1 2 3 (ux (sg f)) (uy (sg f)) (uv f) = Ok g /\ sf_same f g.
Proof. exact (sf_roundtrip_lemma f). Qed.
Print Assumptions C128_scalar.

Theorem C128_vector f :
  vf_wf f -> vf_nan_masked f -> grid_sorted (vg f) -> 2 <= length (ax (vg f)) -> 2 <= length (ay (vg f)) ->
  exists g, import_vf (export_vf f) 1 2 3 4 (ux (vg f)) (uy (vg f)) (vuv f) = Ok g /\ vf_same f g.
Proof. exact (vf_roundtrip_lemma f). Qed.
Print Assumptions C128_vector.

Example C128_example : sf_wf ex_sf /\ sf_clean ex_sf /\ grid_sorted (sg ex_sf) /\ 2 <= length (ax (sg ex_sf)) /\ 2 <= length (ay (sg ex_sf)) /\
  vf_wf ex_vf /\ vf_nan_masked ex_vf /\ grid_sorted (vg ex_vf) /\ 2 <= length (ax (vg ex_vf)) /\ 2 <= length (ay (vg ex_vf)) /\ length (export_vf ex_vf) = 7.
Proof.
  split; [repeat split|]. split; [apply clean_b_ok; reflexivity|]. split; [split; incr|]. split; [cbn; lia|]. split; [cbn; lia|].
  split; [repeat split|]. split; [apply vclean_b_ok; reflexivity|]. split; [split; incr|]. split; [cbn; lia|]. split; [cbn; lia|]. reflexivity.
Qed.

(** ** C129: a profile or a set of points written to a text file is read back *)
Theorem C129_profile_partial p :
  prof_ok p -> prof_clean p -> increasing (px p) -> 2 <= length (px p) ->
  exists q, import_prof (export_prof p) 1 2 (pux p) (puy p) = Ok q /\ px q = px p /\ yv q = yv p /\ pm q = pm p /\ pux q = pux p /\ puy q = puy p.
Proof. exact (profile_roundtrip_lemma p). Qed.
Print Assumptions C129_profile_partial.

Theorem C129_points_partial p :
  v_fits (pv p) (length (xy p)) = true -> 2 <= length (xy p) ->
  import_pts (export_pts p) 1 2 (if Nat.eqb (length (pv p)) 0 then None else Some 3) (ptx p) (pty p) (ptv p) = Ok p.
Proof. exact (points_roundtrip_lemma p). Qed.
Print Assumptions C129_points_partial.

Example C129_example : exists p, prof_new (zs [3; 1; 2]%Z) [oz 5; None; oz 7] None metre second = Ok p /\ prof_ok p /\ prof_clean p /\ increasing (px p) /\ 2 <= length (px p) /\
  v_fits [qz 4; qz 5] 2 = true.
Proof.
  eexists. split; [reflexivity|]. split; [repeat split|]. { apply increasing_nondecreasing. incr. }
  split; [|split; [incr|split; [cbn; lia|reflexivity]]]. intros t H. cbn in H. destruct H as [<-|[<-|[<-|[]]]]; reflexivity.
Qed.
(** a single sample or point cannot be read back *)
Theorem C129_profile_refuted p :
  length (px p) = 1 -> forall xc yc u w, 1 <= xc -> 1 <= yc ->
  import_prof (export_prof p) xc yc u w = Err IndexErr.
Proof. exact (profile_single_lemma p). Qed.
Print Assumptions C129_profile_refuted.

Theorem C129_points_refuted p :
  length (xy p) = 1 -> forall xc yc vc u w z, 1 <= xc -> 1 <= yc ->
  import_pts (export_pts p) xc yc vc u w z = Err IndexErr.
Proof. exact (points_single_lemma p). Qed.
Print Assumptions C129_points_refuted.

Example C129_single_example : exists p, prof_new (zs [3]%Z) [oz 5] None metre second = Ok p /\ length (px p) = 1 /\
  import_prof (export_prof p) 1 2 metre second = Err IndexErr.
Proof. eexists. split; [reflexivity|]. split; reflexivity. Qed.

(** ** C130: the lines of a file of vectors may be in any order, and some points missing *)
Theorem C130_any_order f n xc yc vxc vyc l u w z :
  lists (gives2 xc yc vxc vyc) f l -> regular f n -> 2 <= n -> two_x l -> two_y l ->
  exists g, import_vf f xc yc vxc vyc u w z = Ok g /\ vf_wf g /\ grid_sorted (vg g) /\
    ux (vg g) = u /\ uy (vg g) = w /\ vuv g = z /\
    (forall x, In x (ax (vg g)) <-> x_in l x) /\ (forall y, In y (ay (vg g)) <-> y_in l y) /\
    forall x y, x_in l x -> y_in l y ->
      (nothing_at l x y -> vf_shows g x y None None true) /\
      (forall vx vy, last_at l x y (vx, vy) ->
         let m := (isnan vx || isnan vy)%bool in
         vf_shows g x y (if m then None else vx) (if m then None else vy) m).
Proof. exact (import_vf_lemma f n xc yc vxc vyc l u w z). Qed.
Print Assumptions C130_any_order.

(** the point (1, 0) is missing and (0, 1) is given twice *)
Definition vec_ex : list (num * num * (onum * onum)) :=
  [(qz 1, qz 1, (oz 3, oz 4)); (qz 0, qz 1, (oz 9, oz 9)); (qz 0, qz 0, (oz 1, None)); (qz 0, qz 1, (oz 5, oz 6))].
Example C130_example : lists (gives2 1 2 3 4) (file_of2 vec_ex) vec_ex /\ regular (file_of2 vec_ex) 4 /\ two_x vec_ex /\ two_y vec_ex /\
  x_in vec_ex (qz 1) /\ y_in vec_ex (qz 0) /\ nothing_at vec_ex (qz 1) (qz 0) /\ last_at vec_ex (qz 0) (qz 1) (oz 5, oz 6) /\ last_at vec_ex (qz 0) (qz 0) (oz 1, None).
Proof.
  split; [apply file_of2_lists|]. split; [apply file_of2_regular|].
  assert (x_in vec_ex (qz 1)) as A by (exists (qz 1), (oz 3, oz 4); now left).
  assert (x_in vec_ex (qz 0)) as B by (exists (qz 0), (oz 1, None); right; right; now left).
  assert (y_in vec_ex (qz 1)) as C by (exists (qz 1), (oz 3, oz 4); now left).
  assert (y_in vec_ex (qz 0)) as D by (exists (qz 0), (oz 1, None); right; right; now left).
  split; [exists (qz 1), (qz 0); repeat split; try assumption; intros [=]|]. split; [exists (qz 1), (qz 0); repeat split; try assumption; intros [=]|].
  split; [assumption|]. split; [assumption|]. split; [intros v H; cbn in H; intuition discriminate|].
  split; [exists (firstn 3 vec_ex), []; split; [reflexivity|intros v []]|].
  exists (firstn 2 vec_ex), (skipn 3 vec_ex). split; [reflexivity|]. intros v H; cbn in H; intuition discriminate.
Qed.

(** ** C131: the lines of a file of scalars may be in any order *)
(** column after column, with y increasing *)
Theorem C131_columns_partial f n xc yc vc X Y val u w z :
  increasing X -> increasing Y -> 2 <= length X -> 2 <= length Y ->
  lists (gives1 xc yc vc) f (by_columns X Y val) -> regular f n -> 2 <= n ->
  exists g, import_sf f xc yc vc u w z = Ok g /\ sf_table g X Y val u w z.
Proof. exact (columns_lemma f n xc yc vc X Y val u w z). Qed.
Print Assumptions C131_columns_partial.

(** line after line, with y decreasing *)
Theorem C131_lines_partial f n xc yc vc X Y val u w z :
  increasing X -> increasing Y -> 2 <= length X -> 2 <= length Y -> apart X Y ->
  lists (gives1 xc yc vc) f (by_lines X (rev Y) val) -> regular f n -> 2 <= n ->
  exists g, import_sf f xc yc vc u w z = Ok g /\ sf_table g X Y val u w z.
Proof. exact (lines_lemma f n xc yc vc X Y val u w z). Qed.
Print Assumptions C131_lines_partial.

(** in an order that is neither, the axes having different lengths *)
Theorem C131_scattered_partial f n xc yc vc l X Y val u w z :
  increasing X -> increasing Y -> 2 <= length X -> 2 <= length Y -> length X <> length Y ->
  lists (gives1 xc yc vc) f l -> Permutation l (by_columns X Y val) -> not_by_columns l X Y -> not_by_lines l X Y ->
  regular f n -> 2 <= n ->
  exists g, import_sf f xc yc vc u w z = Ok g /\ sf_table g X Y val u w z.
Proof. exact (scattered_lemma f n xc yc vc l X Y val u w z). Qed.
Print Assumptions C131_scattered_partial.

Example C131_example : increasing X3 /\ increasing Y2 /\ 2 <= length X3 /\ 2 <= length Y2 /\ length X3 <> length Y2 /\ apart X3 Y2 /\
  lists (gives1 1 2 3) (file_of (by_columns X3 Y2 val_ex)) (by_columns X3 Y2 val_ex) /\ lists (gives1 1 2 3) (file_of (by_lines X3 (rev Y2) val_ex)) (by_lines X3 (rev Y2) val_ex) /\
  lists (gives1 1 2 3) (file_of rect_ex) rect_ex /\ Permutation rect_ex (by_columns X3 Y2 val_ex) /\ not_by_columns rect_ex X3 Y2 /\ not_by_lines rect_ex X3 Y2 /\
  regular (file_of rect_ex) 3.
Proof.
  split; [incr|]. split; [incr|]. split; [cbn; lia|]. split; [cbn; lia|]. split; [cbn; lia|]. split; [now apply qltb_lt|].
  split; [apply file_of_lists|]. split; [apply file_of_lists|]. split; [apply file_of_lists|]. split.
  { apply NoDup_Permutation.
    - repeat constructor; cbn; intuition discriminate.
    - repeat constructor; cbn; intuition discriminate.
    - intros p. unfold by_columns. rewrite (grid_in (fun x y => (x, y, val_ex x y))). split.
      + intros H. unfold rect_ex in H. apply in_map_iff in H. destruct H as ([a b] & <- & H).
        exists (qz a), (qz b). split; [|split; [|reflexivity]]; cbn in H; repeat (destruct H as [[= <- <-]|H]; [cbn; tauto|]); destruct H.
      + intros (x & y & Hx & Hy & ->). cbn in Hx, Hy.
        destruct Hx as [<-|[<-|[<-|[]]]], Hy as [<-|[<-|[]]]; unfold rect_ex; cbn; tauto. }
  split; [exists 0; split; [cbn; lia|now apply qltb_lt]|]. split; [exists 0; split; [cbn; lia|now apply qltb_lt]|]. apply file_of_regular.
Qed.
(** lines with different numbers of columns are refused, by all the importers *)
Theorem C131_ragged_partial f r s :
  In (Row r) f -> In (Row s) f -> r <> [] -> s <> [] -> length r <> length s ->
  (forall xc yc vc u w z, import_sf f xc yc vc u w z = Err ValueErr) /\ (forall xc yc vxc vyc u w z, import_vf f xc yc vxc vyc u w z = Err ValueErr) /\
  (forall xc yc u w, import_prof f xc yc u w = Err ValueErr) /\ (forall xc yc vc u w z, import_pts f xc yc vc u w z = Err ValueErr).
Proof. exact (ragged_lemma f r s). Qed.
Print Assumptions C131_ragged_partial.

Example C131_ragged_example : In (Row [oz 1; oz 2; oz 3]) [Comment; Row [oz 1; oz 2; oz 3]; Row [oz 4; oz 5]] /\ In (Row [oz 4; oz 5]) [Comment; Row [oz 1; oz 2; oz 3]; Row [oz 4; oz 5]].
Proof. cbn. tauto. Qed.
(** upside down: line after line with y increasing, column after column with y decreasing *)
Theorem C131_lines_up_refuted :
  misread (by_lines X3 Y2 val_ex) X3 Y2 val_ex.
Proof. exact lines_up_lemma. Qed.
Print Assumptions C131_lines_up_refuted.

Theorem C131_columns_down_refuted :
  misread (by_columns X3 (rev Y2) val_ex) X3 Y2 val_ex.
Proof. exact columns_down_lemma. Qed.
Print Assumptions C131_columns_down_refuted.

(** transposed: in any order, with as many columns as lines *)
Theorem C131_square_refuted :
  misread square_ex X3 X3 val_ex.
Proof. exact square_lemma. Qed.
Print Assumptions C131_square_refuted.

(** upside down: a well ordered file, with abscissae closer than numpy's tolerance *)
Theorem C131_tiny_refuted :
  misread (by_lines Xn (rev Y2) val_ex) Xn Y2 val_ex.
Proof. exact tiny_lemma. Qed.
Print Assumptions C131_tiny_refuted.

(** a point is missing: ValueError *)
Theorem C131_missing_refuted f n xc yc vc l x y u w z :
  lists (gives1 xc yc vc) f l -> regular f n -> 2 <= n -> 2 <= length l ->
  NoDup (map fst l) -> x_in l x -> y_in l y -> nothing_at l x y ->
  import_sf f xc yc vc u w z = Err ValueErr.
Proof. exact (missing_lemma f n xc yc vc l x y u w z). Qed.
Print Assumptions C131_missing_refuted.

Example C131_missing_example : let l := tl rect_ex in lists (gives1 1 2 3) (file_of l) l /\ regular (file_of l) 3 /\ 2 <= length l /\ NoDup (map fst l) /\
  x_in l (qz 2) /\ y_in l (qz 0) /\ nothing_at l (qz 2) (qz 0).
Proof.
  cbv zeta. split; [apply file_of_lists|]. split; [apply file_of_regular|]. split; [cbn; lia|]. split; [repeat constructor; cbn; intuition discriminate|].
  split; [exists (qz 1), (val_ex (qz 2) (qz 1)); cbn; tauto|]. split; [exists (qz 0), (val_ex (qz 0) (qz 0)); cbn; tauto|].
  intros v H. cbn in H. intuition discriminate.
Qed.
