(** * AsciiProofs3: the orders of the lines of a scalar field. *)
From Coq Require Import Lia Permutation.
From Verif Require Import Num Res ListLib SortLib Arr FieldModel ScalarFieldModel VectorFieldModel FieldSpec ProfileModel PointsModel AsciiModel AsciiSpec.
From Verif Require Import RotateProofs FieldProofs FieldProofs2 GradProofs2 PodProofs AsciiProofs AsciiProofs2.

Lemma nth_error_rev' {A} (l : list A) i : i < length l -> nth_error (rev l) i = nth_error l (length l - 1 - i).
Proof.
  intros H. destruct l as [|d t] eqn:E; [cbn in H; lia|]. rewrite <- E in *. clear E t.
  rewrite (nth_error_nth' (rev l) d) by (now rewrite rev_length). rewrite (nth_error_nth' l d) by lia.
  rewrite rev_nth by assumption. do 2 f_equal. lia.
Qed.
Lemma cells_table g X Y val u w z :
  sf_cells g X Y (fun i j => val (nths X i) (nths Y j)) u w z -> sf_table g X Y val u w z.
Proof.
  intros (G & U & W & H). unfold sf_table. rewrite G. repeat (split; [first [reflexivity|assumption]|]).
  intros x y Hx Hy. destruct (In_nth_error _ _ Hx) as [i Hi]. destruct (In_nth_error _ _ Hy) as [j Hj].
  exists i, j. rewrite G. cbn [ax ay]. split; [assumption|]. split; [assumption|].
  destruct (H i j) as [H1 H2]; [eapply nth_error_Some_lt; eauto|eapply nth_error_Some_lt; eauto|].
  rewrite (nth_error_nths _ _ _ Hi), (nth_error_nths _ _ _ Hj) in *. auto.
Qed.

Lemma columns_lemma f n xc yc vc X Y val u w z :
  increasing X -> increasing Y -> 2 <= length X -> 2 <= length Y ->
  lists (gives1 xc yc vc) f (by_columns X Y val) -> regular f n -> 2 <= n ->
  exists g, import_sf f xc yc vc u w z = Ok g /\ sf_table g X Y val u w z.
Proof.
  intros IX IY LX LY L R N2.
  assert (length (by_columns X Y val) = length X * length Y) as Ll by apply grid_length.
  rewrite (import_sf_read f n xc yc vc _ u w z L R N2) by nia.
  destruct (columns_cells X Y (fun i j => val (nths X i) (nths Y j)) (by_columns X Y val) IX IY LX LY Ll u w z) as (g & E & C).
  { intros i j Hi Hj. unfold by_columns. now rewrite (grid_nth _ Y X i j (nths X i) (nths Y j)) by (now apply nths_nth_error). }
  exists g. split; [exact E|]. now apply cells_table.
Qed.
Lemma lines_lemma f n xc yc vc X Y val u w z :
  increasing X -> increasing Y -> 2 <= length X -> 2 <= length Y -> apart X Y ->
  lists (gives1 xc yc vc) f (by_lines X (rev Y) val) -> regular f n -> 2 <= n ->
  exists g, import_sf f xc yc vc u w z = Ok g /\ sf_table g X Y val u w z.
Proof.
  intros IX IY LX LY Ap L R N2.
  assert (length (by_lines X (rev Y) val) = length X * length Y) as Ll.
  { unfold by_lines. rewrite (grid_length (fun y x => (x, y, val x y))), rev_length. lia. }
  rewrite (import_sf_read f n xc yc vc _ u w z L R N2) by nia.
  destruct (lines_cells X Y (fun i j => val (nths X i) (nths Y j)) (by_lines X (rev Y) val) IX IY LX LY Ll u w z Ap) as (g & E & C).
  { intros i j Hi Hj. unfold by_lines.
    rewrite (grid_nth (fun y x => (x, y, val x y)) X (rev Y) j i (nths Y (length Y - 1 - j)) (nths X i)); [reflexivity| |now apply nths_nth_error].
    rewrite nth_error_rev' by assumption. apply nths_nth_error. lia. }
  exists g. split; [exact E|]. now apply cells_table.
Qed.

(** ** Any order *)
Lemma where_first_ok X x i : increasing X -> nth_error X i = Some x -> where_first x X = Ok i.
Proof.
  revert i; induction X as [|a X IH]; intros [|i] I E; cbn in *; try discriminate.
  - injection E as ->. now rewrite qeqb_refl.
  - apply increasing_cons_iff in I. destruct I as [I1 I2]. apply nth_error_In in E as Hin. specialize (I2 _ Hin).
    destruct (qeqb_spec x a) as [->|]; [exfalso; qlra|]. now rewrite (IH i).
Qed.
Lemma find_turn X x k : increasing X -> In x X -> k < length X ->
  exists i, (if qeqb (nths X k) x then Ok k else where_first x X) = Ok i /\ nth_error X i = Some x.
Proof.
  intros I H Hk. destruct (qeqb_spec (nths X k) x) as [<-|].
  - exists k. split; [reflexivity|]. now apply nths_nth_error.
  - destruct (In_nth_error _ _ H) as [i Hi]. exists i. split; [now apply where_first_ok|assumption].
Qed.
Lemma sf_loop_ok X Y : increasing X -> increasing Y -> forall l xi yi a,
  (forall p, In p l -> In (fst (fst p)) X /\ In (snd (fst p)) Y) -> xi < length X -> yi < length Y ->
  exists s, sf_loop X Y (xi, yi, a) l = Ok s /\ d0 (snd s) = d0 a /\ d1 (snd s) = d1 a /\
    forall i j x y, nth_error X i = Some x -> nth_error Y j = Some y ->
      at_ (snd s) j i = match final l x y None with Some v => Some v | None => at_ a j i end.
Proof.
  intros HX HY l. induction l as [|[[x0 y0] v] l IH]; intros xi yi a Hin Hxi Hyi.
  - eexists. split; [reflexivity|]. repeat split.
  - cbn [sf_loop sf_turn]. destruct (Hin _ (or_introl eq_refl)) as [Hx Hy]. cbn in Hx, Hy.
    destruct (find_turn X x0 xi HX Hx Hxi) as (i0 & -> & Ei). cbn [bind].
    destruct (find_turn Y y0 yi HY Hy Hyi) as (j0 & -> & Ej). cbn [bind].
    destruct (IH i0 j0 (aput a j0 i0 (Some v))) as (s & -> & D0 & D1 & H).
    { intros p Hp. apply Hin. now right. }
    { eapply nth_error_Some_lt; eauto. }
    { eapply nth_error_Some_lt; eauto. }
    exists s. split; [reflexivity|]. split; [assumption|]. split; [assumption|].
    intros i j x y Hi Hj. rewrite (H i j x y Hi Hj), aput_at. cbn [final fst snd].
    destruct (last_or_nothing l x y) as [Hn|[v' Hv]].
    2:{ now rewrite !(final_last _ _ _ _ v' Hv). }
    rewrite !(final_nothing _ _ _ _ Hn).
    destruct (qeqb_spec x0 x) as [->|Nx].
    + assert (i = i0) as -> by (apply (increasing_inj X); auto; [eapply nth_error_Some_lt; eauto|eapply nth_error_Some_lt; eauto|
        now rewrite (nth_error_nths _ _ _ Hi), (nth_error_nths _ _ _ Ei)]).
      destruct (qeqb_spec y0 y) as [->|Ny].
      * assert (j = j0) as -> by (apply (increasing_inj Y); auto; [eapply nth_error_Some_lt; eauto|eapply nth_error_Some_lt; eauto|
          now rewrite (nth_error_nths _ _ _ Hj), (nth_error_nths _ _ _ Ej)]).
        now rewrite !Nat.eqb_refl.
      * assert (j <> j0) by (intros ->; congruence). cbn. destruct (Nat.eqb_spec j j0); [congruence|]. reflexivity.
    + assert (i <> i0) by (intros ->; congruence). cbn. destruct (Nat.eqb_spec i i0); [congruence|]. now rewrite andb_false_r.
Qed.
Lemma sf_import_trans X Y v m u w z : increasing X -> increasing Y -> 2 <= length X -> 2 <= length Y -> length X <> length Y ->
  d0 v = length Y -> d1 v = length X ->
  sf_import X Y v (Some m) u w z = Ok (mksf (mkgrid X Y u w) (atrans v) (atrans (amap2 orb m (amap isnan v))) z).
Proof.
  intros Hx Hy Lx Ly Ne D0 D1. unfold sf_import.
  assert (Nat.ltb (length Y) 2 = false) as -> by (apply Nat.ltb_ge; exact Ly).
  assert (Nat.ltb (length X) 2 = false) as -> by (apply Nat.ltb_ge; exact Lx).
  rewrite andb_false_r. cbn [guard]. rewrite D0, D1, !Nat.eqb_refl, (proj2 (Nat.eqb_neq _ _) Ne). cbn [andb negb].
  rewrite !not_rev; auto; intros ->; simpl in *; lia.
Qed.
Lemma perm_table {V} (l : list (num * num * V)) X Y val : Permutation l (by_columns X Y val) ->
  length l = length X * length Y /\ (forall p, In p l -> In (fst (fst p)) X /\ In (snd (fst p)) Y) /\
  (forall x y, In x X -> In y Y -> forall d, final l x y d = Some (val x y)).
Proof.
  intros P. split; [rewrite (Permutation_length P); apply grid_length|]. split.
  - intros p Hp. apply (Permutation_in _ P) in Hp. unfold by_columns in Hp. apply grid_in in Hp. destruct Hp as (x & y & Hx & Hy & ->). auto.
  - intros x y Hx Hy d. destruct (last_or_nothing l x y) as [Hn|[v Hv]].
    + exfalso. apply (Hn (val x y)). apply (Permutation_in _ (Permutation_sym P)). unfold by_columns. apply grid_in. now exists x, y.
    + rewrite (final_last _ _ _ _ v Hv). destruct Hv as (a & b & -> & _).
      assert (In (x, y, v) (by_columns X Y val)) as Hin by (apply (Permutation_in _ P), in_elt).
      unfold by_columns in Hin. apply grid_in in Hin. destruct Hin as (x' & y' & _ & _ & [= -> -> ->]). reflexivity.
Qed.
Lemma axes_of_table {V} (l : list (num * num * V)) X Y : X <> [] -> Y <> [] -> increasing X -> increasing Y ->
  (forall p, In p l -> In (fst (fst p)) X /\ In (snd (fst p)) Y) ->
  (forall x y, In x X -> In y Y -> exists v, In (x, y, v) l) ->
  unique (map (fun p => fst (fst p)) l) = X /\ unique (map (fun p => snd (fst p)) l) = Y.
Proof.
  intros NX NY IX IY H1 H2. split; apply unique_is; try assumption.
  - intros x. rewrite x_in_map. split.
    + intros Hx. destruct Y as [|y Y']; [congruence|]. destruct (H2 x y Hx (or_introl eq_refl)) as [v Hv]. now exists y, v.
    + intros (y & v & Hv). now apply H1 in Hv.
  - intros y. rewrite y_in_map. split.
    + intros Hy. destruct X as [|x X']; [congruence|]. destruct (H2 x y (or_introl eq_refl) Hy) as [v Hv]. now exists x, v.
    + intros (x & v & Hv). now apply H1 in Hv.
Qed.
Lemma scattered_lemma f n xc yc vc l X Y val u w z :
  increasing X -> increasing Y -> 2 <= length X -> 2 <= length Y -> length X <> length Y ->
  lists (gives1 xc yc vc) f l -> Permutation l (by_columns X Y val) -> not_by_columns l X Y -> not_by_lines l X Y ->
  regular f n -> 2 <= n ->
  exists g, import_sf f xc yc vc u w z = Ok g /\ sf_table g X Y val u w z.
Proof.
  intros IX IY LX LY Ne L P (ic & Hic & Tc) (il & Hil & Tl) R N2.
  destruct (perm_table l X Y val P) as (Ll & Hin & Hf).
  rewrite (import_sf_read f n xc yc vc l u w z L R N2) by nia.
  assert (forall x y, In x X -> In y Y -> exists v, In (x, y, v) l) as Hall.
  { intros x y Hx Hy. exists (val x y). apply (Permutation_in _ (Permutation_sym P)). unfold by_columns. apply grid_in. now exists x, y. }
  destruct (axes_of_table l X Y) as [EX EY]; try assumption; try (intros ->; cbn in *; lia).
  unfold sf_body. cbv zeta. rewrite EX, EY. set (xs := map _ l) in *.
  assert (length xs = length X * length Y) as Lxs by (unfold xs; now rewrite map_length).
  unfold reshape at 1 2. rewrite Lxs, (Nat.mul_comm (length Y)), Nat.eqb_refl. cbn [negb guard bind].
  match goal with |- context [allclose (mean1 ?a) X] => assert (allclose (mean1 a) X = false) as -> end.
  { apply allclose_false with (i := ic); [unfold mean1; cbn; now rewrite map_length, seq_length|assumption|].
    unfold mean1. cbn [d0 d1 at_]. rewrite nth_map_seq by assumption. exact Tc. }
  match goal with |- context [allclose (mean0 ?a) X] => assert (allclose (mean0 a) X = false) as -> end.
  { apply allclose_false with (i := il); [unfold mean0; cbn; now rewrite map_length, seq_length|assumption|].
    unfold mean0. cbn [d0 d1 at_]. rewrite nth_map_seq by assumption. exact Tl. }
  unfold xs. rewrite !combine_map2. replace (map _ l) with l.
  2:{ rewrite <- (map_id l) at 1. apply map_ext. intros [[a b] c]. reflexivity. }
  destruct (sf_loop_ok X Y IX IY l 0 0 (afull (length Y) (length X) None) Hin) as (s & -> & D0 & D1 & H); [lia|lia|].
  cbn [bind fst snd]. cbn [afull d0 d1] in D0, D1. rewrite sf_import_trans by (assumption || (cbn; congruence)).
  eexists. split; [reflexivity|]. apply cells_table. split; [reflexivity|]. split; [reflexivity|]. split.
  { split; split; cbn; assumption. }
  intros i j Hi Hj. cbn. rewrite (H i j (nths X i) (nths Y j)) by (now apply nths_nth_error).
  rewrite Hf by (now apply nth_In). destruct (val (nths X i) (nths Y j)); auto.
Qed.

(** ** A missing point *)
Lemma in_incl_unique l : incl l (unique l). Proof. intros x. now rewrite unique_in. Qed.
Lemma missing_lemma f n xc yc vc l x y u w z :
  lists (gives1 xc yc vc) f l -> regular f n -> 2 <= n -> 2 <= length l ->
  NoDup (map fst l) -> x_in l x -> y_in l y -> nothing_at l x y ->
  import_sf f xc yc vc u w z = Err ValueErr.
Proof.
  intros L R N2 L2 ND Hx Hy Hn. rewrite (import_sf_read f n xc yc vc l u w z L R N2 L2). unfold sf_body. cbv zeta.
  set (X := unique (map (fun p => fst (fst p)) l)). set (Y := unique (map (fun p => snd (fst p)) l)).
  assert (length l < length X * length Y) as Lt.
  { assert (length ((x, y) :: map fst l) <= length (list_prod X Y)) as Le.
    { apply NoDup_incl_length.
      - constructor; [|assumption]. intros H. apply in_map_iff in H. destruct H as ([p v] & E & H). cbn in E. subst p. now apply (Hn v).
      - intros [a b] [[= <- <-]|H]; apply in_prod_iff; unfold X, Y; rewrite !unique_in, x_in_map, y_in_map; [now split|].
        apply in_map_iff in H. destruct H as ([p v] & E & H). cbn in E. subst p. split; [now exists b, v|now exists a, v]. }
    cbn in Le. rewrite prod_length, map_length in Le. lia. }
  unfold reshape at 1. rewrite map_length. destruct (Nat.eqb_spec (length l) (length X * length Y)); [lia|]. reflexivity.
Qed.
