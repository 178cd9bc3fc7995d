From Verif Require Import Num Res ListLib SortLib Arr FieldModel ScalarFieldModel FieldSpec FieldProofs2 ProfileModel ProfileSpec.

Lemma nan_at_length m y : length m = length y -> length (nan_at m y) = length y.
Proof. intro E. unfold nan_at. rewrite map_length, combine_length. lia. Qed.
Lemma yv_length p : length (pm p) = length (py p) -> length (yv p) = length (py p).
Proof. apply nan_at_length. Qed.
Lemma nan_at_isnan v : nan_at (map isnan v) v = v.
Proof. induction v as [|[a|] v IH]; [reflexivity| |]; unfold nan_at in *; simpl; now rewrite IH. Qed.
Lemma nan_at_idem m y : nan_at m (nan_at m y) = nan_at m y.
Proof.
  revert y; induction m as [|b m IH]; intros [|a y]; try reflexivity. unfold nan_at in *. simpl. rewrite IH. destruct b; reflexivity.
Qed.
Lemma nan_at_app m m' y y' : length m = length y -> nan_at (m ++ m') (y ++ y') = nan_at m y ++ nan_at m' y'.
Proof. intro E. unfold nan_at. rewrite combine_app' by exact E. apply map_app. Qed.
Lemma nan_at_gather o m y : length m = length y -> (forall i, In i o -> i < length m) ->
  nan_at (gather false o m) (gather None o y) = gather None o (nan_at m y).
Proof.
  intros E H. unfold nan_at. rewrite gather_combine by assumption. unfold gather. rewrite map_map. apply map_ext_in.
  intros i Hi. specialize (H i Hi).
  rewrite (nth_indep (map (fun t : bool * onum => if fst t then None else snd t) (combine m y)) None ((fun t : bool * onum => if fst t then None else snd t) (false, None))).
  - rewrite (map_nth (fun t : bool * onum => if fst t then None else snd t)). reflexivity.
  - rewrite map_length, combine_length. lia.
Qed.
Lemma nan_at_slice i j m y : length m = length y -> nan_at (slice i j m) (slice i j y) = slice i j (nan_at m y).
Proof. intro E. unfold nan_at. rewrite slice_combine by exact E. unfold slice. now rewrite skipn_map, firstn_map. Qed.
Lemma map_keep {A B} (f : A -> B) b l : map f (keep b l) = keep b (map f l).
Proof. revert l; induction b as [|c b IH]; intros [|x l]; try reflexivity. simpl. destruct c; simpl; now rewrite IH. Qed.
Lemma nan_at_keep f m y : nan_at (keep f m) (keep f y) = keep f (nan_at m y).
Proof. unfold nan_at. rewrite keep_combine. apply map_keep. Qed.

Lemma yv_isnan x v u w : yv (mkprof x v (map isnan v) u w) = v.
Proof. apply nan_at_isnan. Qed.
Lemma aligned_ok p : prof_ok p -> aligned p = true.
Proof. intros (H1 & H2 & _). unfold aligned. apply Nat.eqb_eq. lia. Qed.
Lemma samples_length p : prof_ok p -> length (samples p) = length (px p).
Proof. intros (H1 & H2 & _ & H4). unfold samples, zip3. rewrite !combine_length, H4. lia. Qed.

(** ** the x setter *)
Lemma zip3_gather o x y m : length x = length y -> length m = length y -> (forall i, In i o -> i < length x) ->
  zip3 (gather (qz 0) o x) (gather None o y) (gather false o m) = gather (qz 0, None, false) o (zip3 x y m).
Proof.
  intros E1 E2 H. unfold zip3. rewrite gather_combine by (auto; lia). apply gather_combine.
  - rewrite combine_length. lia.
  - intros i Hi. rewrite combine_length. specialize (H i Hi). lia.
Qed.
Lemma zip3_length x y m : length x = length y -> length m = length y -> length (zip3 x y m) = length x.
Proof. intros. unfold zip3. rewrite !combine_length. lia. Qed.
Lemma short_sorted l : length l <= 1 -> nondecreasing l.
Proof. intros H i j Hij Hj. replace i with 0 by lia. replace j with 0 by lia. apply qle_refl. Qed.
Lemma set_x_spec p v : length v = length (py p) -> length (pm p) = length (py p) -> yv p = py p ->
  exists p', set_x p v = (p', None) /\ prof_ok p' /\ Permutation (samples p') (zip3 v (yv p) (pm p)) /\
    (nondecreasing v -> samples p' = zip3 v (yv p) (pm p)) /\ pux p' = pux p /\ puy p' = puy p.
Proof.
  intros E1 E2 Y. unfold set_x. rewrite E1, Nat.eqb_refl. cbn [negb].
  destruct (Nat.ltb_spec 1 (length (py p))) as [C|C].
  - assert (Nat.ltb (length (pm p)) (length (py p)) = false) as -> by (apply Nat.ltb_ge; lia).
    eexists. split; [reflexivity|]. cbn [px py pm pux puy].
    assert (Z : zip3 (gather (qz 0) (argsort v) v) (nan_at (gather false (argsort v) (pm p)) (gather None (argsort v) (py p))) (gather false (argsort v) (pm p))
      = gather (qz 0, None, false) (argsort v) (zip3 v (yv p) (pm p))).
    { rewrite nan_at_gather by (try lia; intros i Hi; apply argsort_in in Hi; lia).
      fold (yv p). apply zip3_gather; try (rewrite Y; lia). intros i Hi. now apply argsort_in. }
    assert (L : length (zip3 v (yv p) (pm p)) = length v) by (apply zip3_length; rewrite Y; lia).
    split; [|split; [|split; [|auto]]].
    + unfold prof_ok, yv. cbn [px py pm]. rewrite !gather_length. repeat split; auto; [apply argsort_sorted|].
      rewrite nan_at_gather by (try lia; intros i Hi; apply argsort_in in Hi; lia). fold (yv p). now rewrite Y.
    + unfold samples, yv at 1. cbn [px py pm]. rewrite Z. apply gather_perm. rewrite L. apply argsort_perm.
    + intro S. unfold samples, yv at 1. cbn [px py pm]. rewrite Z, argsort_id by exact S. rewrite <- L. apply gather_seq.
  - eexists. split; [reflexivity|]. unfold prof_ok, samples, yv. cbn [px py pm pux puy]. fold (yv p).
    repeat split; auto; try lia. apply short_sorted. lia.
Qed.
Lemma set_y_spec p v : exists p', set_y p v = (p', None) /\ px p' = px p /\ py p' = v /\ pm p' = map isnan v /\ yv p' = v /\ pux p' = pux p /\ puy p' = puy p.
Proof. eexists. split; [reflexivity|]. unfold yv. simpl. repeat split. apply nan_at_isnan. Qed.

(** y then x *)
Lemma replace_spec p x y : length x = length y ->
  exists p', thenp (set_y p y) (fun p1 => set_x p1 x) = (p', None) /\ prof_ok p' /\
    Permutation (samples p') (zip3 x y (map isnan y)) /\ (nondecreasing x -> samples p' = zip3 x y (map isnan y)) /\
    pux p' = pux p /\ puy p' = puy p.
Proof.
  intro E. destruct (set_y_spec p y) as (p1 & E1 & A & B & C & D & U & W). rewrite E1. cbn [thenp].
  destruct (set_x_spec p1 x) as (p2 & E2 & O & P & Q & U2 & W2); [congruence|rewrite C, B, map_length; reflexivity|congruence|].
  exists p2. rewrite D, C in *. split; [exact E2|]. split; [exact O|]. split; [exact P|]. split; [exact Q|]. split; congruence.
Qed.
Lemma set_pmask_spec p m : length m = length (py p) -> length (py p) = length (px p) -> nondecreasing (px p) ->
  exists p', set_pmask p m = (p', None) /\ prof_ok p' /\ samples p' = zip3 (px p) (nan_at m (py p)) m /\ pux p' = pux p /\ puy p' = puy p.
Proof.
  intros E1 E2 S. unfold set_pmask. rewrite E1, Nat.eqb_refl. eexists. split; [reflexivity|].
  unfold prof_ok, samples, yv. cbn [px py pm pux puy]. rewrite nan_at_idem, nan_at_length by lia. repeat split; auto; lia.
Qed.
Lemma zip3_map_y (f : onum -> onum) x y : zip3 x (map f y) (map isnan (map f y)) = map (fun t => (sx t, f (sy t), isnan (f (sy t)))) (zip3 x y (map isnan y)).
Proof. revert y; induction x as [|a x IH]; intros [|b y]; try reflexivity. unfold zip3 in *. simpl. now rewrite IH. Qed.
Lemma zip3_remask x y m : length x = length y -> length m = length y -> zip3 x y (map isnan y) = map remask (zip3 x y m).
Proof.
  revert y m; induction x as [|a x IH]; intros [|b y] [|c m] E1 E2; try discriminate; [reflexivity|]. unfold zip3 in *. simpl in *. rewrite (IH y m) by lia. reflexivity.
Qed.
Lemma map_insert {A B} (f : A -> B) i x l : map f (insert_at i x l) = insert_at i (f x) (map f l).
Proof. unfold insert_at. now rewrite map_app, firstn_map, skipn_map. Qed.
Lemma map_delete {A B} (f : A -> B) i l : map f (delete_at i l) = delete_at i (map f l).
Proof. unfold delete_at. now rewrite map_app, firstn_map, skipn_map. Qed.

Lemma ok_lengths p : prof_ok p -> length (yv p) = length (px p) /\ length (pm p) = length (px p) /\ nondecreasing (px p).
Proof. intros (H1 & H2 & H3 & H4). rewrite H4. auto. Qed.

Lemma existsb_keep_false (m : list onum) : existsb (fun b => b) (map isnan m) = false -> forallb (fun y => negb (isnan y)) m = true.
Proof. induction m as [|a m IH]; simpl; [reflexivity|]. destruct (isnan a); simpl; [discriminate|exact IH]. Qed.
Lemma zip3_filter x y m : length x = length y -> length m = length y -> (forall i, nth i m false = true -> nth i y None = None) ->
  zip3 (keep (map negb (map isnan y)) x) (keep (map negb (map isnan y)) y) (map isnan (keep (map negb (map isnan y)) y)) =
  filter (fun t => negb (isnan (sy t))) (zip3 x y m).
Proof.
  revert y m; induction x as [|a x IH]; intros [|b y] [|c m] E1 E2 H; try discriminate; [reflexivity|].
  assert (IH' := IH y m ltac:(simpl in *; lia) ltac:(simpl in *; lia) (fun i => H (S i))).
  unfold zip3 in *. simpl. change (sy (a, b, c)) with b. destruct (isnan b) eqn:N; simpl; [exact IH'|]. f_equal; [|exact IH'].
  rewrite N. f_equal. destruct c; [|reflexivity]. specialize (H 0 eq_refl). simpl in H. subst b. discriminate.
Qed.
Lemma yv_nan p i : nth i (pm p) false = true -> nth i (yv p) None = None.
Proof.
  unfold yv. generalize (py p) as y. generalize (pm p) as m. intro m. revert i. induction m as [|c m IH]; intros i y H; [destruct i; discriminate|].
  destruct y as [|b y]; [destruct i; reflexivity|]. destruct i as [|i]; unfold nan_at in *; simpl in *; [now rewrite H|now apply IH].
Qed.
Lemma keep_all {A} (f : list bool) (l : list A) : length f = length l -> forallb (fun b => b) f = true -> keep f l = l.
Proof. revert l; induction f as [|b f IH]; intros [|x l] E H; try discriminate; [reflexivity|]. simpl in *. destruct b; [|discriminate]. f_equal. apply IH; [lia|exact H]. Qed.
Lemma filter_all {A} (p : A -> bool) l : (forall x, In x l -> p x = true) -> filter p l = l.
Proof. intro H. induction l as [|x l IH]; [reflexivity|]. simpl. rewrite (H x (or_introl eq_refl)). f_equal. apply IH. intros y Hy. apply H. now right. Qed.
Lemma in_zip3 x y m t : In t (zip3 x y m) -> In (sx t) x /\ In (sy t) y /\ In (smask t) m.
Proof.
  destruct t as [[a b] c]. unfold zip3, sx, sy, smask. simpl. intro H. pose proof (in_combine_l _ _ _ _ H) as H1. pose proof (in_combine_r _ _ _ _ H).
  pose proof (in_combine_l _ _ _ _ H1). pose proof (in_combine_r _ _ _ _ H1). auto.
Qed.

(** ** crop *)
Lemma crop_data_shape p ivx ivy x y m : prof_ok p -> crop_data p ivx ivy = Ok (x, y, m) ->
  length y = length x /\ length m = length x /\ nondecreasing x /\ nan_at m y = y /\ subseq (zip3 x y m) (samples p).
Proof.
  intros OK H. pose proof (ok_lengths p OK) as (L1 & L2 & S). unfold crop_data in H.
  apply guard_ok in H. destruct H as [_ H]. apply guard_ok in H. destruct H as [_ H]. apply guard_ok in H. destruct H as [_ H].
  assert (Y : nan_at (pm p) (yv p) = yv p) by (unfold yv; apply nan_at_idem).
  assert (K : forall x1 y1 m1, 
     (match ivx with
     | None => Ok (px p, yv p, pm p)
     | Some (a, b) =>
       raise ValueErr when (Nat.eqb (length (px p)) 0) ;;
       raise ValueErr when ((qltb a (lmin (px p)) && qltb b (lmin (px p))) || (qltb (lmax (px p)) a && qltb (lmax (px p)) b))%bool ;;
       let (i1, i2) := crop_inds (px p) a b in
       Ok (slice i1 i2 (px p), slice i1 i2 (yv p), slice i1 i2 (pm p))
     end) = Ok (x1, y1, m1) ->
     length y1 = length x1 /\ length m1 = length x1 /\ nondecreasing x1 /\ nan_at m1 y1 = y1 /\ subseq (zip3 x1 y1 m1) (samples p)).
  { intros x1 y1 m1 E. destruct ivx as [[a b]|].
    - apply guard_ok in E. destruct E as [_ E]. apply guard_ok in E. destruct E as [_ E].
      destruct (crop_inds (px p) a b) as [i1 i2]. injection E as <- <- <-.
      rewrite !slice_length, L1, L2. repeat split; auto; [now apply nondecreasing_slice|rewrite nan_at_slice by lia; now rewrite Y|].
      unfold zip3. rewrite slice_combine by lia. rewrite slice_combine by (rewrite combine_length; lia).
      fold (zip3 (px p) (yv p) (pm p)). fold (samples p). 
      exists (map (fun k => (Nat.leb i1 k && Nat.ltb k i2)%bool) (seq 0 (length (samples p)))).
      rewrite map_length, seq_length. split; [reflexivity|].
      generalize (samples p) as l. clear. intro l.
      assert (G : forall (l : list sample) a, keep (map (fun k => (Nat.leb i1 k && Nat.ltb k i2)%bool) (seq a (length l))) l = slice (i1 - a) (i2 - a) l).
      { induction l0 as [|t l0 IH]; intro a; unfold slice in *.
        - simpl. now rewrite skipn_nil, firstn_nil.
        - cbn [length seq map keep]. rewrite IH. destruct (Nat.leb_spec i1 a) as [A|A]; cbn [andb].
          + replace (i1 - a) with 0 by lia. replace (i1 - S a) with 0 by lia. cbn [skipn].
            destruct (Nat.ltb_spec a i2) as [B|B].
            * replace (i2 - a - 0) with (S (i2 - S a - 0)) by lia. reflexivity.
            * replace (i2 - a - 0) with 0 by lia. replace (i2 - S a - 0) with 0 by lia. reflexivity.
          + replace (i1 - a) with (S (i1 - S a)) by lia. cbn [skipn]. f_equal. lia. }
      rewrite G. f_equal; lia.
    - injection E as <- <- <-. repeat split; auto.
      exists (repeat true (length (samples p))). rewrite repeat_length. split; [reflexivity|]. symmetry. apply keep_all; [now rewrite repeat_length|].
      apply forallb_forall. intros b Hb. now apply repeat_spec in Hb. }
  match type of H with bind ?r ?k = _ => destruct r as [[[x1 y1] m1]|e] eqn:E; cbn [bind] in H; [|discriminate] end.
  specialize (K _ _ _ eq_refl). destruct K as (K1 & K2 & K3 & K4 & K5). destruct ivy as [[a b]|].
  - apply guard_ok in H. destruct H as [G H]. injection H as <- <- <-. apply negb_false_iff, Nat.eqb_eq in G. rewrite map_length in G.
    split; [now apply keep_length_eq|]. split; [now apply keep_length_eq|]. split; [now apply nondecreasing_keep|].
    split; [rewrite nan_at_keep; now rewrite K4|].
    unfold zip3. rewrite !keep_combine. fold (zip3 x1 y1 m1).
    assert (LL : length x1 = length (samples p)) by (rewrite samples_length by exact OK; lia).
    destruct K5 as (f & F1 & F2).
    assert (zip3 x1 y1 m1 = samples p) as ->.
    { assert (T : length (zip3 x1 y1 m1) = length (samples p)) by (rewrite zip3_length; lia). rewrite F2 in T |- *.
      assert (G2 : forall A (g : list bool) (l : list A), length g = length l -> length (keep g l) = length l -> keep g l = l).
      { intros A g. induction g as [|c g IH]; intros [|t l] Q1 Q2; try discriminate; [reflexivity|]. simpl in *. destruct c; simpl in *; [f_equal; apply IH; lia|].
        pose proof (keep_length_le g l). lia. }
      apply G2; assumption. }
    exists (map (oin a b) (yv p)). rewrite map_length. split; [|reflexivity]. rewrite samples_length by exact OK. exact L1.
  - injection H as <- <- <-. auto.
Qed.
Lemma crop_in_spec p x y m : length y = length x -> length m = length x -> nondecreasing x -> nan_at m y = y ->
  exists p', crop_in_with p (Ok (x, y, m)) = (p', None) /\ prof_ok p' /\ samples p' = zip3 x y m /\ pux p' = pux p /\ puy p' = puy p.
Proof.
  intros L1 L2 S N. unfold crop_in_with.
  destruct (replace_spec p x y) as (p1 & E1 & O1 & P1 & Q1 & U1 & W1); [lia|].
  destruct (set_y_spec p y) as (p0 & E0 & A0 & B0 & C0 & D0 & U0 & W0). rewrite E0 in *. cbn [thenp] in *. rewrite E1. cbn [thenp].
  pose proof (Q1 S) as Q. pose proof O1 as (M1 & M2 & M3 & M4).
  assert (X : px p1 = x /\ py p1 = y).
  { assert (length (px p1) = length x).
    { assert (T : length (samples p1) = length (zip3 x y (map isnan y))) by (now rewrite Q). rewrite samples_length in T by exact O1. rewrite zip3_length in T; rewrite ?map_length; lia. }
    assert (T : combine (px p1) (py p1) = combine x y).
    { unfold samples in Q. rewrite M4 in Q. unfold zip3 in Q. apply (f_equal (map fst)) in Q.
      assert (G : forall A B (l : list A) (k : list B), length l = length k -> map fst (combine l k) = l).
      { intros A B l. induction l as [|u l IH]; intros [|v k] E; try discriminate; [reflexivity|]. simpl in *. f_equal. apply IH. lia. }
      rewrite !G in Q; [exact Q|rewrite ?combine_length, ?map_length; lia ..]. }
    assert (G : forall A B (l l' : list A) (k k' : list B), length l = length k -> length l' = length k' -> combine l k = combine l' k' -> l = l' /\ k = k').
    { intros A B l. induction l as [|u l IH]; intros [|u' l'] [|v k] [|v' k'] Z1 Z2 Z3; try discriminate; [auto|]. simpl in *. injection Z3 as <- <- Z3. 
      destruct (IH l' k k') as [-> ->]; auto. }
    apply G in T; [exact T|lia|lia]. }
  destruct X as [X1 X2].
  destruct (set_pmask_spec p1 m) as (p2 & E2 & O2 & P2 & U2 & W2); [congruence|congruence|exact M3|].
  exists p2. rewrite X1, X2, N in P2. split; [exact E2|]. split; [exact O2|]. split; [exact P2|]. split; congruence.
Qed.

(** ** C22 *)
Lemma zip3_scale_x x y m s : zip3 (map (fun a => a * s)%num x) y m = map (fun t => (sx t * s, sy t, smask t)%num) (zip3 x y m).
Proof. revert y m; induction x as [|a x IH]; intros [|b y] [|c m]; try reflexivity. unfold zip3 in *. simpl. now rewrite IH. Qed.
Lemma oscale_1 y : oscale 1%num y = y.
Proof. destruct y as [y|]; [|reflexivity]. simpl. f_equal. qring. Qed.
Lemma samples_split p : samples p = zip3 (px p) (yv p) (pm p). Proof. reflexivity. Qed.
Lemma repeat_map {A B} (b : B) (l : list A) : repeat b (length l) = map (fun _ => b) l.
Proof. induction l; simpl; [reflexivity|]. now f_equal. Qed.
Lemma step_lemma p o : prof_ok p -> legal p o -> good_op o ->
  let (p', e) := pstep p o in
  prof_ok p' /\ match e with None => effect p o p' | Some _ => p' = p end.
Proof.
  intros OK L G. pose proof (aligned_ok p OK) as AL. pose proof (ok_lengths p OK) as (L1 & L2 & S). pose proof OK as (K1 & K2 & K3 & K4).
  destruct o; cbn [pstep legal good_op] in *.
  - (* add *) unfold add_point. rewrite AL.
    destruct (replace_spec p (insert_at (searchsorted (px p) x) x (px p)) (insert_at (searchsorted (px p) x) y (yv p))) as (p' & E & O & P & Q & _).
    { rewrite !insert_length. lia. }
    assert (E' : thenp (set_y p (insert_at (searchsorted (px p) x) y (yv p))) (fun p1 => set_x p1 (insert_at (searchsorted (px p) x) x (px p1))) = (p', None)) by exact E.
    rewrite E'. split; [exact O|]. cbn [effect]. rewrite P. rewrite map_insert. unfold zip3. rewrite insert_combine by lia.
    rewrite insert_combine by (rewrite combine_length, map_length; lia). rewrite insert_perm. constructor.
    fold (zip3 (px p) (yv p) (map isnan (yv p))). rewrite (zip3_remask _ _ (pm p)) by lia. reflexivity.
  - (* add all *) destruct L as (R1 & R2 & R3 & R4). pose proof (aligned_ok q (conj R1 (conj R2 (conj R3 R4)))) as AQ.
    unfold add_points. set (p0 := if Nat.eqb (length (px p)) 0 then mkprof (px p) (py p) (pm p) (pux q) (puy q) else p).
    assert (P0 : px p0 = px p /\ py p0 = py p /\ pm p0 = pm p) by (unfold p0; destruct (Nat.eqb (length (px p)) 0); auto).
    destruct P0 as (P1 & P2 & P3).
    destruct (unit_eqb (pux q) (pux p0) && unit_eqb (puy q) (puy p0)) eqn:U; cbn [negb].
    2:{ assert (p0 = p) as ->. { unfold p0 in *. destruct (Nat.eqb (length (px p)) 0); [|reflexivity]. simpl in U. unfold unit_eqb in U. rewrite !qeqb_refl in U.
        assert (T : forall d, dim_eqb d d = true) by (intro; now apply dim_eqb_eq). rewrite !T in U. discriminate. }
        split; [exact OK|reflexivity]. }
    assert (aligned p0 = true) as -> by (unfold aligned in *; now rewrite P2, P3). rewrite AQ. cbn [andb negb].
    assert (YP : yv p0 = yv p) by (unfold yv; now rewrite P2, P3). rewrite YP, P1, P3.
    assert (LA : length (px p ++ px q) = length (yv p ++ yv q)) by (rewrite !app_length, R4; lia).
    assert (LB : length (pm p ++ pm q) = length (yv p ++ yv q)) by (rewrite !app_length, R4; lia).
    assert (LI : forall i, In i (argsort (px p ++ px q)) -> i < length (px p ++ px q)) by (intros i Hi; now apply argsort_in).
    match goal with |- context [set_pmask ?a ?b] => destruct (set_pmask_spec a b) as (p' & E & O & Q & _) end.
    { cbn [py]. rewrite !gather_length. reflexivity. }
    { cbn [py px]. rewrite !gather_length. reflexivity. }
    { cbn [px]. apply argsort_sorted. }
    rewrite E. split; [exact O|]. cbn [effect]. rewrite Q. cbn [px py].
    rewrite nan_at_gather by (try lia; intros i Hi; apply LI in Hi; lia).
    rewrite nan_at_app by lia.
    assert (nan_at (pm p) (yv p) = yv p) as -> by (unfold yv; apply nan_at_idem).
    assert (nan_at (pm q) (yv q) = yv q) as -> by (unfold yv; apply nan_at_idem).
    rewrite zip3_gather by assumption. rewrite gather_perm.
    + unfold zip3. rewrite combine_app' by lia. rewrite combine_app' by (rewrite combine_length; lia). reflexivity.
    + rewrite zip3_length by assumption. apply argsort_perm.
  - (* remove *) unfold remove_point. destruct (i <? 0)%Z; [auto|]. rewrite AL.
    destruct (replace_spec p (delete_at (Z.to_nat i) (px p)) (delete_at (Z.to_nat i) (yv p))) as (p' & E & O & P & Q & _).
    { apply delete_length_eq. lia. }
    assert (E' : thenp (set_y p (delete_at (Z.to_nat i) (yv p))) (fun p1 => set_x p1 (delete_at (Z.to_nat i) (px p1))) = (p', None)) by exact E.
    rewrite E'. split; [exact O|]. cbn [effect]. rewrite P. rewrite map_delete. unfold zip3. rewrite delete_combine by lia.
    rewrite delete_combine by (rewrite combine_length, map_length; lia). fold (zip3 (px p) (yv p) (map isnan (yv p))).
    rewrite (zip3_remask _ _ (pm p)) by lia. rewrite map_delete. reflexivity.
  - (* set x *) destruct (set_x_spec p v) as (p' & E & O & P & _); [lia|lia|exact K4|]. rewrite E. split; [exact O|exact P].
  - (* set y *) unfold set_y. split.
    + unfold prof_ok, yv. cbn [px py pm]. rewrite map_length, nan_at_isnan. auto.
    + cbn [effect]. unfold samples, yv. cbn [px py pm]. now rewrite nan_at_isnan.
  - (* replace *) destruct (replace_spec p x y) as (p' & E & O & P & _); [exact L|]. rewrite E. split; [exact O|exact P].
  - (* mask *) destruct (set_pmask_spec p m) as (p' & E & O & P & _); [lia|lia|exact S|]. rewrite E. split; [exact O|]. cbn [effect]. rewrite P, <- K4.
    clear - L L1. revert m L L1. generalize (yv p) as y. generalize (px p) as x. induction x as [|a x IH]; intros [|b y] [|c m] L L1; try discriminate; [reflexivity|].
    unfold zip3, nan_at in *. simpl in *. rewrite (IH y m) by lia. reflexivity.
  - (* mask bool *) unfold set_pmask_bool. rewrite AL. destruct (set_pmask_spec p (repeat b (length (py p)))) as (p' & E & O & P & _); [apply repeat_length|lia|exact S|].
    rewrite E. split; [exact O|]. cbn [effect]. rewrite P. unfold samples. rewrite K4. clear - K1 K2. revert K1 K2. generalize (py p) as y. generalize (pm p) as m. generalize (px p) as x.
    induction x as [|a x IH]; intros [|c m] [|d y] H1 H2; try discriminate; [reflexivity|]. unfold zip3, nan_at in *. simpl in *. rewrite (IH m y) by lia. reflexivity.
  - (* crop *) destruct (crop_data p ivx ivy) as [[[x y] m]|e] eqn:E; [|cbn [crop_in_with]; auto].
    destruct (crop_data_shape p ivx ivy x y m OK E) as (A & B & C & D & F).
    destruct (crop_in_spec p x y m A B C D) as (p' & E' & O & P & _). rewrite E'. split; [exact O|]. cbn [effect]. now rewrite P.
  - (* crop ind *) destruct (crop_data_ind p a b) as [[[x y] m]|e] eqn:E; [|cbn [crop_in_with]; auto].
    unfold crop_data_ind in E. apply guard_ok in E. destruct E as [_ E]. apply guard_ok in E. destruct E as [_ E]. apply guard_ok in E. destruct E as [_ E].
    injection E as <- <- <-.
    destruct (crop_in_spec p (slice (Z.to_nat a) (Z.to_nat b) (px p)) (slice (Z.to_nat a) (Z.to_nat b) (yv p)) (slice (Z.to_nat a) (Z.to_nat b) (pm p))) as (p' & E' & O & P & _).
    { now rewrite !slice_length, L1. } { now rewrite !slice_length, L2. } { now apply nondecreasing_slice. }
    { rewrite nan_at_slice by lia. unfold yv at 1. now rewrite nan_at_idem. }
    rewrite E'. split; [exact O|]. cbn [effect]. rewrite P. unfold samples, zip3. rewrite slice_combine by lia. rewrite slice_combine by (rewrite combine_length; lia). reflexivity.
  - (* scale *) unfold scale_in. cbv zeta.
    set (p1 := match sx with SUnum _ u => mkprof (px p) (py p) (pm p) (unit_mul u (pux p)) (puy p) | _ => p end).
    set (p2 := match sy with SUnum _ u => mkprof (px p1) (py p1) (pm p1) (pux p1) (unit_mul u (puy p1)) | _ => p1 end).
    assert (P2 : px p2 = px p /\ py p2 = py p /\ pm p2 = pm p) by (unfold p2, p1; destruct sx, sy; auto). destruct P2 as (P2x & P2y & P2m).
    assert (Y2 : yv p2 = yv p) by (unfold yv; now rewrite P2y, P2m).
    assert (O2 : prof_ok p2) by (unfold prof_ok; now rewrite Y2, P2x, P2y, P2m).
    assert (X : exists p3, (if qeqb (sfact sx) 1%num then (p2, None) else set_x p2 (map (fun a => a * sfact sx)%num (px p2))) = (p3, None) /\ prof_ok p3 /\
       Permutation (samples p3) (map (fun t => (ProfileSpec.sx t * sfact sx, ProfileSpec.sy t, smask t)%num) (samples p))).
    { destruct (qeqb_spec (sfact sx) 1%num) as [->|N].
      - exists p2. split; [reflexivity|]. split; [exact O2|]. unfold samples. rewrite P2x, Y2, P2m. rewrite <- zip3_scale_x.
        replace (map (fun a => a * 1)%num (px p)) with (px p); [reflexivity|]. rewrite <- (map_id (px p)) at 1. apply map_ext. intro a. qring.
      - destruct (set_x_spec p2 (map (fun a => a * sfact sx)%num (px p2))) as (p3 & E & O & P & _).
        { rewrite map_length, P2x, P2y. lia. } { rewrite P2m, P2y. lia. } { rewrite Y2, P2y. exact K4. }
        exists p3. split; [exact E|]. split; [exact O|]. rewrite P, Y2, P2x, P2m. rewrite zip3_scale_x. reflexivity. }
    destruct X as (p3 & E3 & O3 & Q3). rewrite E3. cbn [thenp effect].
    destruct (qeqb_spec (sfact sy) 1%num) as [E1|N].
    + split; [exact O3|]. rewrite Q3, E1. erewrite map_ext; [reflexivity|]. intros [[a b] c]. cbn [ProfileSpec.sx ProfileSpec.sy smask fst snd]. now rewrite oscale_1.
    + rewrite (aligned_ok p3 O3). pose proof O3 as (M1 & M2 & M3 & M4). pose proof (ok_lengths p3 O3) as (T1 & T2 & _). unfold set_y. split.
      * unfold prof_ok. rewrite yv_isnan. cbn [px py pm]. rewrite !map_length. repeat split; auto; lia.
      * unfold samples at 1. rewrite yv_isnan. cbn [px py pm]. rewrite zip3_map_y. rewrite (zip3_remask _ _ (pm p3)) by lia.
        fold (samples p3). rewrite map_map. rewrite Q3. rewrite map_map. erewrite map_ext; [reflexivity|].
        intros [[a b] c]. unfold remask, ProfileSpec.sx, ProfileSpec.sy, smask. cbn [fst snd]. now rewrite oscale_isnan.
  - (* unit *) destruct (conv_spec (match a with AxX => pux p | _ => puy p end) new G) as [C1 C2].
    destruct a; unfold prof_change_unit; cbv iota in C1, C2; try (split; [exact OK|reflexivity]).
    + destruct (conv (pux p) new) as [f|e] eqn:E; [|auto].
      destruct (set_x_spec p (map (fun v => v * f)%num (px p))) as (p' & E' & O & P & _); [rewrite map_length; lia|lia|exact K4|].
      rewrite E'. cbn [thenp]. split; [exact O|]. cbn [effect]. exists f. split.
      * destruct (list_eq_dec Z.eq_dec (dim (pux p)) (dim new)) as [D|D]; [|now specialize (C2 D)].
        destruct (C1 D) as (k & Ek & Hk). injection Ek as <-. exact Hk.
      * unfold samples at 1, yv. cbn [px py pm]. fold (yv p'). fold (samples p'). rewrite P. unfold samples. now rewrite zip3_scale_x.
    + destruct (conv (puy p) new) as [f|e] eqn:E; [|auto]. rewrite AL. unfold set_y. cbn [thenp px py pm pux puy]. split.
      * unfold prof_ok. rewrite yv_isnan. cbn [px py pm]. rewrite !map_length. repeat split; auto; lia.
      * cbn [effect]. exists f. split.
        -- destruct (list_eq_dec Z.eq_dec (dim (puy p)) (dim new)) as [D|D]; [|now specialize (C2 D)].
           destruct (C1 D) as (k & Ek & Hk). injection Ek as <-. exact Hk.
        -- unfold samples at 1. rewrite yv_isnan. cbn [px py pm]. rewrite zip3_map_y. rewrite (zip3_remask _ _ (pm p)) by lia.
           fold (samples p). rewrite map_map. apply map_ext. intros [[u v] c]. unfold remask, sx, sy, smask. cbn [fst snd]. now rewrite oscale_isnan.
  - (* remove nans *) unfold remove_nans. rewrite AL. cbn [negb].
    destruct (existsb (fun b => b) (map isnan (yv p))) eqn:E.
    + destruct (replace_spec p (keep (map negb (map isnan (yv p))) (px p)) (keep (map negb (map isnan (yv p))) (yv p))) as (p' & E' & O & P & Q & _).
      { apply keep_length_eq. lia. }
      assert (E'' : thenp (set_y p (keep (map negb (map isnan (yv p))) (yv p))) (fun q => set_x q (keep (map negb (map isnan (yv p))) (px q))) = (p', None)) by exact E'.
      rewrite E''. split; [exact O|]. cbn [effect]. rewrite Q by (now apply nondecreasing_keep). unfold samples. apply zip3_filter; [lia|lia|]. apply yv_nan.
    + split; [exact OK|]. cbn [effect]. symmetry. apply filter_all. intros t Ht. apply in_zip3 in Ht. destruct Ht as (_ & Ht & _).
      apply existsb_keep_false in E. rewrite forallb_forall in E. now apply E.
Qed.
Lemma run_lemma ops : forall p, prof_ok p -> legal_run p ops -> Forall good_op ops -> prof_ok (prun p ops).
Proof.
  induction ops as [|o ops IH]; intros p OK L G; [exact OK|]. destruct L as [L1 L2]. inversion G; subst. unfold prun. cbn [fold_left].
  apply (IH (fst (pstep p o))); auto. pose proof (step_lemma p o OK L1 H1) as H. destruct (pstep p o) as [p' e]. apply H.
Qed.
Lemma new_lemma x y mask u w : length x = length y -> match mask with None => True | Some m => length m = length x end ->
  exists p, prof_new x y mask u w = Ok p /\ prof_ok p /\ pux p = u /\ puy p = w /\
    Permutation (samples p) (map (fun t => (sx t, (if smask t then None else sy t), (smask t || isnan (sy t))%bool))
                              (zip3 x y (match mask with None => repeat false (length x) | Some m => m end))) /\
    (nondecreasing x -> px p = x /\ samples p = map (fun t => (sx t, (if smask t then None else sy t), (smask t || isnan (sy t))%bool))
                              (zip3 x y (match mask with None => repeat false (length x) | Some m => m end))).
Proof.
  intros L M. unfold prof_new. set (m := match mask with None => repeat false (length x) | Some m => m end).
  assert (Lm : length m = length x) by (unfold m; destruct mask; [exact M|apply repeat_length]).
  rewrite L, Nat.eqb_refl. cbn [negb guard]. assert (Nat.ltb (length m) (length y) = false) as -> by (apply Nat.ltb_ge; lia). cbn [guard].
  assert (LI : forall i, In i (argsort x) -> i < length m) by (intros i Hi; apply argsort_in in Hi; lia).
  set (y2 := nan_at (gather false (argsort x) m) (gather None (argsort x) y)).
  assert (Ly2 : length y2 = length (argsort x)) by (unfold y2; rewrite nan_at_length; rewrite !gather_length; reflexivity).
  set (m2 := map _ (combine (gather false (argsort x) m) y2)).
  assert (Lm2 : length m2 = length (argsort x)) by (unfold m2; rewrite map_length, combine_length, gather_length; lia).
  assert (NN : nan_at m2 y2 = y2).
  { unfold m2. assert (T : forall b y, length b = length y -> nan_at (map (fun t : bool * onum => orb (fst t) (isnan (snd t))) (combine b (nan_at b y))) (nan_at b y) = nan_at b y).
    { induction b as [|c b IH]; intros [|a z] E; try discriminate; [reflexivity|]. unfold nan_at in *. simpl in *. rewrite IH by lia. destruct c; [reflexivity|]. destruct a; reflexivity. }
    apply T. now rewrite !gather_length. }
  eexists. split; [reflexivity|]. rewrite NN. cbn [pux puy]. split; [|split; [reflexivity|split; [reflexivity|]]].
  - unfold prof_ok, yv. cbn [px py pm]. rewrite gather_length. repeat split; auto. apply argsort_sorted.
  - unfold samples, yv. cbn [px py pm]. rewrite NN.
    assert (T : zip3 (gather (qz 0) (argsort x) x) y2 m2 = map (fun t => (sx t, (if smask t then None else sy t), (smask t || isnan (sy t))%bool))
       (zip3 (gather (qz 0) (argsort x) x) (gather None (argsort x) y) (gather false (argsort x) m))).
    { unfold m2, y2. assert (Q1 : length (gather (qz 0) (argsort x) x) = length (gather None (argsort x) y)) by (now rewrite !gather_length).
      assert (Q2 : length (gather false (argsort x) m) = length (gather None (argsort x) y)) by (now rewrite !gather_length).
      revert Q1 Q2. generalize (gather (qz 0) (argsort x) x) as a. generalize (gather None (argsort x) y) as b. generalize (gather false (argsort x) m) as c. clear.
      intros c b a. revert b c. induction a as [|a0 a IH]; intros [|b0 b] [|c0 c] Q1 Q2; try discriminate; [reflexivity|].
      unfold zip3, nan_at in *. simpl in *. rewrite IH by lia. f_equal. unfold sx, sy, smask. simpl. destruct c0; simpl; [reflexivity|]. destruct b0; reflexivity. }
    rewrite T. rewrite zip3_gather by (try lia; intros i Hi; now apply argsort_in).
    assert (LZ : length (zip3 x y m) = length x) by (rewrite zip3_length; lia).
    split; [|intro S].
    + apply Permutation_map. apply gather_perm. rewrite LZ. apply argsort_perm.
    + rewrite argsort_id by exact S. split; [apply gather_seq|]. rewrite <- LZ. now rewrite gather_seq.
Qed.
