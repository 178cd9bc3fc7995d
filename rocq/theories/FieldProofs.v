From Verif Require Import Num Res ListLib Arr FieldModel ScalarFieldModel VectorFieldModel FieldSpec.

Lemma axis_bounds_spec axe v :
  increasing axe -> axe <> [] -> (nths axe 0 <= v)%num -> (v <= last axe (qz 0))%num ->
  let (i, j) := axis_bounds axe v in
  i < length axe /\ j < length axe /\
  ((i = j /\ nths axe i = v) \/ (j = S i /\ (nths axe i < v)%num /\ (v < nths axe j)%num)).
Proof.
  intros Hi Hne H0 H1. unfold axis_bounds.
  pose proof (searchsorted_spec axe v (increasing_nondecreasing _ Hi)) as (S1 & S2 & S3).
  set (k := searchsorted axe v) in *.
  rewrite last_nths in H1 by exact Hne.
  assert (0 < length axe) as Hl by (destruct axe; [congruence | simpl; lia]).
  assert (k < length axe) as Hk.
  { destruct (Nat.eq_dec k (length axe)) as [E|E]; [|lia].
    specialize (S2 (length axe - 1) ltac:(lia)). exfalso. qlra. }
  destruct (qeqb_spec (nths axe k) v) as [E|E].
  - repeat split; auto.
  - assert (0 < k) as Hk0.
    { destruct k as [|k']; [|lia]. specialize (S3 0 ltac:(lia) ltac:(lia)).
      exfalso. apply E. qlra. }
    repeat split; try lia. right. split; [lia|]. split.
    + apply S2. lia.
    + specialize (S3 k ltac:(lia) Hk). destruct (qle_lt_or_eq _ _ S3) as [G|G]; [exact G|]. congruence.
Qed.

Lemma indice_on_axis_err axe v kind : axe <> [] ->
  ((v < nths axe 0)%num \/ (last axe (qz 0) < v)%num) -> indice_on_axis axe v kind = Err ValueErr.
Proof.
  intros Hne H. unfold indice_on_axis. destruct axe as [|a l]; [congruence|]. cbn [guard].
  assert ((qltb v (nths (a :: l) 0) || qltb (last (a :: l) (qz 0)) v)%bool = true) as ->; [|reflexivity].
  apply orb_true_iff. rewrite !qltb_lt. exact H.
Qed.

Lemma indice_on_axis_in axe v kind : axe <> [] ->
  (nths axe 0 <= v)%num -> (v <= last axe (qz 0))%num ->
  indice_on_axis axe v kind =
  let (i0, i1) := axis_bounds axe v in
  match kind with
  | KBounds => Ok (IPair i0 i1)
  | KNearest =>
    if Nat.eqb i0 i1 then Ok (IInd i0)
    else if qltb (qabs (nths axe i0 - v)%num) (qabs (nths axe i1 - v)%num) then Ok (IInd i0)
    else Ok (IInd i1)
  | KDecimal =>
    if Nat.eqb i0 i1 then Ok (IInd i0)
    else let v1 := nths axe i0 in
         let v2 := nths axe i1 in
         let delta := qabs (v2 - v1)%num in
         Ok (IDec (qn i0 * qabs (v - v2) / delta + qn i1 * qabs (v - v1) / delta)%num)
  | KOther => Err ValueErr
  end.
Proof.
  intros Hne H0 H1. unfold indice_on_axis. destruct axe as [|a l]; [congruence|]. cbn [guard].
  assert ((qltb v (nths (a :: l) 0) || qltb (last (a :: l) (qz 0)) v)%bool = false) as ->; [|reflexivity].
  apply orb_false_iff. rewrite !qltb_ge. auto.
Qed.

(** *** C01 *)
Lemma bounds_lemma axe v : increasing axe -> axe <> [] ->
  (indice_on_axis axe v KBounds = Err ValueErr <-> (v < nths axe 0)%num \/ (last axe (qz 0) < v)%num) /\
  ((nths axe 0 <= v)%num -> (v <= last axe (qz 0))%num ->
   exists i j, indice_on_axis axe v KBounds = Ok (IPair i j) /\ i < length axe /\ j < length axe /\
     (nths axe i <= v)%num /\ (v <= nths axe j)%num /\
     (i = j <-> In v axe) /\ (i <> j -> j = i + 1)).
Proof.
  intros Hi Hne.
  assert (Main : (nths axe 0 <= v)%num -> (v <= last axe (qz 0))%num ->
   exists i j, indice_on_axis axe v KBounds = Ok (IPair i j) /\ i < length axe /\ j < length axe /\
     (nths axe i <= v)%num /\ (v <= nths axe j)%num /\
     (i = j <-> In v axe) /\ (i <> j -> j = i + 1)).
  { intros H0 H1. rewrite indice_on_axis_in by assumption.
    pose proof (axis_bounds_spec axe v Hi Hne H0 H1) as H. destruct (axis_bounds axe v) as [i j].
    destruct H as (Hi' & Hj' & [[E1 E2]|(E1 & E2 & E3)]); exists i, j.
    - subst j. repeat split; auto; try (rewrite E2; apply qle_refl); try lia.
      intros _. rewrite <- E2. now apply nth_In.
    - repeat split; auto; try (now apply qlt_le); try lia.
      intro Hin. exfalso. apply (In_nth _ _ (qz 0)) in Hin. destruct Hin as (k & Hk & Ek).
      assert (i < k) by (apply (increasing_lt_inv axe); auto; rewrite Ek; exact E2).
      assert (k < j) by (apply (increasing_lt_inv axe); auto; rewrite Ek; exact E3). lia. }
  split; [|exact Main]. split.
  - intro H. destruct (qltb_spec v (nths axe 0)) as [L|L]; [now left|].
    destruct (qltb_spec (last axe (qz 0)) v) as [L2|L2]; [now right|].
    destruct (Main L L2) as (i & j & E & _). congruence.
  - apply indice_on_axis_err. exact Hne.
Qed.

(** *** C02 *)
Lemma nearest_lemma axe v : increasing axe ->
  (nths axe 0 <= v)%num -> (v <= last axe (qz 0))%num -> axe <> [] ->
  exists i, indice_on_axis axe v KNearest = Ok (IInd i) /\ i < length axe /\
    (forall k, k < length axe -> (qabs (nths axe i - v) <= qabs (nths axe k - v))%num) /\
    (forall k, k < length axe -> qabs (nths axe k - v)%num = qabs (nths axe i - v)%num -> k <= i).
Proof.
  intros Hi H0 H1 Hne. rewrite indice_on_axis_in by assumption.
  pose proof (axis_bounds_spec axe v Hi Hne H0 H1) as H. destruct (axis_bounds axe v) as [i j].
  destruct H as (Hi' & Hj' & [[E1 E2]|(E1 & E2 & E3)]).
  - subst j. rewrite Nat.eqb_refl. exists i. split; [reflexivity|]. split; [exact Hi'|]. split.
    + intros k Hk. rewrite E2. replace (v - v)%num with 0%num by qlra. rewrite qabs_0. apply qabs_nonneg.
    + intros k Hk E. rewrite E2 in E. replace (v - v)%num with 0%num in E by qlra. rewrite qabs_0 in E.
      assert (nths axe k = v) as Ek.
      { destruct (qabs_spec (nths axe k - v)%num) as [[A B]|[A B]]; rewrite B in E; qlra. }
      rewrite <- Ek in E2. apply increasing_inj in E2; auto. lia.
  - assert (Nat.eqb i j = false) as -> by (apply Nat.eqb_neq; lia).
    assert (Ai : qabs (nths axe i - v)%num = (v - nths axe i)%num).
    { destruct (qabs_spec (nths axe i - v)%num) as [[A B]|[A B]]; rewrite B; qlra. }
    assert (Aj : qabs (nths axe j - v)%num = (nths axe j - v)%num).
    { destruct (qabs_spec (nths axe j - v)%num) as [[A B]|[A B]]; rewrite B; qlra. }
    assert (Lo : forall k, k <= i -> (v - nths axe i <= qabs (nths axe k - v))%num /\
                 (k < i -> (v - nths axe i < qabs (nths axe k - v))%num)).
    { intros k Hk. split.
      - pose proof (increasing_nondecreasing _ Hi k i Hk Hi').
        destruct (qabs_spec (nths axe k - v)%num) as [[A B]|[A B]]; rewrite B; qlra.
      - intro L. pose proof (Hi k i L Hi').
        destruct (qabs_spec (nths axe k - v)%num) as [[A B]|[A B]]; rewrite B; qlra. }
    assert (Up : forall k, j <= k -> k < length axe -> (nths axe j - v <= qabs (nths axe k - v))%num /\
                 (j < k -> (nths axe j - v < qabs (nths axe k - v))%num)).
    { intros k Hk Hkl. split.
      - pose proof (increasing_nondecreasing _ Hi j k Hk Hkl).
        destruct (qabs_spec (nths axe k - v)%num) as [[A B]|[A B]]; rewrite B; qlra.
      - intro L. pose proof (Hi j k L Hkl).
        destruct (qabs_spec (nths axe k - v)%num) as [[A B]|[A B]]; rewrite B; qlra. }
    rewrite Ai, Aj.
    destruct (qltb_spec (v - nths axe i)%num (nths axe j - v)%num) as [C|C].
    + exists i. split; [reflexivity|]. split; [exact Hi'|]. rewrite Ai. split.
      * intros k Hk. destruct (le_lt_dec k i) as [L|L]; [apply Lo; exact L|].
        destruct (Up k ltac:(lia) Hk) as [U _]. qlra.
      * intros k Hk E. destruct (le_lt_dec k i) as [L|L]; [exact L|].
        destruct (Up k ltac:(lia) Hk) as [U _]. exfalso. qlra.
    + exists j. split; [reflexivity|]. split; [exact Hj'|]. rewrite Aj. split.
      * intros k Hk. destruct (le_lt_dec k i) as [L|L].
        -- destruct (Lo k L) as [U _]. qlra.
        -- apply Up; lia.
      * intros k Hk E. destruct (le_lt_dec k j) as [L|L]; [exact L|].
        destruct (Up k ltac:(lia) Hk) as [_ U]. specialize (U L). exfalso. qlra.
Qed.

(** *** C03.  Linear interpolation of the axis at a fractional index *)
Lemma qn_S i : qn (S i) = (qn i + 1)%num.
Proof. unfold qn. rewrite Nat2Z.inj_succ. unfold Z.succ. now rewrite qz_add. Qed.

Lemma decimal_lemma axe v : increasing axe -> axe <> [] ->
  (nths axe 0 <= v)%num -> (v <= last axe (qz 0))%num ->
  (exists i, indice_on_axis axe v KDecimal = Ok (IInd i) /\ i < length axe /\ nths axe i = v) \/
  (exists i d, indice_on_axis axe v KDecimal = Ok (IDec d) /\ S i < length axe /\
     (qn i < d)%num /\ (d < qn (S i))%num /\
     (nths axe i + (d - qn i) * (nths axe (S i) - nths axe i))%num = v).
Proof.
  intros Hi Hne H0 H1. rewrite indice_on_axis_in by assumption.
  pose proof (axis_bounds_spec axe v Hi Hne H0 H1) as H. destruct (axis_bounds axe v) as [i j].
  destruct H as (Hi' & Hj' & [[E1 E2]|(E1 & E2 & E3)]).
  - subst j. rewrite Nat.eqb_refl. left. exists i. auto.
  - right. subst j. assert (Nat.eqb i (S i) = false) as -> by (apply Nat.eqb_neq; lia).
    cbv zeta. exists i. eexists. split; [reflexivity|]. split; [exact Hj'|].
    set (a := nths axe i) in *. set (b := nths axe (S i)) in *.
    assert (qabs (b - a)%num = (b - a)%num) as ->.
    { destruct (qabs_spec (b - a)%num) as [[A B]|[A B]]; rewrite B; qlra. }
    assert (qabs (v - b)%num = (b - v)%num) as ->.
    { destruct (qabs_spec (v - b)%num) as [[A B]|[A B]]; rewrite B; qlra. }
    assert (qabs (v - a)%num = (v - a)%num) as ->.
    { destruct (qabs_spec (v - a)%num) as [[A B]|[A B]]; rewrite B; qlra. }
    assert (Hd : (0 < b - a)%num) by qlra.
    assert (Hd0 : (b - a)%num <> 0%num) by (apply qgt_neq; exact Hd).
    rewrite qn_S.
    assert (E : (qn i * (b - v) / (b - a) + (qn i + 1) * (v - a) / (b - a) = qn i + (v - a) / (b - a))%num).
    { qfield. exact Hd0. }
    rewrite E.
    assert (P1 : (0 < (v - a) / (b - a))%num) by (apply qdiv_pos; qlra).
    assert (P2 : ((v - a) / (b - a) < 1)%num).
    { assert (0 < (b - v) / (b - a))%num as P by (apply qdiv_pos; qlra).
      assert (((v - a) / (b - a) + (b - v) / (b - a))%num = 1%num) as Q by (qfield; exact Hd0). qlra. }
    split; [qlra|]. split; [qlra|].
    qfield. exact Hd0.
Qed.


Lemma first_le_last axe : increasing axe -> axe <> [] -> (nths axe 0 <= last axe (qz 0))%num.
Proof.
  intros H Hne. rewrite last_nths by exact Hne.
  assert (0 < length axe) by (destruct axe; [congruence | simpl; lia]).
  apply increasing_nondecreasing; auto; lia.
Qed.

Lemma crop_window_spec axe iv : increasing axe -> axe <> [] ->
  (iv_ok axe iv -> exists i0 i1, crop_window axe iv = Ok (i0, i1) /\ i1 < length axe /\
     forall i, i < length axe -> (i0 <= i <= i1 <-> in_iv iv (nths axe i))) /\
  (~ iv_ok axe iv -> crop_window axe iv = Err ValueErr).
Proof.
  intros Hi Hne.
  assert (Hl : 0 < length axe) by (destruct axe; [congruence | simpl; lia]).
  pose proof (first_le_last axe Hi Hne) as FL.
  assert (Gen : forall a b,
    let r := (raise ValueErr when (qltb b a) ;;
      raise ValueErr when ((qltb a (nths axe 0) && qltb b (nths axe 0)) || (qltb (last axe (qz 0)) a && qltb (last axe (qz 0)) b))%bool ;;
      let* imin := (if qleb a (nths axe 0) then Ok 0
                    else let* r := indice_on_axis axe a KBounds in Ok (bound_hi r)) in
      let* imax := (if qleb (last axe (qz 0)) b then Ok (length axe - 1)
                    else let* r := indice_on_axis axe b KBounds in Ok (bound_lo r)) in
      Ok (imin, imax)) in
    ((a <= b)%num /\ (nths axe 0 <= b)%num /\ (a <= last axe (qz 0))%num ->
       exists i0 i1, r = Ok (i0, i1) /\ i1 < length axe /\
       forall i, i < length axe -> (i0 <= i <= i1 <-> (a <= nths axe i)%num /\ (nths axe i <= b)%num)) /\
    (~ ((a <= b)%num /\ (nths axe 0 <= b)%num /\ (a <= last axe (qz 0))%num) -> r = Err ValueErr)).
  { intros a b. cbv zeta. split.
    - intros (Hab & Hb & Ha).
      assert (qltb b a = false) as -> by (now apply qltb_ge). cbn [guard].
      assert (((qltb a (nths axe 0) && qltb b (nths axe 0)) || (qltb (last axe (qz 0)) a && qltb (last axe (qz 0)) b))%bool = false) as ->.
      { apply orb_false_iff. split; apply andb_false_iff; [right|left]; now apply qltb_ge. }
      cbn [guard].
      assert (exists i0, (if qleb a (nths axe 0) then Ok 0
                    else let* r := indice_on_axis axe a KBounds in Ok (bound_hi r)) = Ok i0 /\
              forall i, i < length axe -> (i0 <= i <-> (a <= nths axe i)%num)) as (i0 & -> & Hi0).
      { destruct (qleb_spec a (nths axe 0)) as [C|C].
        - exists 0. split; [reflexivity|]. intros i Hil. split; [|lia]. intros _.
          pose proof (increasing_nondecreasing _ Hi 0 i ltac:(lia) Hil). qlra.
        - rewrite indice_on_axis_in by (auto; now apply qlt_le).
          pose proof (axis_bounds_spec axe a Hi Hne (qlt_le _ _ C) Ha) as H. destruct (axis_bounds axe a) as [p q].
          cbn [bind bound_hi]. exists q. split; [reflexivity|]. intros i Hil.
          destruct H as (Hp & Hq & [[E1 E2]|(E1 & E2 & E3)]).
          + subst q. split; intro G.
            * rewrite <- E2. apply increasing_nondecreasing; auto.
            * rewrite <- E2 in G. apply increasing_le_inv in G; auto.
          + split; intro G.
            * pose proof (increasing_nondecreasing _ Hi q i G Hil). qlra.
            * assert (p < i) by (apply (increasing_lt_inv axe); auto; qlra). lia. }
      cbn [bind].
      assert (exists i1, (if qleb (last axe (qz 0)) b then Ok (length axe - 1)
                    else let* r := indice_on_axis axe b KBounds in Ok (bound_lo r)) = Ok i1 /\ i1 < length axe /\
              forall i, i < length axe -> (i <= i1 <-> (nths axe i <= b)%num)) as (i1 & -> & Hi1l & Hi1).
      { destruct (qleb_spec (last axe (qz 0)) b) as [C|C].
        - exists (length axe - 1). split; [reflexivity|]. split; [lia|]. intros i Hil. split; [|lia]. intros _.
          rewrite last_nths in C by exact Hne.
          pose proof (increasing_nondecreasing _ Hi i (length axe - 1) ltac:(lia) ltac:(lia)). qlra.
        - rewrite indice_on_axis_in by (auto; now apply qlt_le).
          pose proof (axis_bounds_spec axe b Hi Hne Hb (qlt_le _ _ C)) as H. destruct (axis_bounds axe b) as [p q].
          cbn [bind bound_lo]. exists p. split; [reflexivity|].
          destruct H as (Hp & Hq & [[E1 E2]|(E1 & E2 & E3)]); (split; [exact Hp|]); intros i Hil.
          + subst q. split; intro G.
            * rewrite <- E2. apply increasing_nondecreasing; auto.
            * rewrite <- E2 in G. apply increasing_le_inv in G; auto.
          + split; intro G.
            * pose proof (increasing_nondecreasing _ Hi i p G Hp). qlra.
            * assert (i < q) by (apply (increasing_lt_inv axe); auto; qlra). lia. }
      cbn [bind]. exists i0, i1. split; [reflexivity|]. split; [exact Hi1l|]. intros i Hil.
      rewrite (Hi0 i Hil), (Hi1 i Hil). tauto.
    - intro H. destruct (qltb_spec b a) as [C|C]; [reflexivity|]. cbn [guard].
      destruct (qltb_spec b (nths axe 0)) as [C2|C2].
      + assert (qltb a (nths axe 0) = true) as -> by (apply qltb_lt; qlra). reflexivity.
      + destruct (qltb_spec (last axe (qz 0)) a) as [C3|C3].
        * assert (qltb (last axe (qz 0)) b = true) as -> by (apply qltb_lt; qlra).
          rewrite andb_false_r. reflexivity.
        * exfalso. apply H. auto. }
  unfold crop_window. destruct axe as [|x0 l0] eqn:Eaxe; [congruence|]. cbn [guard]. rewrite <- Eaxe in *.
  destruct iv as [[a b]|]; unfold iv_ok, in_iv.
  - apply Gen.
  - split; [intros _|tauto].
    destruct (Gen (nths axe 0) (last axe (qz 0))) as [G _].
    destruct G as (i0 & i1 & E & Hl1 & H).
    { repeat split; auto; apply qle_refl. }
    exists i0, i1. split; [exact E|]. split; [exact Hl1|]. intros i Hil. rewrite (H i Hil).
    split; [tauto|]. intros _. split.
    + apply increasing_nondecreasing; auto; lia.
    + rewrite last_nths by exact Hne. apply increasing_nondecreasing; auto; lia.
Qed.

Lemma nth_error_slice_iff {A} (l : list A) a b k x :
  nth_error (slice a b l) k = Some x <-> k < b - a /\ nth_error l (a + k) = Some x.
Proof.
  split.
  - intro H. pose proof (nth_error_Some_lt _ _ _ H) as L. rewrite slice_length in L.
    split; [lia|]. rewrite nth_error_slice in H by lia. exact H.
  - intros [H1 H2]. rewrite nth_error_slice by exact H1. exact H2.
Qed.


(** general crop on samples, for any cell content *)
Lemma crop_window_slice axe iv i0 i1 k x : increasing axe -> axe <> [] -> iv_ok axe iv ->
  crop_window axe iv = Ok (i0, i1) ->
  (nth_error (slice i0 (i1 + 1) axe) k = Some x <-> nth_error axe (i0 + k) = Some x /\ i0 + k <= i1).
Proof.
  intros Hi Hne Hok E. rewrite nth_error_slice_iff. split.
  - intros [H1 H2]. split; [exact H2|]. lia.
  - intros [H1 H2]. split; [lia|]. exact H1.
Qed.

Lemma at_pos_crop {A} X Y (a : arr A) ivx ivy x0 x1 y0 y1 x y v :
  increasing X -> increasing Y -> X <> [] -> Y <> [] ->
  iv_ok X ivx -> iv_ok Y ivy ->
  crop_window X ivx = Ok (x0, x1) -> crop_window Y ivy = Ok (y0, y1) ->
  (at_pos (slice x0 (x1 + 1) X) (slice y0 (y1 + 1) Y) (aslice x0 (x1 + 1) y0 (y1 + 1) a) x y v <->
   at_pos X Y a x y v /\ in_iv ivx x /\ in_iv ivy y).
Proof.
  intros HX HY HX0 HY0 Okx Oky Ex Ey.
  destruct (crop_window_spec X ivx HX HX0) as [Sx _]. destruct (Sx Okx) as (a0 & a1 & E & Lx & Wx).
  rewrite Ex in E. injection E as <- <-.
  destruct (crop_window_spec Y ivy HY HY0) as [Sy _]. destruct (Sy Oky) as (b0 & b1 & E & Ly & Wy).
  rewrite Ey in E. injection E as <- <-.
  unfold at_pos. split.
  - intros (i & j & Hx & Hy & Hv).
    rewrite nth_error_slice_iff in Hx, Hy. destruct Hx as [Hx1 Hx2], Hy as [Hy1 Hy2].
    simpl in Hv. split.
    + exists (x0 + i), (y0 + j). auto.
    + pose proof (nth_error_Some_lt _ _ _ Hx2). pose proof (nth_error_Some_lt _ _ _ Hy2).
      apply nth_error_nths in Hx2, Hy2. split.
      * rewrite <- Hx2. apply Wx; lia.
      * rewrite <- Hy2. apply Wy; lia.
  - intros ((i & j & Hx & Hy & Hv) & Ix & Iy).
    pose proof (nth_error_Some_lt _ _ _ Hx) as Lxi. pose proof (nth_error_Some_lt _ _ _ Hy) as Lyj.
    pose proof (nth_error_nths _ _ _ Hx) as Nx. pose proof (nth_error_nths _ _ _ Hy) as Ny.
    rewrite <- Nx in Ix. rewrite <- Ny in Iy. apply Wx in Ix; [|exact Lxi]. apply Wy in Iy; [|exact Lyj].
    exists (i - x0), (j - y0). rewrite !nth_error_slice_iff.
    replace (x0 + (i - x0)) with i by lia. replace (y0 + (j - y0)) with j by lia.
    repeat split; auto; try lia. simpl.
    replace (x0 + (i - x0)) with i by lia. replace (y0 + (j - y0)) with j by lia. exact Hv.
Qed.

(** observation of a scalar field as one array of pairs *)
Definition zip2 {A B} (a : arr A) (b : arr B) : arr (A * B) := amap2 pair a b.
Lemma sf_shows_at f x y v m :
  sf_shows f x y v m <-> at_pos (ax (sg f)) (ay (sg f)) (zip2 (values f) (msk f)) x y (v, m).
Proof.
  unfold sf_shows, at_pos. split.
  - intros (i & j & A & B & C & D). exists i, j. rewrite <- C, <- D. auto.
  - intros (i & j & A & B & C). exists i, j. unfold zip2, amap2 in C. cbn [at_] in C. injection C as C D. auto.
Qed.
Definition zip3 {A B C} (a : arr A) (b : arr B) (c : arr C) : arr (A * B * C) := amap2 pair (amap2 pair a b) c.
Lemma vf_shows_at f x y vx vy m :
  vf_shows f x y vx vy m <-> at_pos (ax (vg f)) (ay (vg f)) (zip3 (cx f) (cy f) (vmsk f)) x y (vx, vy, m).
Proof.
  unfold vf_shows, at_pos. split.
  - intros (i & j & A & B & C & D & E). exists i, j. rewrite <- C, <- D, <- E. auto.
  - intros (i & j & A & B & C). exists i, j. unfold zip3, amap2 in C. cbn [at_] in C. injection C as C D E. auto.
Qed.
(** at_pos only depends on the content inside of the axes *)
Lemma at_pos_ext {A} X Y (a b : arr A) x y v :
  (forall i j, i < length X -> j < length Y -> at_ a i j = at_ b i j) ->
  (at_pos X Y a x y v <-> at_pos X Y b x y v).
Proof.
  intro H. unfold at_pos. split; intros (i & j & Hx & Hy & Hv); exists i, j; repeat split; auto;
  rewrite <- Hv; [symmetry|]; apply H; eauto using nth_error_Some_lt.
Qed.

Lemma crop_window_ok_iff axe iv : increasing axe -> axe <> [] ->
  ((exists w, crop_window axe iv = Ok w) <-> iv_ok axe iv) /\
  (crop_window axe iv = Err ValueErr <-> ~ iv_ok axe iv).
Proof.
  intros Hi Hne. destruct (crop_window_spec axe iv Hi Hne) as [H1 H2].
  assert (iv_ok axe iv \/ ~ iv_ok axe iv) as [D|D].
  { unfold iv_ok. destruct iv as [[a b]|]; [|tauto].
    destruct (qleb_spec a b) as [?|?], (qleb_spec (nths axe 0) b) as [?|?], (qleb_spec a (last axe (qz 0))) as [?|?];
    try tauto; right; intros (?&?&?); qlra. }
  - destruct (H1 D) as (i0 & i1 & E & _). split; split; intro G; try tauto; eauto; congruence.
  - specialize (H2 D). split; split; intro G; try tauto.
    destruct G as [w G]. congruence.
Qed.

Lemma sf_crop_lemma f ivx ivy :
  sf_wf f -> grid_sorted (sg f) -> ax (sg f) <> [] -> ay (sg f) <> [] ->
  ((~ iv_ok (ax (sg f)) ivx \/ ~ iv_ok (ay (sg f)) ivy) <-> sf_crop f ivx ivy = Err ValueErr) /\
  (iv_ok (ax (sg f)) ivx -> iv_ok (ay (sg f)) ivy ->
   exists f', sf_crop f ivx ivy = Ok f' /\
     (forall x y v m, sf_shows f' x y v m <-> sf_shows f x y v m /\ in_iv ivx x /\ in_iv ivy y) /\
     (forall x, In x (ax (sg f')) <-> In x (ax (sg f)) /\ in_iv ivx x) /\
     (forall y, In y (ay (sg f')) <-> In y (ay (sg f)) /\ in_iv ivy y) /\
     grid_sorted (sg f') /\ sf_wf f' /\
     ux (sg f') = ux (sg f) /\ uy (sg f') = uy (sg f) /\ uv f' = uv f).
Proof.
  intros [[Hr0 Hr1] [Hm0 Hm1]] [HX HY] HX0 HY0.
  destruct (crop_window_ok_iff _ ivx HX HX0) as [Ox1 Ox2].
  destruct (crop_window_ok_iff _ ivy HY HY0) as [Oy1 Oy2].
  assert (Hin : forall X iv i0 i1 x, increasing X -> X <> [] -> iv_ok X iv -> crop_window X iv = Ok (i0, i1) ->
     (In x (slice i0 (i1 + 1) X) <-> In x X /\ in_iv iv x)).
  { intros X iv i0 i1 x HiX HX0' Ok1 E.
    destruct (crop_window_spec X iv HiX HX0') as [S1 _]. destruct (S1 Ok1) as (a0 & a1 & E' & L & W).
    rewrite E in E'. injection E' as <- <-. split.
    - intro H. apply In_nth_error in H. destruct H as [k Hk]. rewrite nth_error_slice_iff in Hk.
      destruct Hk as [K1 K2]. split; [eapply nth_error_In; eauto|].
      pose proof (nth_error_Some_lt _ _ _ K2) as L2. apply nth_error_nths in K2. rewrite <- K2. apply W; lia.
    - intros [H1 H2]. apply In_nth_error in H1. destruct H1 as [k Hk].
      pose proof (nth_error_Some_lt _ _ _ Hk) as L2. pose proof (nth_error_nths _ _ _ Hk) as N.
      rewrite <- N in H2. apply W in H2; [|exact L2].
      apply (nth_error_In _ (k - i0)). apply nth_error_slice_iff. replace (i0 + (k - i0)) with k by lia.
      split; [lia|exact Hk]. }
  split.
  - unfold sf_crop, grid_crop. split.
    + intros [H|H].
      * apply Ox2 in H. now rewrite H.
      * apply Oy2 in H. destruct (crop_window (ax (sg f)) ivx) as [w|e] eqn:E; cbn [bind].
        -- now rewrite H.
        -- destruct (crop_window_spec _ ivx HX HX0) as [S1 S2].
           destruct e; try reflexivity; exfalso;
           (assert (~ iv_ok (ax (sg f)) ivx) as N by (intro K; destruct (S1 K) as (?&?&K2&_); congruence);
            pose proof (S2 N) as N2; congruence).
    + intro H. destruct (crop_window (ax (sg f)) ivx) as [wx|e] eqn:E1.
      * right. intro K. destruct (proj1 (crop_window_spec _ ivy HY HY0) K) as (a & b & E2 & _).
        rewrite E2 in H. cbn in H. destruct wx; discriminate.
      * left. intro K. apply Ox1 in K. destruct K as [w K]. congruence.
  - intros Okx Oky. apply Ox1 in Okx as Okx'. apply Oy1 in Oky as Oky'.
    destruct Okx' as [[x0 x1] Ex], Oky' as [[y0 y1] Ey].
    unfold sf_crop, grid_crop. rewrite Ex. cbn [bind]. rewrite Ey. cbn [bind].
    eexists. split; [reflexivity|].
    split; [|split; [|split; [|split; [|split; [|split; [|split]]]]]]; try reflexivity.
    + intros x y v m. rewrite !sf_shows_at.
      cbn [sf_crop_to grid_crop_to sg ax ay msk].
      rewrite <- (at_pos_crop _ _ _ ivx ivy x0 x1 y0 y1) by assumption.
      apply at_pos_ext. intros i j Hi Hj. simpl.
      destruct (at_ (msk f) (x0 + i) (y0 + j)); reflexivity.
    + intro x. cbn [sf_crop_to grid_crop_to sg ax ay]. apply Hin; assumption.
    + intro y. cbn [sf_crop_to grid_crop_to sg ax ay]. apply Hin; assumption.
    + split; cbn [sf_crop_to grid_crop_to sg ax ay]; apply increasing_slice; assumption.
    + unfold sf_wf, has_shape. simpl. rewrite !slice_length, Hr0, Hr1, Hm0, Hm1. auto.
Qed.

Lemma vf_crop_lemma f ivx ivy :
  vf_wf f -> grid_sorted (vg f) -> ax (vg f) <> [] -> ay (vg f) <> [] ->
  iv_ok (ax (vg f)) ivx -> iv_ok (ay (vg f)) ivy ->
  exists f', vf_crop f ivx ivy = Ok f' /\
     (forall x y vx vy m, vf_shows f' x y vx vy m <-> vf_shows f x y vx vy m /\ in_iv ivx x /\ in_iv ivy y) /\
     grid_sorted (vg f') /\ vf_wf f' /\
     ux (vg f') = ux (vg f) /\ uy (vg f') = uy (vg f) /\ vuv f' = vuv f.
Proof.
  intros ([Hr0 Hr1] & [Hs0 Hs1] & [Hm0 Hm1]) [HX HY] HX0 HY0 Okx Oky.
  destruct (crop_window_ok_iff _ ivx HX HX0) as [Ox1 Ox2].
  destruct (crop_window_ok_iff _ ivy HY HY0) as [Oy1 Oy2].
  apply Ox1 in Okx as Okx'. apply Oy1 in Oky as Oky'.
  destruct Okx' as [[x0 x1] Ex], Oky' as [[y0 y1] Ey].
  unfold vf_crop, grid_crop. rewrite Ex. cbn [bind]. rewrite Ey. cbn [bind].
  eexists. split; [reflexivity|]. split; [|split; [|split; [|split; [|split]]]]; try reflexivity.
  - intros x y vx vy m. rewrite !vf_shows_at.
    cbn [vf_crop_to grid_crop_to vg ax ay].
    rewrite <- (at_pos_crop _ _ _ ivx ivy x0 x1 y0 y1) by assumption.
    apply at_pos_ext. intros i j Hi Hj. reflexivity.
  - split; cbn [vf_crop_to grid_crop_to vg ax ay]; apply increasing_slice; assumption.
  - unfold vf_wf, has_shape. simpl. rewrite !slice_length, Hr0, Hr1, Hs0, Hs1, Hm0, Hm1. auto.
Qed.
