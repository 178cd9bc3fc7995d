(** * CloProofs: the surroundings of a point *)
From Coq Require Import Lia QArith Qcanon List.
From Verif Require Import Num Res ListLib SortLib Arr FieldModel ScalarFieldModel VectorFieldModel FieldSpec ProfileModel ProfileSpec Prof2Model Prof2Spec Prof2Proofs2 FieldProofs CloModel CloSpec.

Lemma half_up_ok n : n = 2 * half_up n \/ n + 1 = 2 * half_up n.
Proof. unfold half_up. assert (H := Nat.div_mod (n + 1) 2 ltac:(lia)). assert (B := Nat.mod_upper_bound (n + 1) 2 ltac:(lia)). lia. Qed.
Lemma half_unique n k k' : (n = 2 * k \/ n + 1 = 2 * k) -> (n = 2 * k' \/ n + 1 = 2 * k') -> k = k'.
Proof. lia. Qed.
Lemma reach_half axe n d : reach axe n d -> d = (qn (half_up n) * (nths axe 1 - nths axe 0))%num.
Proof. intros (k & K & ->). now rewrite (half_unique n k (half_up n) K (half_up_ok n)). Qed.
Lemma closer_eq c d v : (qltb (c - d) v && qltb v (c + d))%num%bool = closer c d v.
Proof.
  unfold closer. destruct (qltb_spec (qabs (v - c)) d) as [H|H].
  - apply andb_true_iff. split; apply qltb_lt; unfold qabs in H; destruct (qleb_spec 0 (v - c)); qlra.
  - apply andb_false_iff. unfold qabs in H. destruct (qleb_spec 0 (v - c)).
    + right. destruct (qltb_spec v (c + d)); [exfalso; qlra|reflexivity].
    + left. destruct (qltb_spec (c - d) v); [exfalso; qlra|reflexivity].
Qed.
Lemma keep_map {A} (P : A -> bool) l : keep (map P l) l = filter P l.
Proof. induction l as [|a l IH]; [reflexivity|]. cbn. rewrite IH. reflexivity. Qed.
Lemma around_eq axe c n d : reach axe n d -> around_filt axe c n = map (closer c d) axe.
Proof. intro R. apply reach_half in R. unfold around_filt. rewrite <- R. apply map_ext. intro v. apply closer_eq. Qed.
Lemma keep_row {A} (P : num -> bool) x (r : list A) (y : num) : length r = length x ->
  map (fun c : num * A => (fst c, y, snd c)) (combine (filter P x) (keep (map P x) r)) =
  filter (fun t => P (fst (fst t))) (map (fun c : num * A => (fst c, y, snd c)) (combine x r)).
Proof.
  revert r. induction x as [|a x IH]; intros [|b r] L; try discriminate; [reflexivity|]. cbn in L. cbn [map keep filter combine fst snd].
  destruct (P a); cbn [combine map fst snd]; rewrite IH by lia; reflexivity.
Qed.
Lemma filter_and {A} (P Q : A -> bool) l : filter (fun t => (P t && Q t)%bool) l = filter P (filter Q l).
Proof. induction l as [|a l IH]; [reflexivity|]. cbn. destruct (Q a); cbn; [destruct (P a)|rewrite andb_false_r]; cbn; now rewrite IH. Qed.
Lemma filter_all {A} (P : A -> bool) l : (forall t, In t l -> P t = true) -> filter P l = l.
Proof. induction l as [|a l IH]; intro H; [reflexivity|]. cbn. rewrite H by now left. f_equal. apply IH. intros; apply H; now right. Qed.
Lemma filter_none {A} (P : A -> bool) l : (forall t, In t l -> P t = false) -> filter P l = [].
Proof. induction l as [|a l IH]; intro H; [reflexivity|]. cbn. rewrite H by now left. apply IH. intros; apply H; now right. Qed.
Lemma crop_cells {A} (P Q : num -> bool) x y (a : list (list A)) : rect x y a ->
  cells (filter P x) (filter Q y) (crop2 (map Q y) (map P x) a) = filter (fun t => (P (fst (fst t)) && Q (snd (fst t)))%bool) (cells x y a).
Proof.
  intros (L & R). unfold cells, crop2. revert a L R. induction y as [|b y IH]; intros [|r a] L R; try discriminate; [reflexivity|].
  inversion R as [|? ? R0 R1]; subst. cbn in L. assert (L' : length a = length y) by lia. specialize (IH a L' R1). cbn [map filter keep combine flat_map fst snd]. rewrite filter_app.
  assert (E : filter (fun t : num * num * A => (P (fst (fst t)) && Q (snd (fst t)))%bool) (map (fun c : num * A => (fst c, b, snd c)) (combine x r)) =
              if Q b then map (fun c : num * A => (fst c, b, snd c)) (combine (filter P x) (keep (map P x) r)) else []).
  { destruct (Q b) eqn:QB.
    - rewrite keep_row by exact R0. apply filter_ext_in. intros t T. apply in_map_iff in T. destruct T as (c & <- & _). cbn. rewrite QB. apply andb_true_r.
    - apply filter_none. intros t T. apply in_map_iff in T. destruct T as (c & <- & _). cbn. rewrite QB. apply andb_false_r. }
  rewrite E. destruct (Q b); cbn [map combine flat_map fst snd app]; rewrite IH; reflexivity.
Qed.
Lemma filter_zero {A} (P : A -> bool) l : length (filter P l) = 0 <-> forall v, In v l -> P v = false.
Proof.
  split.
  - intros H v I. destruct (P v) eqn:E; [|reflexivity]. assert (K : In v (filter P l)) by (apply filter_In; now split). destruct (filter P l); [contradiction|discriminate].
  - intro H. now rewrite filter_none.
Qed.
Lemma around_lemma f xc yc n dx dy : vfa_ok f -> 2 <= length (a_x f) -> 2 <= length (a_y f) -> reach (a_x f) n dx -> reach (a_y f) n dy ->
  (exists x, In x (a_x f) /\ closer xc dx x = true) -> (exists y, In y (a_y f) /\ closer yc dy y = true) ->
  let sel {A} := fun t : num * num * A => (closer xc dx (fst (fst t)) && closer yc dy (snd (fst t)))%bool in
  exists r, around_pt f xc yc n = Ok r /\ a_x r = filter (closer xc dx) (a_x f) /\ a_y r = filter (closer yc dy) (a_y f) /\ a_time r = a_time f /\
    cells (a_x r) (a_y r) (a_vx r) = filter sel (cells (a_x f) (a_y f) (a_vx f)) /\
    cells (a_x r) (a_y r) (a_vy r) = filter sel (cells (a_x f) (a_y f) (a_vy f)) /\
    cells (a_x r) (a_y r) (a_mask r) = filter sel (cells (a_x f) (a_y f) (a_mask f)) /\
    cells (a_x r) (a_y r) (a_theta r) = filter sel (cells (a_x f) (a_y f) (a_theta f)).
Proof.
  intros (R1 & R2 & R3 & R4) LX LY DX DY (x & IX & CX) (y & IY & CY) sel. unfold around_pt.
  assert (Nat.ltb (length (a_x f)) 2 = false) as -> by (apply Nat.ltb_ge; lia). assert (Nat.ltb (length (a_y f)) 2 = false) as -> by (apply Nat.ltb_ge; lia). cbn [orb guard].
  rewrite (around_eq _ xc n dx DX), (around_eq _ yc n dy DY), !keep_map.
  destruct (Nat.eqb_spec (length (filter (closer xc dx) (a_x f))) 0) as [E|_]. { rewrite filter_zero in E. rewrite (E x IX) in CX. discriminate. }
  destruct (Nat.eqb_spec (length (filter (closer yc dy) (a_y f))) 0) as [E|_]. { rewrite filter_zero in E. rewrite (E y IY) in CY. discriminate. }
  cbn [orb guard]. eexists. split; [reflexivity|]. cbn [a_x a_y a_vx a_vy a_mask a_theta a_time].
  split; [reflexivity|]. split; [reflexivity|]. split; [reflexivity|]. repeat split; apply crop_cells; assumption.
Qed.
Lemma around_none f xc yc n dx dy : 2 <= length (a_x f) -> 2 <= length (a_y f) -> reach (a_x f) n dx -> reach (a_y f) n dy ->
  (forall x, In x (a_x f) -> closer xc dx x = false) \/ (forall y, In y (a_y f) -> closer yc dy y = false) -> around_pt f xc yc n = Err ValueErr.
Proof.
  intros LX LY DX DY H. unfold around_pt.
  assert (Nat.ltb (length (a_x f)) 2 = false) as -> by (apply Nat.ltb_ge; lia). assert (Nat.ltb (length (a_y f)) 2 = false) as -> by (apply Nat.ltb_ge; lia). cbn [orb guard].
  rewrite (around_eq _ xc n dx DX), (around_eq _ yc n dy DY), !keep_map. rewrite <- !filter_zero in H.
  destruct H as [-> | ->]; [reflexivity|]. now rewrite orb_true_r.
Qed.

(** ** the number of lines *)
Lemma qn_inj_lt a b : (qn a < qn b)%num <-> a < b.
Proof.
  split; intro H.
  - destruct (Nat.lt_ge_cases a b) as [Q|Q]; [exact Q|]. exfalso. assert (K := qn_le _ _ Q). qlra.
  - assert (K := qn_le (S a) b H). rewrite qn_S in K. qlra.
Qed.
Lemma qn_plus a b : qn (a + b) = (qn a + qn b)%num.
Proof. induction a as [|a IH]; [cbn [Nat.add]; change (qn 0) with (qz 0); qring|]. cbn [Nat.add]. rewrite !qn_S, IH. qring. Qed.
Lemma closer_even x0 h i0 k i : (0 < h)%num -> closer (x0 + qn i0 * h) (qn k * h) (x0 + qn i * h) = (Nat.ltb i0 (i + k) && Nat.ltb i (i0 + k))%bool.
Proof.
  intro H. rewrite <- closer_eq. f_equal.
  - replace (x0 + qn i0 * h - qn k * h)%num with (x0 + (qn i0 - qn k) * h)%num by qring. destruct (Nat.ltb_spec i0 (i + k)) as [L|L].
    + apply qltb_lt. apply qn_inj_lt in L. rewrite qn_plus in L. assert (0 < (qn i + qn k - qn i0) * h)%num by (apply qmul_pos; qlra). assert ((qn i + qn k - qn i0) * h = qn i * h - (qn i0 - qn k) * h)%num by qring. qlra.
    + apply qn_le in L. rewrite qn_plus in L. destruct (qltb_spec (x0 + (qn i0 - qn k) * h) (x0 + qn i * h)) as [Q|]; [|reflexivity]. exfalso.
      assert (0 <= (qn i0 - qn i - qn k) * h)%num by (apply qmul_nonneg; qlra). assert ((qn i0 - qn i - qn k) * h = (qn i0 - qn k) * h - qn i * h)%num by qring. qlra.
  - replace (x0 + qn i0 * h + qn k * h)%num with (x0 + (qn i0 + qn k) * h)%num by qring. destruct (Nat.ltb_spec i (i0 + k)) as [L|L].
    + apply qltb_lt. apply qn_inj_lt in L. rewrite qn_plus in L. assert (0 < (qn i0 + qn k - qn i) * h)%num by (apply qmul_pos; qlra). assert ((qn i0 + qn k - qn i) * h = (qn i0 + qn k) * h - qn i * h)%num by qring. qlra.
    + apply qn_le in L. rewrite qn_plus in L. destruct (qltb_spec (x0 + qn i * h) (x0 + (qn i0 + qn k) * h)) as [Q|]; [|reflexivity]. exfalso.
      assert (0 <= (qn i - qn i0 - qn k) * h)%num by (apply qmul_nonneg; qlra). assert ((qn i - qn i0 - qn k) * h = qn i * h - (qn i0 + qn k) * h)%num by qring. qlra.
Qed.
Lemma filter_map {A B} (g : A -> B) (P : B -> bool) l : filter P (map g l) = map g (filter (fun a => P (g a)) l).
Proof. induction l as [|a l IH]; [reflexivity|]. cbn. destruct (P (g a)); cbn; now rewrite IH. Qed.
Lemma seq_window N a m : a + m <= N -> filter (fun i => (Nat.leb a i && Nat.ltb i (a + m))%bool) (seq 0 N) = seq a m.
Proof.
  intro L. replace N with (a + (m + (N - a - m))) by lia. rewrite !seq_app, !filter_app. rewrite filter_none, (filter_all _ (seq (0 + a) m)), filter_none.
  - rewrite app_nil_r. reflexivity.
  - intros i I. apply in_seq in I. apply andb_false_iff. right. apply Nat.ltb_ge. lia.
  - intros i I. apply in_seq in I. apply andb_true_iff. split; [apply Nat.leb_le|apply Nat.ltb_lt]; lia.
  - intros i I. apply in_seq in I. apply andb_false_iff. left. apply Nat.leb_gt. lia.
Qed.
Lemma even_window x0 h N i0 m : (0 < h)%num -> m <= i0 -> i0 + m < N ->
  filter (closer (x0 + qn i0 * h) (qn (S m) * h)) (even_axis x0 h N) = map (fun i => (x0 + qn i * h)%num) (seq (i0 - m) (2 * m + 1)).
Proof.
  intros H L1 L2. unfold even_axis. rewrite filter_map. f_equal. rewrite <- (seq_window N (i0 - m) (2 * m + 1)) by lia. apply filter_ext. intro i.
  rewrite closer_even by exact H. f_equal.
  - destruct (Nat.ltb_spec i0 (i + S m)); destruct (Nat.leb_spec (i0 - m) i); try reflexivity; lia.
  - destruct (Nat.ltb_spec i (i0 + S m)); destruct (Nat.ltb_spec i (i0 - m + (2 * m + 1))); try reflexivity; lia.
Qed.
Lemma even_step x0 h N : 2 <= N -> (nths (even_axis x0 h N) 1 - nths (even_axis x0 h N) 0)%num = h.
Proof.
  intro L. unfold even_axis. destruct N as [|[|N]]; try lia. cbn [seq map]. unfold nths. cbn [nth]. change (qn 1) with (qz 1). change (qn 0) with (qz 0). qring.
Qed.
Lemma even_reach x0 h N m : 2 <= N -> reach (even_axis x0 h N) (2 * m + 1) (qn (S m) * h)%num.
Proof. intro L. exists (S m). split; [lia|]. now rewrite even_step. Qed.
Lemma even_len x0 h N : length (even_axis x0 h N) = N. Proof. unfold even_axis. now rewrite map_length, seq_length. Qed.
Lemma even_in x0 h N i0 m : (0 < h)%num -> i0 < N -> exists x, In x (even_axis x0 h N) /\ closer (x0 + qn i0 * h) (qn (S m) * h) x = true.
Proof.
  intros H L. exists (x0 + qn i0 * h)%num. split; [unfold even_axis; apply in_map_iff; exists i0; split; [reflexivity|apply in_seq; lia]|].
  rewrite closer_even by exact H. apply andb_true_iff. split; apply Nat.ltb_lt; lia.
Qed.
Lemma count_lemma f x0 hx nx y0 hy ny i0 j0 m : vfa_ok f -> (0 < hx)%num -> (0 < hy)%num -> 2 <= nx -> 2 <= ny ->
  a_x f = even_axis x0 hx nx -> a_y f = even_axis y0 hy ny -> m <= i0 -> i0 + m < nx -> m <= j0 -> j0 + m < ny ->
  exists r, around_pt f (x0 + qn i0 * hx) (y0 + qn j0 * hy) (2 * m + 1) = Ok r /\
    a_x r = map (fun i => (x0 + qn i * hx)%num) (seq (i0 - m) (2 * m + 1)) /\ a_y r = map (fun j => (y0 + qn j * hy)%num) (seq (j0 - m) (2 * m + 1)).
Proof.
  intros W HX HY NX NY EX EY A B C D.
  destruct (around_lemma f (x0 + qn i0 * hx) (y0 + qn j0 * hy) (2 * m + 1) (qn (S m) * hx) (qn (S m) * hy) W) as (r & E & RX & RY & _).
  - rewrite EX, even_len. exact NX.
  - rewrite EY, even_len. exact NY.
  - rewrite EX. now apply even_reach.
  - rewrite EY. now apply even_reach.
  - rewrite EX. apply even_in; [exact HX|lia].
  - rewrite EY. apply even_in; [exact HY|lia].
  - exists r. split; [exact E|]. rewrite RX, RY, EX, EY. split; apply even_window; assumption.
Qed.
