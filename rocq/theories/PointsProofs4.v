(** * PointsProofs4: velocities and density of point sets. *)
From Verif Require Import Num Res ListLib SortLib SeqSpec Arr FieldModel ScalarFieldModel FieldSpec FieldProofs2 ScalarProofs
  ProfileModel ProfileSpec ProfileProofs ProfileProofs2 PointsModel PointsSpec PointsProofs PointsProofs2.

Lemma list_ext_err {A} (l m : list A) : (forall i, nth_error l i = nth_error m i) -> l = m.
Proof.
  revert m; induction l as [|x l IH]; intros [|y m] H; [reflexivity|specialize (H 0); discriminate|specialize (H 0); discriminate|].
  f_equal; [specialize (H 0); cbn in H; congruence|]. apply IH. intro i. apply (H (S i)).
Qed.
(** ** velocity *)
Lemma stride_from_nth {A} k s (l : list A) i : 1 <= k -> nth_error (stride_from k s l) i = nth_error l (s + i * k).
Proof.
  intro K. revert s i; induction l as [|x l IH]; intros s i; cbn [stride_from].
  - destruct i, (s + 0 * k); try reflexivity; destruct (s + _); reflexivity.
  - destruct s as [|s].
    + destruct i as [|i]; [reflexivity|]. cbn [nth_error]. rewrite IH.
      replace (0 + S i * k) with (S (k - 1 + i * k)) by (cbn; lia). reflexivity.
    + rewrite IH. reflexivity.
Qed.
Lemma stride_nth {A} k (l : list A) i : 1 <= k -> nth_error (stride k l) i = nth_error l (i * k).
Proof. intro K. unfold stride. rewrite stride_from_nth by exact K. reflexivity. Qed.
Lemma stride_map {A B} (f : A -> B) k (l : list A) : stride k (map f l) = map f (stride k l).
Proof.
  unfold stride. generalize 0. induction l as [|x l IH]; intros [|s]; cbn; try reflexivity; [f_equal; apply IH|apply IH].
Qed.
Lemma steps_nth {A B} (f : A -> A -> B) l i :
  nth_error (steps f l) i = match nth_error l i, nth_error l (S i) with Some a, Some b => Some (f a b) | _, _ => None end.
Proof.
  unfold steps. rewrite nth_error_map. destruct l as [|x l]; [destruct i; reflexivity|]. cbn [tl].
  revert x i; induction l as [|y l IH]; intros x i.
  - cbn. destruct i as [|[|i]]; reflexivity.
  - destruct i as [|i]; [reflexivity|]. cbn [combine nth_error]. apply IH.
Qed.
Lemma steps_length {A B} (f : A -> A -> B) l : length (steps f l) = length l - 1.
Proof. unfold steps. rewrite map_length, combine_length. destruct l; [reflexivity|]. cbn [tl length]. lia. Qed.
Lemma steps_map {A B C} (f : B -> B -> C) (g : A -> B) l : steps f (map g l) = steps (fun a b => f (g a) (g b)) l.
Proof.
  unfold steps. replace (tl (map g l)) with (map g (tl l)) by (destruct l; reflexivity).
  rewrite map_combine2, map_map. reflexivity.
Qed.
Lemma combine_steps {A B C} (f : A -> A -> B) (g : A -> A -> C) l :
  combine (steps f l) (steps g l) = steps (fun a b => (f a b, g a b)) l.
Proof. unfold steps. induction (combine l (tl l)) as [|t r IH]; cbn; congruence. Qed.
Lemma map_steps {A B C} (h : B -> C) (f : A -> A -> B) l : map h (steps f l) = steps (fun a b => h (f a b)) l.
Proof. unfold steps. rewrite map_map. reflexivity. Qed.
Lemma combine_fst_steps {A B C} (h : A -> C) (f : A -> A -> B) l :
  combine (map h l) (steps f l) = steps (fun a b => (h a, f a b)) l.
Proof.
  unfold steps. destruct l as [|x l]; [reflexivity|]. cbn [tl map]. revert x; induction l as [|y l IH]; intro x; [reflexivity|].
  cbn [combine map]. f_equal. apply IH.
Qed.
Lemma increasing_steps (l : list (num * (num * num))) : increasing (map fst l) -> nondecreasing (steps mid_time l).
Proof.
  intros I i j Li Lj. rewrite steps_length in Lj.
  assert (H : forall i, i < length l - 1 -> exists a b, nth_error l i = Some a /\ nth_error l (S i) = Some b /\ nths (steps mid_time l) i = mid_time a b).
  { intros k Lk. destruct (nth_error l k) as [a|] eqn:Ea; [|apply nth_error_None in Ea; lia].
    destruct (nth_error l (S k)) as [b|] eqn:Eb; [|apply nth_error_None in Eb; lia].
    exists a, b. repeat split. unfold nths. apply nth_error_nth. rewrite steps_nth, Ea, Eb. reflexivity. }
  destruct (H i) as (a & b & Ea & Eb & ->); [lia|]. destruct (H j) as (a' & b' & Ea' & Eb' & ->); [lia|].
  assert (N : forall k t, nth_error l k = Some t -> nths (map fst l) k = fst t).
  { intros k t E. unfold nths. apply nth_error_nth. rewrite nth_error_map, E. reflexivity. }
  assert (L : forall k t k' t', nth_error l k = Some t -> nth_error l k' = Some t' -> k <= k' -> (fst t <= fst t')%num).
  { intros k t k' t' E E' LE. destruct (Nat.eq_dec k k') as [->|NE]; [rewrite E in E'; injection E' as ->; apply qle_refl|].
    apply qlt_le. rewrite <- (N _ _ E), <- (N _ _ E'). apply I; [lia|]. rewrite map_length. apply nth_error_Some_lt in E'. lia. }
  unfold mid_time. pose proof (L _ _ _ _ Ea Ea' Li). assert (S i <= S j) as SS by lia. pose proof (L _ _ _ _ Eb Eb' SS).
  apply qdiv_le; [qlra|]. replace (((fst a' + fst b') / 2) * 2)%num with (fst a' + fst b')%num by (symmetry; apply qdiv_mul; apply qgt_neq; qlra). qlra.
Qed.

Lemma increasing_stride k (l : list num) : 1 <= k -> increasing l -> increasing (stride k l).
Proof.
  intros K I i j L1 L2.
  assert (N : forall i, i < length (stride k l) -> i * k < length l /\ nths (stride k l) i = nths l (i * k)).
  { intros m Lm. destruct (nth_error (stride k l) m) as [a|] eqn:E; [|apply nth_error_None in E; lia].
    pose proof E as E'. rewrite stride_nth in E' by exact K. split; [apply nth_error_Some_lt in E'; exact E'|].
    unfold nths. rewrite (nth_error_nth _ _ _ E), (nth_error_nth _ _ _ E'). reflexivity. }
  destruct (N i) as [_ ->]; [lia|]. destruct (N j) as [Lj ->]; [lia|]. apply I; [|exact Lj]. nia.
Qed.
Lemma nodup_sorted_increasing l : NoDup l -> nondecreasing l -> increasing l.
Proof.
  intros N H i j L1 L2. destruct (qle_lt_or_eq (nths l i) (nths l j)) as [L|E]; [apply H; lia|exact L|].
  exfalso. assert (i = j); [|lia]. apply (proj1 (NoDup_nth l (qz 0)) N); [lia|lia|exact E].
Qed.
Lemma zip3_steps {A} (f : A -> A -> num) (g : A -> A -> onum) l :
  zip3 (steps f l) (steps g l) (repeat false (length (steps f l))) = steps (fun a b => (f a b, g a b, false)) l.
Proof.
  unfold zip3. rewrite combine_steps, steps_length. unfold steps.
  replace (length l - 1) with (length (combine l (tl l))) by (rewrite combine_length; destruct l; [reflexivity|]; cbn [tl length]; lia).
  induction (combine l (tl l)) as [|t r IH]; cbn; congruence.
Qed.
Lemma velocity_lemma asort p incr : is_argsort asort -> length (pv p) = length (xy p) -> xy p <> [] -> NoDup (pv p) -> 1 <= incr ->
  exists tr a b, Permutation tr (combine (pv p) (xy p)) /\ increasing (map fst tr) /\
    pts_velocity asort p incr = Ok (a, b) /\ prof_ok a /\ prof_ok b /\
    pux a = ptv p /\ pux b = ptv p /\ puy a = unit_div (ptx p) (ptv p) /\ puy b = unit_div (pty p) (ptv p) /\
    (forall k, nth_error (samples a) k = match nth_error tr (k * incr), nth_error tr (S k * incr) with
                                         | Some u, Some w => Some (speed_sample fst u w) | _, _ => None end) /\
    (forall k, nth_error (samples b) k = match nth_error tr (k * incr), nth_error tr (S k * incr) with
                                         | Some u, Some w => Some (speed_sample snd u w) | _, _ => None end).
Proof.
  intros AS L NE ND K. destruct (AS (pv p)) as [P Sd].
  set (o := asort (pv p)) in *.
  assert (Io : forall i, In i o -> i < length (pv p)) by (intros i Hi; eapply perm_seq_lt; eauto).
  set (tr := gather (qz 0, (qz 0, qz 0)) o (combine (pv p) (xy p))).
  assert (Ptr : Permutation tr (combine (pv p) (xy p))).
  { apply gather_perm. rewrite combine_length, L, Nat.min_id, <- L. exact P. }
  assert (Ec : tr = combine (gather (qz 0) o (pv p)) (gather (qz 0, qz 0) o (xy p))).
  { symmetry. apply gather_combine; auto. }
  assert (Et : map fst tr = gather (qz 0) o (pv p)) by (rewrite Ec; apply combine_fst_of; rewrite !gather_length; reflexivity).
  assert (Ex : map snd tr = gather (qz 0, qz 0) o (xy p)) by (rewrite Ec; apply combine_snd_of; rewrite !gather_length; reflexivity).
  assert (Inc : increasing (map fst tr)).
  { rewrite Et. apply nodup_sorted_increasing; [|exact Sd]. eapply Permutation_NoDup; [|exact ND]. symmetry. apply gather_perm. exact P. }
  set (q := stride incr tr).
  assert (Iq : increasing (map fst q)) by (unfold q; rewrite <- stride_map; apply increasing_stride; auto).
  assert (NZ : forall i a b, nth_error q i = Some a -> nth_error q (S i) = Some b -> (fst b - fst a)%num <> 0%num).
  { intros i a b Ea Eb. enough ((fst a < fst b)%num) by (apply qgt_neq; qlra).
    replace (fst a) with (nths (map fst q) i) by (unfold nths; apply nth_error_nth; rewrite nth_error_map, Ea; reflexivity).
    replace (fst b) with (nths (map fst q) (S i)) by (unfold nths; apply nth_error_nth; rewrite nth_error_map, Eb; reflexivity).
    apply Iq; [lia|]. rewrite map_length. apply nth_error_Some_lt in Eb. exact Eb. }
  set (times := stride incr (gather (qz 0) o (pv p))).
  set (pos := stride incr (gather (qz 0, qz 0) o (xy p))).
  assert (E1 : times = map fst q) by (unfold times, q; rewrite <- Et; apply stride_map).
  assert (E2 : pos = map snd q) by (unfold pos, q; rewrite <- Ex; apply stride_map).
  assert (Emid : map (fun t => (fst t + snd t / 2)%num) (combine times (steps (fun a b => b - a)%num times)) = steps mid_time q).
  { rewrite E1, steps_map, combine_fst_steps, map_steps. unfold steps. apply map_ext. intros [u w]; cbn. unfold mid_time. qfield. vm_compute; discriminate. }
  assert (Ev : forall g : num * num -> num,
     map (fun t => odiv (Some (fst t)) (Some (snd t))) (combine (steps (fun a b => g b - g a)%num pos) (steps (fun a b => b - a)%num times))
     = steps (fun u w => Some ((g (snd w) - g (snd u)) / (fst w - fst u))%num) q).
  { intro g. rewrite E1, E2, !steps_map, combine_steps, map_steps. cbn [fst snd].
    apply list_ext_err. intro k. rewrite !steps_nth. destruct (nth_error q k) as [u|] eqn:Eu; [|reflexivity].
    destruct (nth_error q (S k)) as [w|] eqn:Ew; [|reflexivity]. f_equal. unfold odiv.
    destruct (qeqb_spec (fst w - fst u)%num 0%num) as [Z|Z]; [destruct (NZ _ _ _ Eu Ew Z)|reflexivity]. }
  assert (LS : forall (g : num * num -> num), length (steps mid_time q) = length (steps (fun u w : num * (num * num) => Some ((g (snd w) - g (snd u)) / (fst w - fst u))%num) q))
    by (intro g; rewrite !steps_length; reflexivity).
  destruct (new_lemma (steps mid_time q) _ None (ptv p) (unit_div (ptx p) (ptv p)) (LS fst) I) as (a & Ea & OKa & U1 & U2 & _ & Sa).
  destruct (new_lemma (steps mid_time q) _ None (ptv p) (unit_div (pty p) (ptv p)) (LS snd) I) as (b & Eb & OKb & U3 & U4 & _ & Sb).
  specialize (Sa (increasing_steps q Iq)). specialize (Sb (increasing_steps q Iq)). destruct Sa as [_ Sa]. destruct Sb as [_ Sb].
  rewrite zip3_steps, map_steps in Sa. rewrite zip3_steps, map_steps in Sb.
  exists tr, a, b. split; [exact Ptr|]. split; [exact Inc|]. split.
  - unfold pts_velocity. assert (Nat.eqb (length (pv p)) 0 = false) as ->.
    { rewrite L. destruct (xy p); [congruence|reflexivity]. }
    assert (Nat.eqb incr 0 = false) as -> by (apply Nat.eqb_neq; lia). cbn [guard].
    fold o. fold times pos. cbv zeta. rewrite Emid. rewrite (Ev fst), (Ev snd). rewrite Ea. cbn [bind]. rewrite Eb. reflexivity.
  - repeat split; auto; try apply OKa; try apply OKb; intro k; [rewrite Sa|rewrite Sb]; rewrite steps_nth; unfold q; rewrite !stride_nth by exact K;
      destruct (nth_error tr (k * incr)); auto; destruct (nth_error tr (S k * incr)); reflexivity.
Qed.
Lemma velocity_uniform asort p incr x0 y0 cx cy : is_argsort asort -> length (pv p) = length (xy p) -> xy p <> [] -> NoDup (pv p) -> 1 <= incr ->
  (forall t q, In (t, q) (combine (pv p) (xy p)) -> fst q = x0 + cx * t /\ snd q = y0 + cy * t)%num ->
  exists a b, pts_velocity asort p incr = Ok (a, b) /\ (forall t, In t (samples a) -> sy t = Some cx) /\ (forall t, In t (samples b) -> sy t = Some cy).
Proof.
  intros AS L NE ND K U. destruct (velocity_lemma asort p incr AS L NE ND K) as (tr & a & b & P & Inc & E & _ & _ & _ & _ & _ & _ & Sa & Sb).
  exists a, b. split; [exact E|].
  assert (G : forall k u w, nth_error tr (k * incr) = Some u -> nth_error tr (S k * incr) = Some w ->
     (fst w - fst u <> 0 /\ fst (snd w) - fst (snd u) = cx * (fst w - fst u) /\ snd (snd w) - snd (snd u) = cy * (fst w - fst u))%num).
  { intros k u w Eu Ew. split.
    - enough ((fst u < fst w)%num) by (apply qgt_neq; qlra).
      replace (fst u) with (nths (map fst tr) (k * incr)) by (unfold nths; apply nth_error_nth; rewrite nth_error_map, Eu; reflexivity).
      replace (fst w) with (nths (map fst tr) (S k * incr)) by (unfold nths; apply nth_error_nth; rewrite nth_error_map, Ew; reflexivity).
      apply Inc; [cbn; lia|]. rewrite map_length. apply nth_error_Some_lt in Ew. exact Ew.
    - apply nth_error_In in Eu, Ew. apply (Permutation_in _ P) in Eu, Ew. destruct u as [tu qu], w as [tw qw].
      destruct (U _ _ Eu) as [A1 A2]. destruct (U _ _ Ew) as [B1 B2]. cbn [fst snd]. rewrite A1, A2, B1, B2. split; qring. }
  split; intros t I; apply In_nth_error in I; destruct I as (k & Ek); [rewrite Sa in Ek|rewrite Sb in Ek];
    destruct (nth_error tr (k * incr)) as [u|] eqn:Eu; try discriminate; destruct (nth_error tr (S k * incr)) as [w|] eqn:Ew; try discriminate;
    injection Ek as <-; destruct (G k u w Eu Ew) as (NZ & G1 & G2); cbn; unfold sy; cbn; f_equal.
  - rewrite G1. apply qmul_div; exact NZ.
  - rewrite G2. apply qmul_div; exact NZ.
Qed.
