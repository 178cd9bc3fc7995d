(** * CritProofs10: results of the topological simplification. *)
From Verif Require Import Num Res ListLib SortLib SeqSpec Arr PointsModel PointsSpec CritModel CritSpec CritProofs CritProofs2 CritProofs3 CritProofs9.
From Coq Require Import Permutation Lia.

Lemma count_occurs t g ty : count ty (map (type_of t) g) = occurs t g ty.
Proof. unfold count, occurs. induction g as [|i g IH]; cbn; [reflexivity|]. destruct (ty =? type_of t i)%Z; cbn; rewrite IH; reflexivity. Qed.
Lemma index_cases ty : index_of ty = 1%Z -> (ty = 1 \/ ty = 2 \/ ty = 4 \/ ty = 5)%Z.
Proof.
  rewrite <- type_pbi_index. unfold type_pbi.
  destruct (Z.eqb_spec ty 1), (Z.eqb_spec ty 2), (Z.eqb_spec ty 4), (Z.eqb_spec ty 5); auto. cbn [orb]. destruct (ty =? 3)%Z; discriminate.
Qed.
Lemma index_one_member t g : (0 < group_index t g)%Z -> exists i, In i g /\ index_of (type_of t i) = 1%Z.
Proof.
  induction g as [|i g IH]; [cbn; lia|]. unfold group_index, zsumf in *. cbn [fold_right]. intro H.
  assert (C : (index_of (type_of t i) = 1 \/ index_of (type_of t i) <= 0)%Z).
  { rewrite <- type_pbi_index. unfold type_pbi. destruct (_ || _)%bool; [auto|]. destruct (_ =? 3)%Z; lia. }
  destruct C as [C|C]; [exists i; split; [left; reflexivity|exact C]|].
  destruct IH as (k & Ik & Ek); [lia|]. exists k. split; [right|]; assumption.
Qed.
Lemma occurs_pos t g i : In i g -> 0 < occurs t g (type_of t i).
Proof.
  intro I. unfold occurs. assert (In i (filter (fun k => (type_of t i =? type_of t k)%Z) g)) as J by (apply filter_In; split; [exact I|apply Z.eqb_refl]).
  destruct (filter _ g); [destruct J|cbn; lia].
Qed.
Lemma equiv_type_ok t g : summary_type t g (equiv_type (map (type_of t) g) (group_index t g)).
Proof.
  assert (G : forall l, l = map (type_of t) g ->
    let r := if negb ((group_index t g =? -1) || (group_index t g =? 1))%Z%bool then 0%Z
         else if (group_index t g =? -1)%Z then 3%Z
         else Z.of_nat (S (amin (fun i => option_map (fun c => 0 - qn c)%num
                                            (nth_error [count 1 l; count 2 l; 0; count 4 l; count 5 l] i))
                                0 (seq 0 5))) in
    (group_index t g = (-1)%Z -> r = 3%Z) /\
         (group_index t g = 1%Z -> index_of r = 1%Z /\ forall ty', index_of ty' = 1%Z -> occurs t g ty' <= occurs t g r) /\
         (group_index t g <> (-1)%Z -> group_index t g <> 1%Z -> r = 0%Z)).
  { intros l -> r. split; [|split].
    - intro E. unfold r. rewrite E. reflexivity.
    - intro E. set (f := fun i => option_map (fun c => 0 - qn c)%num
         (nth_error [count 1 (map (type_of t) g); count 2 (map (type_of t) g); 0; count 4 (map (type_of t) g); count 5 (map (type_of t) g)] i)).
      assert (Er : r = Z.of_nat (S (amin f 0 (seq 0 5)))).
      { unfold r. rewrite E. reflexivity. }
      clearbody r. destruct (amin_spec f (seq 0 5) 0) as [M U]. set (m := amin f 0 (seq 0 5)) in *. clearbody m.
      assert (Hm : m < 5) by (destruct M as [-> | M]; [lia|apply in_seq in M; lia]).
      assert (CO : forall k c, nth_error [occurs t g 1; occurs t g 2; 0; occurs t g 4; occurs t g 5] k = Some c ->
                   forall cm, nth_error [occurs t g 1; occurs t g 2; 0; occurs t g 4; occurs t g 5] m = Some cm -> c <= cm).
      { intros k c Ek cm Em. assert (Hk : k < 5) by (assert (nth_error [occurs t g 1; occurs t g 2; 0; occurs t g 4; occurs t g 5] k <> None) as X by congruence; apply nth_error_Some in X; exact X).
        assert (O : olt (f k) (f m) = false) by (apply U; right; apply in_seq; lia). unfold f in O. rewrite !count_occurs in O. rewrite Ek, Em in O. cbn [option_map olt] in O.
        apply qltb_ge in O. destruct (Nat.le_gt_cases c cm); [assumption|]. exfalso.
        assert ((qn cm < qn c)%num) by (unfold qn; apply qz_lt; lia). qlra. }
      destruct (index_one_member t g) as (i & Ii & Ei); [rewrite E; reflexivity|]. pose proof (occurs_pos t g i Ii) as Op.
      assert (NS : m <> 2).
      { intros ->. destruct (index_cases _ Ei) as [T|[T|[T|T]]]; rewrite T in Op;
          [pose proof (CO 0 _ eq_refl _ eq_refl)|pose proof (CO 1 _ eq_refl _ eq_refl)|pose proof (CO 3 _ eq_refl _ eq_refl)|pose proof (CO 4 _ eq_refl _ eq_refl)]; lia. }
      assert (MC : m = 0 \/ m = 1 \/ m = 3 \/ m = 4) by lia.
      destruct MC as [-> | [-> | [-> | ->]]]; cbn in Er; subst r;
          (split; [reflexivity|]; intros ty' Ht; destruct (index_cases _ Ht) as [-> | [-> | [-> | ->]]];
          [apply (CO 0 _ eq_refl _ eq_refl)|apply (CO 1 _ eq_refl _ eq_refl)|apply (CO 3 _ eq_refl _ eq_refl)|apply (CO 4 _ eq_refl _ eq_refl)]).
    - intros N1 N2. unfold r. rewrite (proj2 (Z.eqb_neq _ _) N1), (proj2 (Z.eqb_neq _ _) N2). reflexivity. }
  unfold summary_type. destruct g as [|i [|j g]].
  - exact (G _ eq_refl).
  - reflexivity.
  - exact (G _ eq_refl).
Qed.
Lemma filter_map_comm {A B} (f : B -> bool) (g : A -> B) l : filter f (map g l) = map g (filter (fun x => f (g x)) l).
Proof. induction l as [|a l IH]; cbn; [reflexivity|]. destruct (f (g a)); cbn; rewrite IH; reflexivity. Qed.
Lemma filter_le {A} (f : A -> bool) l : length (filter f l) <= length l.
Proof. induction l as [|a l IH]; cbn; [lia|]. destruct (f a); cbn; lia. Qed.
Lemma filter_and {A} (f g : A -> bool) l : filter (fun x => f x && g x)%bool l = filter g (filter f l).
Proof. induction l as [|a l IH]; cbn; [reflexivity|]. destruct (f a); cbn; [destruct (g a)|]; rewrite IH; reflexivity. Qed.

(** ** replacement *)
Lemma simplify_merge_lemma t dmin : topo_ok t ->
  exists gs t', topo_simplify t dmin true = Ok t' /\ merged t (dmin * dmin)%num gs /\
    (forall a b, distinct_in gs a b -> (dmin * dmin < sqdist (centre t a) (centre t b))%num) /\
    txy t' = map (centre t) (filter (fun g => negb (group_index t g =? 0)%Z) gs) /\
    Forall2 (summary_type t) (filter (fun g => negb (group_index t g =? 0)%Z) gs) (ttys t').
Proof.
  intros [NE L]. unfold topo_simplify. set (n := length (txy t)).
  assert (Pn : 0 < n) by (unfold n; destruct (txy t); [congruence|cbn; lia]).
  destruct (Nat.eqb_spec n 0); [lia|]. cbn [guard].
  destruct (merge_loop t n (dmin * dmin)%num (S (n * n)) (ss_init t) (fun i => [i]) (minv_init t _) Pn) as (s & G & E & M & F).
  { assert (LA : length (actives n (ss_init t)) <= n) by (unfold actives; etransitivity; [apply filter_le|rewrite seq_length; reflexivity]). nia. }
  rewrite E. cbn [bind]. exists (map G (actives n s)). eexists. split; [reflexivity|]. split; [apply M|]. split; [|cbn [txy ttys]; split].
  - intros a b D. destruct (distinct_map G _ a b (actives_nodup n s) D) as (i & j & Ii & Ij & N & -> & ->).
    apply actives_in in Ii. apply actives_in in Ij. destruct Ii as [Hi Ai], Ij as [Hj Aj].
    rewrite <- (m_xy _ _ _ _ _ M i Hi Ai), <- (m_xy _ _ _ _ _ M j Hj Aj). apply F; assumption.
  - rewrite filter_map_comm, map_map, filter_and. fold (actives n s).
    assert (EF : filter (fun i => negb (spb s i =? 0)%Z) (actives n s) = filter (fun i => negb (group_index t (G i) =? 0)%Z) (actives n s)).
    { apply filter_ext_in. intros i I. apply actives_in in I. destruct I as [Hi Ai]. rewrite (m_pb _ _ _ _ _ M i Hi Ai). reflexivity. }
    rewrite EF. apply map_ext_in. intros i I. apply filter_In in I. destruct I as [I _]. apply actives_in in I. destruct I as [Hi Ai]. apply (m_xy _ _ _ _ _ M i Hi Ai).
  - rewrite filter_map_comm, filter_and. fold (actives n s).
    assert (EF : filter (fun i => negb (spb s i =? 0)%Z) (actives n s) = filter (fun i => negb (group_index t (G i) =? 0)%Z) (actives n s)).
    { apply filter_ext_in. intros i I. apply actives_in in I. destruct I as [Hi Ai]. rewrite (m_pb _ _ _ _ _ M i Hi Ai). reflexivity. }
    rewrite EF.
    assert (IN : forall i, In i (filter (fun i => negb (group_index t (G i) =? 0)%Z) (actives n s)) -> i < n /\ sact s i = true).
    { intros i I. apply filter_In in I. destruct I as [I _]. apply actives_in in I. exact I. }
    revert IN. generalize (filter (fun i => negb (group_index t (G i) =? 0)%Z) (actives n s)) as l. induction l as [|i l IH]; intro IN; cbn [map]; constructor.
    + destruct (IN i (or_introl eq_refl)) as [Hi Ai]. rewrite (m_ty _ _ _ _ _ M i Hi Ai), (m_pb _ _ _ _ _ M i Hi Ai). apply equiv_type_ok.
    + apply IH. intros k I. apply IN. right; exact I.
Qed.
(** the total index *)
Lemma total_seq t : length (ttys t) = length (txy t) -> total_index t = group_index t (seq 0 (length (txy t))).
Proof.
  intro L. unfold total_index, group_index. rewrite <- L. unfold type_of.
  assert (E : ttys t = map (fun i => nth i (ttys t) 0%Z) (seq 0 (length (ttys t)))).
  { clear. induction (ttys t) as [|a l IH]; cbn; [reflexivity|]. rewrite <- seq_shift, map_map. f_equal. exact IH. }
  rewrite E at 1. unfold zsumf. generalize (seq 0 (length (ttys t))) as l. induction l as [|i l IH]; cbn; [reflexivity|]. rewrite IH. reflexivity.
Qed.
Lemma groups_index t lim gs : topo_ok t -> merged t lim gs -> zsumf (group_index t) gs = total_index t.
Proof.
  intros [_ L] M. destruct (merged_partition t lim gs M) as [P _]. rewrite total_seq by exact L. unfold group_index at 2. rewrite <- (zsumf_perm _ _ _ P), zsumf_concat. reflexivity.
Qed.
Lemma zsumf_filter_nz {A} (f : A -> Z) l : zsumf f (filter (fun x => negb (f x =? 0)%Z) l) = zsumf f l.
Proof. unfold zsumf. induction l as [|a l IH]; cbn; [reflexivity|]. destruct (Z.eqb_spec (f a) 0) as [H|H]; cbn; rewrite IH; lia. Qed.
Lemma summary_index t g ty : g <> [] -> summary_type t g ty -> (Z.abs (group_index t g) <= 1)%Z -> group_index t g <> 0%Z -> index_of ty = group_index t g.
Proof.
  intros N S A Z. unfold summary_type in S. destruct g as [|i [|j g]]; [congruence| |].
  - subst ty. unfold group_index. cbn. lia.
  - destruct S as (S1 & S2 & _). assert (C : (group_index t (i :: j :: g) = 1 \/ group_index t (i :: j :: g) = -1)%Z) by lia.
    destruct C as [C|C]; rewrite C in *; [apply S2; reflexivity|]. rewrite (S1 eq_refl). reflexivity.
Qed.
Lemma forall2_index t gs tys : Forall2 (summary_type t) gs tys -> (forall g, In g gs -> g <> [] /\ (Z.abs (group_index t g) <= 1)%Z /\ group_index t g <> 0%Z) ->
  zsumf index_of tys = zsumf (group_index t) gs.
Proof.
  induction 1 as [|g ty gs tys S F IH]; intro H; [reflexivity|]. unfold zsumf in *. cbn. rewrite IH by (intros x I; apply H; right; exact I).
  f_equal. destruct (H g (or_introl eq_refl)) as (H1 & H2 & H3). apply (summary_index t g ty H1 S H2 H3).
Qed.
Lemma simplify_index t dmin t' : topo_ok t -> topo_simplify t dmin true = Ok t' ->
  exists gs, merged t (dmin * dmin)%num gs /\ (forall a b, distinct_in gs a b -> (dmin * dmin < sqdist (centre t a) (centre t b))%num) /\
    ((forall g, In g gs -> (Z.abs (group_index t g) <= 1)%Z) -> total_index t' = total_index t).
Proof.
  intros OK E. destruct (simplify_merge_lemma t dmin OK) as (gs & t1 & E1 & M & F & X & T). rewrite E in E1. injection E1 as <-.
  exists gs. split; [exact M|]. split; [exact F|]. intro H. unfold total_index. rewrite (forall2_index t _ _ T).
  - rewrite zsumf_filter_nz. apply (groups_index t (dmin * dmin)%num gs OK M).
  - intros g I. apply filter_In in I. destruct I as [I Z]. apply negb_true_iff, Z.eqb_neq in Z.
    destruct (merged_partition t _ gs M) as [_ N]. auto.
Qed.
Lemma simplify_apart t dmin t' : topo_ok t -> topo_simplify t dmin true = Ok t' -> forall p q, distinct_in (txy t') p q -> (dmin * dmin < sqdist p q)%num.
Proof.
  intros OK E p q D. destruct (simplify_merge_lemma t dmin OK) as (gs & t1 & E1 & M & F & X & T). rewrite E in E1. injection E1 as <-.
  rewrite X in D. destruct D as (i & j & N & Ei & Ej). apply nth_error_map_inv' in Ei. apply nth_error_map_inv' in Ej.
  destruct Ei as (a & Ea & <-). destruct Ej as (b & Eb & <-). apply F. clear -N Ea Eb.
  revert i j N Ea Eb. induction gs as [|g gs IH]; intros i j N Ea Eb; [destruct i; discriminate|]. cbn [filter] in *. destruct (negb (group_index t g =? 0)%Z) eqn:Z.
  - destruct i as [|i], j as [|j]; [congruence| | |].
    + cbn in Ea, Eb. injection Ea as <-. apply nth_error_In in Eb. apply filter_In in Eb. destruct Eb as [Eb _]. apply In_nth_error in Eb. destruct Eb as [k Ek].
      exists 0, (S k). auto.
    + cbn in Ea, Eb. injection Eb as <-. apply nth_error_In in Ea. apply filter_In in Ea. destruct Ea as [Ea _]. apply In_nth_error in Ea. destruct Ea as [k Ek].
      exists (S k), 0. auto.
    + cbn in Ea, Eb. destruct (IH i j) as (a' & b' & N' & X & Y); [congruence|exact Ea|exact Eb|]. exists (S a'), (S b'). auto.
  - destruct (IH i j N Ea Eb) as (a' & b' & N' & X & Y). exists (S a'), (S b'). auto.
Qed.
