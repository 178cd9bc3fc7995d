(** * Pts3Proofs2: the sets of points on which the claims fail, and concrete cases. *)
From Coq Require Import Relations.
From Verif Require Import Num Res ListLib SortLib Arr FieldModel ScalarFieldModel FieldSpec FieldProofs ProfileModel ProfileSpec ProfileProofs PointsModel PointsSpec PointsProofs TemporalModel Concrete Pts3Model Pts3Spec Pts3Proofs.
#[local] Ltac vmr := vm_compute; reflexivity.

(** three points of a line, the middle one first *)
Definition three : points := mkpts [(qz 1, qz 0); (qz 0, qz 0); (qz 2, qz 0)] [qz 10; qz 20; qz 30] metre metre second.
Definition three_nb (i : nat) : list nat := match i with 0 => [1; 2] | 1 => [0; 2] | _ => [0; 1] end.
Definition three_paths : list (list nat) := [[0; 1; 2]; [1; 0; 2]; [2; 0; 1]].
Lemma lt3 i : lt i 3 -> i = 0 \/ i = 1 \/ i = 2. Proof. lia. Qed.
Lemma three_near : two_nearest three three_nb.
Proof.
  intros i Hi. apply lt3 in Hi. destruct Hi as [->|[->| ->]]; cbn [three_nb];
    (split; [reflexivity|]; split; [repeat constructor; cbn; intuition lia|]; split; [cbn; intuition lia|];
     split; [cbn; intuition lia|]; intros j k _ Hk Hn Ho; exfalso; change (lt k 3) in Hk; cbn in Ho; intuition lia).
Qed.
Lemma three_joined i j : lt i 3 -> lt j 3 -> joined 3 three_nb i j.
Proof.
  intros Hi Hj. destruct (Nat.eq_dec i j) as [->|N]; [apply rt_refl|]. apply rt_step. split; [exact Hi|]. split; [exact Hj|]. left.
  apply lt3 in Hi. apply lt3 in Hj. destruct Hi as [->|[->| ->]], Hj as [->|[->| ->]]; cbn; try (exfalso; apply N; reflexivity); intuition.
Qed.
Lemma three_trav : traversals three three_nb three_paths.
Proof.
  split; [reflexivity|]. intros i Hi. change (lt i 3) in Hi. exists (nth i three_paths []).
  split; [apply lt3 in Hi; destruct Hi as [->|[->| ->]]; reflexivity|]. 
  split; [apply lt3 in Hi; destruct Hi as [->|[->| ->]]; reflexivity|]. 
  split; [apply lt3 in Hi; destruct Hi as [->|[->| ->]]; repeat constructor; cbn; intuition lia|].
  intros j. change (length (xy three)) with 3. split.
  - intros H. apply three_joined; [exact Hi|]. apply lt3 in Hi. destruct Hi as [->|[->| ->]]; cbn in H; intuition lia.
  - intros H. apply joined_lt in H; [|exact Hi]. apply lt3 in Hi. apply lt3 in H. destruct Hi as [->|[->| ->]], H as [->|[->| ->]]; cbn; intuition.
Qed.
Lemma three_con : connected three three_nb.
Proof. intros i j. apply three_joined. Qed.
Lemma three_run : exists r, order_on_line three_paths three false = Ok (three, r) /\ map fst (xy r) = [qz 0; qz 1; qz 2] /\ pv r = [qz 10; qz 20; qz 30].
Proof. eexists. split; [reflexivity|]. split; vmr. Qed.
Lemma values_mixed : exists p nb paths r, two_nearest p nb /\ traversals p nb paths /\ connected p nb /\ 3 <= length (xy p) /\
  length (pv p) = length (xy p) /\ order_on_line paths p false = Ok (p, r) /\ ~ Permutation (with_values r) (with_values p).
Proof.
  exists three, three_nb, three_paths. destruct three_run as [r [H1 [H2 H3]]]. exists r.
  split; [exact three_near|]. split; [exact three_trav|]. split; [exact three_con|]. split; [cbn; lia|]. split; [reflexivity|]. split; [exact H1|].
  intros P. assert (I : In ((qz 1, qz 0), qz 10) (with_values r)) by (apply (Permutation_in _ (Permutation_sym P)); left; reflexivity).
  unfold with_values in I. rewrite H3 in I. destruct (xy r) as [|a [|b [|c [|e l]]]]; cbn in H2; try discriminate H2. injection H2 as A B C.
  cbn in I. destruct I as [I|[I|[I|[]]]].
  - assert (a = (qz 1, qz 0)) as -> by congruence. revert A. vm_compute. discriminate.
  - assert (qz 20 = qz 10) by congruence. discriminate.
  - assert (qz 30 = qz 10) by congruence. discriminate.
Qed.

(** two groups of three points, far from each other *)
Definition groups : points :=
  mkpts [(qz 0, qz 0); (qz 1, qz 0); (qz 2, qz 0); (qz 100, qz 0); (qz 101, qz 0); (qz 102, qz 0)]
        [qz 1; qz 2; qz 3; qz 4; qz 5; qz 6] metre metre second.
Definition group (i : nat) : nat := Nat.div i 3.
Lemma lt6 i : lt i 6 -> i = 0 \/ i = 1 \/ i = 2 \/ i = 3 \/ i = 4 \/ i = 5. Proof. lia. Qed.
Definition groups_far_b (i j k : nat) : bool :=
  (Nat.eqb (group i) (group j) || negb (Nat.eqb (group i) (group k)) || negb (qleb (sqd (pt_of groups i) (pt_of groups j)) (sqd (pt_of groups i) (pt_of groups k))))%bool.
Lemma groups_far i j k : lt i 6 -> lt j 6 -> lt k 6 -> group i <> group j -> group i = group k ->
  (sqd (pt_of groups i) (pt_of groups j) <= sqd (pt_of groups i) (pt_of groups k))%num -> False.
Proof.
  intros Hi Hj Hk N E L. apply qleb_le in L.
  assert (B : forallb (fun i => forallb (fun j => forallb (groups_far_b i j) (seq 0 6)) (seq 0 6)) (seq 0 6) = true) by vmr.
  rewrite forallb_forall in B. specialize (B i ltac:(apply in_seq; lia)). rewrite forallb_forall in B. specialize (B j ltac:(apply in_seq; lia)).
  rewrite forallb_forall in B. specialize (B k ltac:(apply in_seq; lia)). unfold groups_far_b in B. rewrite L in B.
  rewrite (proj2 (Nat.eqb_eq _ _) E), (proj2 (Nat.eqb_neq _ _) N) in B. discriminate B.
Qed.
Lemma third i j : lt i 6 -> i <> j -> group i = group j -> exists k, lt k 6 /\ k <> i /\ k <> j /\ group k = group i.
Proof.
  intros Hi N E. exists (3 * group i + (3 - i mod 3 - j mod 3)).
  pose proof (Nat.div_mod i 3 ltac:(lia)). pose proof (Nat.div_mod j 3 ltac:(lia)). unfold group in *.
  pose proof (Nat.mod_upper_bound i 3 ltac:(lia)). pose proof (Nat.mod_upper_bound j 3 ltac:(lia)).
  set (a := i mod 3) in *. set (b := j mod 3) in *. assert (a <> b) by lia.
  assert (i / 3 < 2) by (apply Nat.div_lt_upper_bound; lia).
  split; [lia|]. split; [lia|]. split; [lia|]. symmetry. apply (Nat.div_unique _ 3 _ (3 - a - b)); lia.
Qed.
(** in the groups, the neighbours are in the same group *)
Lemma same_group nb i j : two_nearest groups nb -> lt i 6 -> In j (nb i) -> group i = group j.
Proof.
  intros T Hi Hj. destruct (T i Hi) as [L [N [S_ [B M]]]]. change (length (xy groups)) with 6 in *.
  destruct (Nat.eq_dec (group i) (group j)) as [E|E]; [exact E|exfalso].
  pose proof (B j Hj) as Hj6.
  (* one of the two other points of the group of i is not a neighbour *)
  destruct (nb i) as [|a [|b [|]]] eqn:Q; try discriminate L.
  assert (exists k, lt k 6 /\ k <> i /\ group k = group i /\ ~ In k [a; b]) as [k [K1 [K2 [K3 K4]]]].
  { destruct (third i (if Nat.eq_dec (group a) (group i) then a else if Nat.eq_dec (group b) (group i) then b else 3 * group i + (if Nat.eq_dec (i mod 3) 0 then 1 else 0)) Hi) as [k [K1 [K2 [K3 K4]]]].
    - destruct (Nat.eq_dec (group a) (group i)); [intros ->; apply S_; left; reflexivity|].
      destruct (Nat.eq_dec (group b) (group i)); [intros ->; apply S_; right; left; reflexivity|].
      pose proof (Nat.div_mod i 3 ltac:(lia)). unfold group. destruct (Nat.eq_dec (i mod 3) 0); lia.
    - destruct (Nat.eq_dec (group a) (group i)); [congruence|]. destruct (Nat.eq_dec (group b) (group i)); [congruence|].
      unfold group. apply (Nat.div_unique _ 3 _ (if Nat.eq_dec (i mod 3) 0 then 1 else 0)); destruct (Nat.eq_dec (i mod 3) 0); lia.
    - exists k. split; [exact K1|]. split; [exact K2|]. split; [exact K4|].
      destruct (Nat.eq_dec (group a) (group i)) as [Ea|Ea].
      + intros [<-|[<-|[]]]; [apply K3; reflexivity|]. destruct Hj as [<-|[<-|[]]]; congruence.
      + destruct (Nat.eq_dec (group b) (group i)) as [Eb|Eb]; intros [<-|[<-|[]]]; congruence. }
  exact (groups_far i j k Hi Hj6 K1 E (eq_sym K3) (M j k Hj K1 K2 K4)).
Qed.
Lemma joined_group nb i j : two_nearest groups nb -> joined 6 nb i j -> group i = group j.
Proof.
  intros T H. induction H as [a b [Ha [Hb [H|H]]]|a|a b c _ IH1 _ IH2]; [|symmetry|reflexivity|congruence].
  - exact (same_group nb a b T Ha H).
  - exact (same_group nb b a T Hb H).
Qed.
Lemma groups_lose nb paths : two_nearest groups nb -> traversals groups nb paths ->
  exists r, order_on_line paths groups false = Ok (groups, r) /\ length (xy r) <= 3 /\ pv r = [].
Proof.
  intros T V. destruct (order_ok groups nb paths false ltac:(cbn; lia) V) as [q [I [_ E]]]. eexists. split; [exact E|].
  assert (Lq : length q <= 3).
  { apply In_nth_error in I. destruct I as [i Hi]. destruct V as [L V].
    assert (Li : lt i (length (xy groups))) by (rewrite <- L; apply nth_error_Some; congruence).
    destruct (V i Li) as [q' [E' [_ [N J]]]]. assert (q' = q) as -> by congruence.
    change (length (xy groups)) with 6 in *.
    assert (incl q (map (fun k => 3 * group i + k) (seq 0 3))).
    { intros j Hj. apply J in Hj. apply (joined_group nb i j T) in Hj. apply in_map_iff. exists (j mod 3). 
      unfold group in *. rewrite Hj. split; [symmetry; apply Nat.div_mod; lia|]. apply in_seq. pose proof (Nat.mod_upper_bound j 3). lia. }
    apply (NoDup_incl_length N) in H. exact H. }
  assert (length (along groups q) <= 3) by (unfold along; rewrite map_length; exact Lq).
  split; [exact H|]. unfold set_xy. cbn [pv]. change (length (pv groups)) with 6.
  replace (Nat.eqb (length (along groups q)) 6) with false; [reflexivity|]. symmetry. apply Nat.eqb_neq. lia.
Qed.
(** neighbours and traversals of the groups *)
Definition groups_nb (i : nat) : list nat :=
  match i with 0 => [1; 2] | 1 => [0; 2] | 2 => [0; 1] | 3 => [4; 5] | 4 => [3; 5] | _ => [3; 4] end.
Definition groups_paths : list (list nat) := [[0; 1; 2]; [1; 0; 2]; [2; 0; 1]; [3; 4; 5]; [4; 3; 5]; [5; 3; 4]].
Lemma groups_near : two_nearest groups groups_nb.
Proof.
  intros i Hi. change (length (xy groups)) with 6 in *.
  split; [apply lt6 in Hi; destruct Hi as [->|[->|[->|[->|[->| ->]]]]]; reflexivity|].
  split; [apply lt6 in Hi; destruct Hi as [->|[->|[->|[->|[->| ->]]]]]; repeat constructor; cbn; intuition lia|].
  split; [apply lt6 in Hi; destruct Hi as [->|[->|[->|[->|[->| ->]]]]]; cbn; intuition lia|].
  split; [apply lt6 in Hi; destruct Hi as [->|[->|[->|[->|[->| ->]]]]]; cbn; intuition lia|].
  intros j k Hj Hk Hn Ho. apply qleb_le.
  assert (B : forallb (fun i => forallb (fun j => forallb (fun k => (Nat.eqb k i || existsb (Nat.eqb k) (groups_nb i) ||
     qleb (sqd (pt_of groups i) (pt_of groups j)) (sqd (pt_of groups i) (pt_of groups k)))%bool) (seq 0 6)) (groups_nb i)) (seq 0 6) = true) by vmr.
  rewrite forallb_forall in B. specialize (B i ltac:(apply in_seq; lia)). rewrite forallb_forall in B. specialize (B j Hj).
  rewrite forallb_forall in B. specialize (B k ltac:(apply in_seq; lia)).
  apply orb_true_iff in B. destruct B as [B|B]; [|exact B]. exfalso. apply orb_true_iff in B. destruct B as [B|B].
  - apply Nat.eqb_eq in B. congruence.
  - apply existsb_exists in B. destruct B as [x [B1 B2]]. apply Nat.eqb_eq in B2. subst x. exact (Ho B1).
Qed.
Lemma groups_trav : traversals groups groups_nb groups_paths.
Proof.
  split; [reflexivity|]. intros i Hi. change (length (xy groups)) with 6 in *. exists (nth i groups_paths []).
  split; [apply lt6 in Hi; destruct Hi as [->|[->|[->|[->|[->| ->]]]]]; reflexivity|].
  split; [apply lt6 in Hi; destruct Hi as [->|[->|[->|[->|[->| ->]]]]]; reflexivity|].
  split; [apply lt6 in Hi; destruct Hi as [->|[->|[->|[->|[->| ->]]]]]; repeat constructor; cbn; intuition lia|].
  intros j. split.
  - intros H. destruct (Nat.eq_dec i j) as [->|N]; [apply rt_refl|]. apply rt_step.
    apply lt6 in Hi. destruct Hi as [->|[->|[->|[->|[->| ->]]]]]; cbn in H; destruct H as [<-|[<-|[<-|[]]]];
      try (exfalso; apply N; reflexivity); (split; [lia|split; [lia|left; cbn; intuition]]).
  - intros H. pose proof (joined_lt _ _ _ _ Hi H) as Hj. apply (joined_group _ _ _ groups_near) in H.
    apply lt6 in Hi. apply lt6 in Hj. destruct Hi as [->|[->|[->|[->|[->| ->]]]]], Hj as [->|[->|[->|[->|[->| ->]]]]]; cbn in H; try discriminate H; cbn; intuition.
Qed.

(** ** an oriented point in a field whose cells are twice as high as wide *)
Definition ex_op : opoints := mkop (mkpts [(qz 5, qz 5)] [] metre metre second) [[(qz 0, qz 1); (qz 0, qz 0)]].
(** the lines made of their first point only *)
Definition echo (a b : num * num) (rev : bool) : found :=
  Many [mkpts [a] [qz 0] metre metre second; mkpts [b] [qz 0] metre metre second].
Definition ax1 : list num := [qz 0; qz 4; qz 8].
Definition ay2 : list num := [qz 0; qz 8; qz 16].
Lemma not_quarter : exists lines ax ay sx sy o r n ls,
  cell_sizes ax ay sx sy /\ rect_ori o n /\ xy (opt o) <> [] /\
  (forall p q b s, In s (lines_of (lines p q b)) -> length (pv s) = length (xy s)) /\
  from_orientations lines ax ay o r = Ok ls /\ exists L, In L ls /\ ~ issued lines sx sy o r L.
Proof.
  exists echo, ax1, ay2, (qz 4), (qz 8), ex_op, (RBool false), 2. eexists.
  split; [exists (qz 0), (qz 4), (qz 0), (qz 8); repeat split; vmr|]. split; [split; [reflexivity|repeat constructor]|]. split; [discriminate|].
  split; [intros p q b s H; cbn in H; destruct H as [<-|[<-|[]]]; reflexivity|]. split; [reflexivity|].
  eexists. split; [left; reflexivity|]. intros [i [k [p [d [b [s [[H1 [dl [H2 H3]]] [H4 [_ [H5 [H6 _]]]]]]]]]]].
  destruct i as [|i]; [|destruct i; discriminate H1]. cbn in H1, H2. injection H1 as <-. injection H2 as <-.
  destruct k as [|[|k]]; [|cbn in H3; injection H3 as <-; apply H4; reflexivity|destruct k; discriminate H3]. cbn in H3. injection H3 as <-.
  cbn [lines_of echo In] in H5. assert (Y : map snd (xy s) = [qz 4]) by (apply (f_equal (@tl _)) in H6; cbn [tl xy set_xy] in H6; rewrite <- H6; vmr).
  destruct H5 as [<-|[<-|[]]]; revert Y; vm_compute; discriminate.
Qed.
