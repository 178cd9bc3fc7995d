(** * CritProofs12: statements derived for the properties, and concrete objects. *)
From Verif Require Import Num Res ListLib SortLib SeqSpec Arr FieldModel ScalarFieldModel Concrete ProfileModel ProfileSpec PointsModel PointsSpec
  CritModel CritSpec CritProofs CritProofs2 CritProofs3 CritProofs4 CritProofs5 CritProofs6 CritProofs7 CritProofs8 CritProofs9 CritProofs10 CritProofs11.
From Coq Require Import Permutation Lia.

Lemma traj_partition asort c eps : is_argsort asort -> crit_ok c ->
  exists c', crit_traj asort c eps = (c', None) /\ ctimes c' = ctimes c /\ (forall k, map xy (cpts c' k) = map xy (cpts c k)) /\
    forall k, exists l, trajectories c' k = Some l /\ Permutation (on_trajs l) (located c k) /\
      (forall p, In p l -> contiguous (ctimes c) p) /\ longest_first l.
Proof.
  intros A OK. destruct (crit_traj_lemma asort c eps A OK) as (c' & E & T & _ & X & _ & _ & _ & _ & H). exists c'.
  split; [exact E|]. split; [exact T|]. split; [exact X|]. intro k. destruct (H k) as (l & El & P & C & _ & L & _). exists l.
  split; [exact El|]. split; [exact P|]. split; [|exact L]. intros p I. apply (C p I).
Qed.
Lemma traj_partitions asort c eps : is_argsort asort -> crit_ok c -> computed (fst (crit_traj asort c eps)) /\ partitions (fst (crit_traj asort c eps)).
Proof.
  intros A OK. destruct (crit_traj_lemma asort c eps A OK) as (c' & E & T & _ & X & _ & _ & _ & _ & H). rewrite E. cbn [fst]. split.
  - intro k. destruct (H k) as (l & -> & _). discriminate.
  - intros k l El. destruct (H k) as (l' & El' & P & _). rewrite El in El'. injection El' as <-.
    replace (located c' k) with (located c k); [exact P|].
    assert (forall c, located c k = flat_map (fun f => map (fun q => (q, fst f)) (snd f)) (combine (ctimes c) (map xy (cpts c k)))) as Q.
    { intro cc. unfold located, frames. generalize (cpts cc k) as m, (ctimes cc) as ts. induction m as [|p m IH]; intros [|t ts]; cbn; auto. rewrite IH; reflexivity. }
    rewrite !Q, T, X. reflexivity.
Qed.
Lemma traj_steps asort c eps c' k l : is_argsort asort -> crit_ok c -> crit_traj asort c eps = (c', None) -> trajectories c' k = Some l ->
  (forall p, In p l -> steps_within eps (line_of p)) /\ stable eps (ctimes c) (map line_of l).
Proof.
  intros A OK E El. destruct (crit_traj_lemma asort c eps A OK) as (c1 & E1 & _ & _ & _ & _ & _ & _ & _ & H). rewrite E in E1. injection E1 as <-.
  destruct (H k) as (l' & El' & _ & C & S & _). rewrite El in El'. injection El' as <-. split; [|exact S]. intros p I. apply (C p I).
Qed.
Lemma traj_steps_large asort c e c' k l p : is_argsort asort -> crit_ok c -> (1 <= e)%num -> crit_traj asort c (Some e) = (c', None) ->
  trajectories c' k = Some l -> In p l -> steps_within (Some (e * e)%num) (line_of p).
Proof.
  intros A OK He E El I. destruct (traj_steps asort c (Some e) c' k l A OK E El) as [S _]. intros l1 a b l2 El2. specialize (S p I l1 a b l2 El2).
  cbn [within] in *. assert (e <= e * e)%num by qnra. qlra.
Qed.
Lemma clean_after_change c c' n : (exists asort new t, crit_add asort c new t = (c', None)) \/ (exists t i, crit_remove c t i = (c', None)) ->
  crit_clean c' n = (c', Some GenericErr).
Proof.
  intros [(asort & new & t & E)|(t & i & E)]; apply clean_needs_traj; [apply (add_forgets_eps _ _ _ _ _ E)|apply (remove_forgets_eps _ _ _ _ E)].
Qed.
(** points that are far from each other are kept as they are *)
Lemma merged_far t lim gs : (forall i j, i < length (txy t) -> j < length (txy t) -> i <> j -> (lim < sqdist (position t i) (position t j))%num) ->
  merged t lim gs -> gs = map (fun i => [i]) (seq 0 (length (txy t))).
Proof.
  intro F. induction 1 as [|gs a b rest gs' M IH P Hd _ P']; [reflexivity|]. exfalso. subst gs.
  assert (ND : NoDup (map (fun i : nat => [i]) (seq 0 (length (txy t))))).
  { apply FinFun.Injective_map_NoDup; [intros x y E; congruence|apply seq_NoDup]. }
  assert (Ia : In a (map (fun i : nat => [i]) (seq 0 (length (txy t))))) by (apply (Permutation_in _ (Permutation_sym P)); left; reflexivity).
  assert (Ib : In b (map (fun i : nat => [i]) (seq 0 (length (txy t))))) by (apply (Permutation_in _ (Permutation_sym P)); right; left; reflexivity).
  apply (Permutation_NoDup P) in ND. apply in_map_iff in Ia. apply in_map_iff in Ib. destruct Ia as (i & <- & Ii). destruct Ib as (j & <- & Ij).
  apply in_seq in Ii. apply in_seq in Ij. inversion ND as [|? ? N1 _]; subst. rewrite !centre_one in Hd.
  assert (Nij : i <> j) by (intro; subst; apply N1; left; reflexivity).
  assert (L1 : i < length (txy t)) by lia. assert (L2 : j < length (txy t)) by lia. pose proof (F i j L1 L2 Nij). qlra.
Qed.
Lemma map_pairs {A} (d : A) l : map (fun i => nth i l d) (seq 0 (length l)) = l.
Proof. induction l as [|a l IH]; cbn; [reflexivity|]. rewrite <- seq_shift, map_map. f_equal. exact IH. Qed.
Lemma simplify_far t dmin : topo_ok t -> (forall i, i < length (txy t) -> index_of (type_of t i) <> 0%Z) ->
  (forall i j, i < length (txy t) -> j < length (txy t) -> i <> j -> (dmin * dmin < sqdist (position t i) (position t j))%num) ->
  topo_simplify t dmin true = Ok t.
Proof.
  intros OK NZ F. destruct (simplify_merge_lemma t dmin OK) as (gs & t' & E & M & _ & X & T). rewrite E. f_equal.
  apply (merged_far t _ gs F) in M. subst gs.
  assert (EF : filter (fun g => negb (group_index t g =? 0)%Z) (map (fun i => [i]) (seq 0 (length (txy t)))) = map (fun i => [i]) (seq 0 (length (txy t)))).
  { assert (G : forall l, (forall i, In i l -> i < length (txy t)) -> filter (fun g => negb (group_index t g =? 0)%Z) (map (fun i => [i]) l) = map (fun i => [i]) l).
    { induction l as [|i l IH]; intro H; cbn [map filter]; [reflexivity|]. rewrite IH by (intros k I; apply H; right; exact I).
      assert (group_index t [i] = index_of (type_of t i)) as -> by (unfold group_index; cbn; lia).
      specialize (NZ i (H i (or_introl eq_refl))). destruct (Z.eqb_spec (index_of (type_of t i)) 0); [congruence|reflexivity]. }
    apply G. intros i I. apply in_seq in I. lia. }
  rewrite EF in X, T. rewrite map_map in X.
  assert (X' : txy t' = txy t).
  { rewrite X. transitivity (map (fun i => nth i (txy t) (qz 0, qz 0)) (seq 0 (length (txy t)))); [|apply map_pairs]. apply map_ext. intro i. apply centre_one. }
  assert (T' : ttys t' = ttys t).
  { rewrite <- (map_pairs 0%Z (ttys t)), (proj2 OK). revert T. generalize (seq 0 (length (txy t))) as l, (ttys t') as m.
    induction l as [|i l IH]; intros m Q; inversion Q; subst; cbn [map]; [reflexivity|]. f_equal; [assumption|]. apply IH. assumption. }
  destruct t, t'. cbn in *. congruence.
Qed.

(** ** concrete objects *)
Definition foci (l : list (num * num)) : kind -> option points :=
  fun k => match k with Foc => Some (mkpts l [] metre metre second) | _ => None end.
Definition adds (l : list (num * (kind -> option points))) : crit :=
  fold_left (fun c f => fst (crit_add argsort c (snd f) (fst f))) l (crit_new second).
Lemma adds_built l : built argsort (adds l).
Proof.
  unfold adds. assert (G : forall l c, built argsort c -> built argsort (fold_left (fun c f => fst (crit_add argsort c (snd f) (fst f))) l c)).
  { induction l0 as [|f l0 IH]; intros c B; cbn; [exact B|]. apply IH. constructor. exact B. }
  apply G. constructor.
Qed.
Definition at2 (a b : Z) : num * num := (qz a, qz b).
(** two foci that move, given in a wrong order of times *)
Definition ex_crit : crit :=
  adds [(qz 2, foci [at2 1 1; at2 9 9]); (qz 0, foci [at2 0 0; at2 9 8]); (qz 1, foci [at2 9 9; at2 1 0])].
(** two times: the foci are at distance 1/2 (at 3 for the second object) *)
Definition ex_half : crit := adds [(qz 0, foci [at2 0 0]); (qz 1, foci [(qq 1 2, qz 0)])].
Definition ex_three : crit := adds [(qz 0, foci [at2 0 0]); (qz 1, foci [at2 3 0])].
(** two points of each kind *)
Definition ex_kinds : crit :=
  adds [(qz 0, fun k => Some (mkpts [at2 0 0; at2 50 50] [] metre metre second)); (qz 1, fun k => Some (mkpts [at2 1 0; at2 51 50] [] metre metre second))].
Lemma ex_ok l : crit_ok (adds l).
Proof. apply (built_ok argsort _ argsort_is). apply adds_built. Qed.


Lemma out_ex (o : cout) (P : crit -> bool) : match o with (c, None) => P c | _ => false end = true -> exists c, o = (c, None) /\ P c = true.
Proof. destruct o as [c [e|]]; [discriminate|]. intro H. exists c. auto. Qed.
Definition points_on (c : crit) (k : kind) : option nat := option_map (fun l => length (on_trajs l)) (traj_list (ctraj c k)).
Lemma not_partitions c k n : points_on c k = Some n -> n <> length (located c k) -> ~ partitions c.
Proof.
  unfold points_on. intros E N P. specialize (P k). rewrite trajectories_list in P. destruct (traj_list (ctraj c k)) as [l|]; [|discriminate].
  specialize (P l eq_refl). apply Permutation_length in P. cbn [option_map] in E. injection E as E. congruence.
Qed.
Definition broken (c : crit) (k : kind) : bool := match points_on c k with Some n => negb (Nat.eqb n (length (located c k))) | None => false end.
Lemma broken_spec c k : broken c k = true -> trajectories c k <> None /\ ~ partitions c.
Proof.
  unfold broken. destruct (points_on c k) as [n|] eqn:E; [|discriminate]. intro H. apply negb_true_iff, Nat.eqb_neq in H.
  split; [|apply (not_partitions c k n E H)]. unfold points_on in E. rewrite trajectories_list. destruct (traj_list (ctraj c k)); discriminate.
Qed.


Definition long_step (eps : num) (c : crit) : bool :=
  match traj_list (ctraj c Foc) with
  | Some [p] => match line_of p with [a; b] => qltb (eps * eps)%num (sqdist (fst a) (fst b)) | _ => false end | _ => false end.
Lemma long_step_spec eps c : long_step eps c = true -> exists l p a b, trajectories c Foc = Some l /\ In p l /\ line_of p = [a; b] /\ (eps * eps < sqdist (fst a) (fst b))%num.
Proof.
  unfold long_step. rewrite trajectories_list. destruct (traj_list (ctraj c Foc)) as [[|p [|]]|]; try discriminate. destruct (line_of p) as [|a [|b [|]]] eqn:L; try discriminate.
  intro H. apply qltb_lt in H. exists [p], p, a, b. repeat split; auto. left; reflexivity.
Qed.
Lemma threshold_lemma : exists c eps c' l p a b, crit_ok c /\ (0 < eps)%num /\ crit_traj argsort c (Some eps) = (c', None) /\
  trajectories c' Foc = Some l /\ In p l /\ line_of p = [a; b] /\ (eps * eps < sqdist (fst a) (fst b))%num.
Proof.
  destruct (out_ex (crit_traj argsort ex_half (Some (qq 1 4))) (long_step (qq 1 4))) as (c1 & E & H); [vm_compute; reflexivity|].
  destruct (long_step_spec _ _ H) as (l & p & a & b & Q). exists ex_half, (qq 1 4), c1, l, p, a, b. split; [apply ex_ok|]. split; [reflexivity|]. split; [exact E|exact Q].
Qed.
Lemma unlinked_lemma : exists c eps c' p q t t', crit_ok c /\ (0 < eps)%num /\ crit_traj argsort c (Some eps) = (c', None) /\
  located c Foc = [(p, t); (q, t')] /\ (sqdist p q < eps * eps)%num /\ option_map (@length points) (trajectories c' Foc) = Some 2.
Proof.
  destruct (out_ex (crit_traj argsort ex_three (Some (qz 4))) (fun c => match traj_list (ctraj c Foc) with Some l => Nat.eqb (length l) 2 | _ => false end)) as (c1 & E & H).
  { vm_compute. reflexivity. }
  exists ex_three, (qz 4), c1, (at2 0 0), (at2 3 0), (qz 0), (qz 1). split; [apply ex_ok|]. split; [reflexivity|]. split; [exact E|].
  split; [vm_compute; reflexivity|]. split; [reflexivity|]. rewrite trajectories_list. destruct (traj_list (ctraj c1 Foc)); [|discriminate].
  apply Nat.eqb_eq in H. cbn. congruence.
Qed.
(** compute_traj then add_point *)
Lemma stale_lemma : exists c c1 c2 new t, crit_ok c /\ crit_traj argsort c None = (c1, None) /\ crit_add argsort c1 new t = (c2, None) /\
  trajectories c2 Foc <> None /\ ~ partitions c2.
Proof.
  destruct (out_ex (crit_traj argsort ex_half None) (fun c => match crit_add argsort c (foci [at2 5 5]) (qz 2) with (c2, None) => broken c2 Foc | _ => false end)) as (c1 & E & H).
  { vm_compute. reflexivity. }
  destruct (out_ex _ _ H) as (c2 & E2 & H2). exists ex_half, c1, c2, (foci [at2 5 5]), (qz 2). split; [apply ex_ok|]. split; [exact E|]. split; [exact E2|].
  apply broken_spec. exact H2.
Qed.
(** set_origin before compute_traj *)
Lemma origin_refuted_lemma : exists c c', crit_ok c /\ crit_origin c (Some (qz 1)) None = (c', Some TypeErr) /\ located c' Foc <> located c Foc.
Proof.
  destruct (origin_uncomputed ex_half (Some (qz 1)) None) as (c' & E & H); [left; discriminate|vm_compute; reflexivity|].
  exists ex_half, c'. split; [apply ex_ok|]. split; [exact E|]. rewrite H.
  assert (L : located ex_half Foc = [(at2 0 0, qz 0); ((qq 1 2, qz 0), qz 1)]) by (vm_compute; reflexivity). rewrite L. cbn [map moved shifted at2 fst snd].
  intro X. apply (f_equal (fun l : list tpoint => match l with [] => false | x :: _ => qeqb (fst (fst x)) (qz 0) end)) in X. vm_compute in X. discriminate.
Qed.
(** cropping a copy in time changes the trajectories of the original *)
Lemma crop_original_lemma : exists c c1 s r, crit_ok c /\ crit_traj argsort c None = (c1, None) /\
  crit_crop c1 None None (Some (qz 0, qz 0)) false = (s, Ok r) /\ partitions c1 /\ ~ partitions s /\ ~ partitions r.
Proof.
  assert (OK : crit_ok ex_kinds) by apply ex_ok.
  destruct (out_ex (crit_traj argsort ex_kinds None) (fun c => match crit_crop c None None (Some (qz 0, qz 0)) false with (s, Ok r) => (broken s Foc && broken r Foc)%bool | _ => false end)) as (c1 & E & H).
  { vm_compute. reflexivity. }
  destruct (crit_crop c1 None None (Some (qz 0, qz 0)) false) as [s [r|]] eqn:EC; [|discriminate]. apply andb_true_iff in H. destruct H as [H1 H2].
  exists ex_kinds, c1, s, r. split; [exact OK|]. split; [exact E|]. split; [exact EC|]. split.
  - pose proof (traj_partitions argsort ex_kinds None argsort_is OK) as [_ P]. rewrite E in P. exact P.
  - split; [apply (broken_spec s Foc H1)|apply (broken_spec r Foc H2)].
Qed.
(** points cropped in space, and their trajectories *)
Lemma crop_space_stale : exists c c1 r, crit_ok c /\ crit_traj argsort c None = (c1, None) /\
  crit_crop c1 (Some (qz 0, qz 9)) None None true = (r, Ok r) /\ ~ partitions r.
Proof.
  destruct (out_ex (crit_traj argsort ex_kinds None) (fun c => broken (crop_space c (Some (qz 0, qz 9)) None) Foc)) as (c1 & E & H).
  { vm_compute. reflexivity. }
  exists ex_kinds, c1, (crop_space c1 (Some (qz 0, qz 9)) None). split; [apply ex_ok|]. split; [exact E|]. split; [reflexivity|]. apply (broken_spec _ Foc H).
Qed.
(** two close foci become a point of unknown type *)
Definition ex_foci : topo := mktopo [at2 0 0; at2 1 0; at2 9 9] [1; 1; 3]%Z.
Lemma index_lost_lemma : exists t dmin t', topo_ok t /\ topo_simplify t dmin true = Ok t' /\ total_index t = 1%Z /\ total_index t' = (-1)%Z.
Proof.
  destruct (topo_simplify ex_foci (qz 2) true) as [t'|] eqn:E; [|vm_compute in E; discriminate].
  exists ex_foci, (qz 2), t'. split; [split; [discriminate|reflexivity]|]. split; [exact E|]. split; [reflexivity|].
  assert (H : match topo_simplify ex_foci (qz 2) true with Ok t' => total_index t' | Err _ => 0%Z end = (-1)%Z) by (vm_compute; reflexivity).
  rewrite E in H. exact H.
Qed.
