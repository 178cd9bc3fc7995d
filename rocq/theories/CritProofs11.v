(** * CritProofs11: topological simplification by deletion. *)
From Verif Require Import Num Res ListLib SortLib SeqSpec Arr PointsModel PointsSpec CritModel CritSpec CritProofs CritProofs2 CritProofs3 CritProofs9 CritProofs10.
From Coq Require Import Permutation Lia Sorted.

Definition some {A} (o : option A) : bool := match o with Some _ => true | None => false end.
Definition cells (n : nat) (s : sstate) : list (nat * nat) := filter (fun c => some (sD s (fst c) (snd c))) (list_prod (seq 0 n) (seq 0 n)).
Lemma filter_le_imp {A} (f g : A -> bool) l : (forall x, f x = true -> g x = true) -> length (filter f l) <= length (filter g l).
Proof.
  intro H. induction l as [|a l IH]; cbn; [lia|]. destruct (f a) eqn:F; [rewrite (H a F); cbn; lia|]. destruct (g a); cbn; lia.
Qed.
Lemma filter_lt {A} (f g : A -> bool) l x : (forall x, f x = true -> g x = true) -> In x l -> g x = true -> f x = false -> length (filter f l) < length (filter g l).
Proof.
  intros H I G F. induction l as [|a l IH]; [destruct I|]. cbn. destruct I as [->|I].
  - rewrite F, G. cbn. pose proof (filter_le_imp f g l H). lia.
  - specialize (IH I). destruct (f a) eqn:Fa; [rewrite (H a Fa); cbn; lia|]. destruct (g a); cbn; lia.
Qed.
Record dinv (t : topo) (n : nat) (lim : num) (s : sstate) (ps : list (nat * nat)) : Prop := {
  d_perm : Permutation (flat_map ends ps ++ actives n s) (seq 0 n);
  d_ps : forall p, In p ps -> (index_of (type_of t (fst p)) + index_of (type_of t (snd p)) = 0)%Z /\ (sqdist (position t (fst p)) (position t (snd p)) <= lim)%num;
  d_xy : forall i, sxy s i = position t i;
  d_ty : forall i, stys s i = [type_of t i];
  d_pb : forall i, spb s i = index_of (type_of t i);
  d_j1 : forall i j d, i < n -> j < n -> sD s i j = Some d -> i < j /\ sact s i = true /\ sact s j = true /\ d = sqdist (position t i) (position t j);
  d_j2 : forall i j, i < j -> j < n -> sact s i = true -> sact s j = true -> (index_of (type_of t i) + index_of (type_of t j) = 0)%Z -> sD s i j <> None }.
Lemma dinv_init t lim : dinv t (length (txy t)) lim (ss_init t) [].
Proof.
  set (n := length (txy t)). constructor; cbn [ss_init sD sxy swt sact stys spb].
  - assert (E : actives n (ss_init t) = seq 0 n).
    { unfold actives. cbn [ss_init sact]. induction (seq 0 n); cbn; congruence. }
    rewrite E. reflexivity.
  - intros p [].
  - reflexivity.
  - reflexivity.
  - intro i. apply nth_pbi.
  - intros i j d _ _. destruct (Nat.ltb_spec i j); [|discriminate]. intro E. injection E as <-. auto.
  - intros i j H _ _ _ _. destruct (Nat.ltb_spec i j); [discriminate|lia].
Qed.
Lemma delete_step t n lim s ps i j d : dinv t n lim s ps -> 0 < n -> i < n -> j < n -> sD s i j = Some d -> (d <= lim)%num ->
  exists ps', dinv t n lim (ss_delete s i j) ps' /\ length (cells n (ss_delete s i j)) < length (cells n s).
Proof.
  intros M Pn Hi Hj Ed Hd. destruct (d_j1 _ _ _ _ _ M i j d Hi Hj Ed) as (Hij & Ai & Aj & Dd).
  assert (CE : forall D' : nat -> nat -> option num, (forall a b, some (D' a b) = true -> some (sD s a b) = true) -> D' i j = None ->
      length (filter (fun c => some (D' (fst c) (snd c))) (list_prod (seq 0 n) (seq 0 n))) < length (cells n s)).
  { intros D' H N. unfold cells. apply (filter_lt _ _ _ (i, j)).
    - intros [a b] X. apply H. exact X.
    - apply in_prod; apply in_seq; lia.
    - cbn. rewrite Ed. reflexivity.
    - cbn. rewrite N. reflexivity. }
  unfold ss_delete. destruct (Z.eqb_spec (spb s i + spb s j) 0) as [Z|NZ].
  - exists ((i, j) :: ps). rewrite !(d_pb _ _ _ _ _ M) in Z. split.
    + constructor; cbn [sD sxy swt sact stys spb].
      * rewrite <- (d_perm _ _ _ _ _ M) at 1. cbn [flat_map ends fst snd app].
        set (s' := mkss _ _ _ _ _ _). assert (P1 : Permutation (actives n s) (i :: j :: actives n s')).
        { unfold actives. rewrite (filter_two (seq 0 n) i j (sact s)); try assumption; [|apply seq_NoDup|apply in_seq; lia|apply in_seq; lia|lia].
          do 2 apply perm_skip. erewrite filter_ext; [reflexivity|]. intro a. unfold s'. cbn [sact]. unfold upd.
          destruct (Nat.eqb_spec a j); [rewrite andb_false_r; reflexivity|]. rewrite andb_true_r. destruct (Nat.eqb a i); [rewrite andb_false_r|rewrite andb_true_r]; reflexivity. }
        rewrite P1. symmetry. etransitivity; [symmetry; apply Permutation_middle|]. constructor. symmetry. apply Permutation_middle.
      * intros p [<-|I]; [|apply (d_ps _ _ _ _ _ M); exact I]. cbn [fst snd]. split; [exact Z|]. rewrite <- Dd. exact Hd.
      * apply M.
      * apply M.
      * apply M.
      * intros a b e Ha Hb. unfold kill2. destruct (Nat.eqb_spec a i), (Nat.eqb_spec b i), (Nat.eqb_spec a j), (Nat.eqb_spec b j); cbn [orb]; try discriminate.
        intro E. destruct (d_j1 _ _ _ _ _ M a b e Ha Hb E) as (A1 & A2 & A3 & A4). unfold upd.
        repeat (rewrite (proj2 (Nat.eqb_neq _ _)) by assumption). auto.
      * intros a b Hab Hb Aa Ab S. unfold upd in Aa, Ab. unfold kill2.
        destruct (Nat.eqb a j); [discriminate|]. destruct (Nat.eqb a i); [discriminate|]. destruct (Nat.eqb b j); [discriminate|]. destruct (Nat.eqb b i); [discriminate|].
        cbn [orb]. apply (d_j2 _ _ _ _ _ M); assumption.
    + unfold cells at 1. cbn [sD]. apply CE; [intros a b; unfold kill2; destruct (_ || _)%bool; [discriminate|auto]|].
      unfold kill2. rewrite Nat.eqb_refl. reflexivity.
  - exists ps. rewrite !(d_pb _ _ _ _ _ M) in NZ. split.
    + constructor; cbn [sD sxy swt sact stys spb]; try apply M.
      * intros a b e Ha Hb. destruct (_ || _)%bool; [discriminate|]. apply (d_j1 _ _ _ _ _ M); assumption.
      * intros a b Hab Hb Aa Ab S. destruct (Nat.eqb_spec a i), (Nat.eqb_spec b j), (Nat.eqb_spec a j), (Nat.eqb_spec b i); subst; cbn [andb orb]; try lia;
          try (apply (d_j2 _ _ _ _ _ M); assumption); exfalso; lia.
    + unfold cells at 1. cbn [sD].
      apply (CE (fun a b => if ((Nat.eqb a i && Nat.eqb b j) || (Nat.eqb a j && Nat.eqb b i))%bool then None else sD s a b)); [intros a b; destruct (_ || _)%bool; [discriminate|auto]|]. rewrite !Nat.eqb_refl. reflexivity.
Qed.
Lemma delete_loop t n lim fuel s ps : dinv t n lim s ps -> 0 < n -> length (cells n s) < fuel ->
  exists s' ps', ss_loop fuel n false lim s = Ok s' /\ dinv t n lim s' ps' /\
    forall a b, a < b -> b < n -> sact s' a = true -> sact s' b = true -> (index_of (type_of t a) + index_of (type_of t b) = 0)%Z -> (lim < sqdist (position t a) (position t b))%num.
Proof.
  revert s ps; induction fuel as [|f IH]; intros s ps M Pn L; [lia|]. cbn [ss_loop].
  destruct (argmin2 n n (sD s)) as [i j] eqn:E. destruct (argmin2_spec n n (sD s) i j Pn Pn E) as (Hi & Hj & Mn). destruct (sD s i j) as [d|] eqn:Ed.
  - destruct (qltb_spec lim d) as [Hd|Hd].
    + exists s, ps. split; [reflexivity|]. split; [exact M|]. intros a b Hab Hb Aa Ab S.
      pose proof (d_j2 _ _ _ _ _ M a b Hab Hb Aa Ab S) as SD. destruct (sD s a b) as [e|] eqn:Ee; [|congruence]. assert (Ha : a < n) by lia.
      destruct (olt_le _ _ _ (Mn a b Ha Hb) Ee) as (y & Ey & Hy). injection Ey as <-.
      destruct (d_j1 _ _ _ _ _ M a b e Ha Hb Ee) as (_ & _ & _ & <-). eapply Qclt_le_trans; eassumption.
    + destruct (delete_step t n lim s ps i j d M Pn Hi Hj Ed) as (ps' & M' & Lm); [qlra|]. apply (IH _ ps' M' Pn). lia.
  - exists s, ps. split; [reflexivity|]. split; [exact M|]. intros a b Hab Hb Aa Ab S. exfalso.
    pose proof (d_j2 _ _ _ _ _ M a b Hab Hb Aa Ab S) as SD. assert (Ha : a < n) by lia. specialize (Mn a b Ha Hb). destruct (sD s a b); [discriminate|congruence].
Qed.
Lemma seq_sorted a n : StronglySorted lt (seq a n).
Proof. revert a; induction n as [|n IH]; intro a; cbn; constructor; [apply IH|]. apply Forall_forall. intros x I. apply in_seq in I. lia. Qed.
Lemma ss_filter (f : nat -> bool) l : StronglySorted lt l -> StronglySorted lt (filter f l).
Proof.
  induction 1 as [|a l S IH F]; cbn; [constructor|]. destruct (f a); [|exact IH]. constructor; [exact IH|].
  rewrite Forall_forall in *. intros x I. apply filter_In in I. apply F. tauto.
Qed.
Lemma simplify_delete_lemma t dmin : topo_ok t ->
  exists ps kept t', topo_simplify t dmin false = Ok t' /\ Permutation (flat_map ends ps ++ kept) (seq 0 (length (txy t))) /\ StronglySorted lt kept /\
    (forall p, In p ps -> (index_of (type_of t (fst p)) + index_of (type_of t (snd p)) = 0)%Z /\ (sqdist (position t (fst p)) (position t (snd p)) <= dmin * dmin)%num) /\
    (forall a b, In a kept -> In b kept -> a <> b -> (index_of (type_of t a) + index_of (type_of t b) = 0)%Z -> (dmin * dmin < sqdist (position t a) (position t b))%num) /\
    txy t' = map (position t) (filter (fun i => negb (index_of (type_of t i) =? 0)%Z) kept) /\
    ttys t' = map (type_of t) (filter (fun i => negb (index_of (type_of t i) =? 0)%Z) kept).
Proof.
  intros [NE L]. unfold topo_simplify. set (n := length (txy t)).
  assert (Pn : 0 < n) by (unfold n; destruct (txy t); [congruence|cbn; lia]).
  destruct (Nat.eqb_spec n 0); [lia|]. cbn [guard].
  destruct (delete_loop t n (dmin * dmin)%num (S (n * n)) (ss_init t) [] (dinv_init t _) Pn) as (s & ps & E & M & F).
  { unfold cells. apply Nat.lt_succ_r. etransitivity; [apply filter_le|]. rewrite prod_length, seq_length. reflexivity. }
  rewrite E. cbn [bind]. exists ps, (actives n s). eexists. split; [reflexivity|]. split; [apply M|]. split; [apply ss_filter, seq_sorted|]. split; [apply M|]. split.
  { intros a b Ia Ib N S. apply actives_in in Ia. apply actives_in in Ib. destruct Ia as [Ha Aa], Ib as [Hb Ab].
    destruct (Nat.lt_total a b) as [H|[H|H]]; [apply F; assumption|congruence|]. rewrite sqdist_sym. apply F; try assumption. lia. }
  cbn [txy ttys]. rewrite filter_and. fold (actives n s).
  assert (EF : filter (fun i => negb (spb s i =? 0)%Z) (actives n s) = filter (fun i => negb (index_of (type_of t i) =? 0)%Z) (actives n s)).
  { apply filter_ext. intro i. rewrite (d_pb _ _ _ _ _ M i). reflexivity. }
  rewrite EF. split; apply map_ext; intro i; [apply M|]. rewrite (d_ty _ _ _ _ _ M i). reflexivity.
Qed.
Lemma simplify_delete_index t dmin t' : topo_ok t -> topo_simplify t dmin false = Ok t' -> total_index t' = total_index t.
Proof.
  intros OK E. destruct (simplify_delete_lemma t dmin OK) as (ps & kept & t1 & E1 & P & _ & H & _ & _ & T). rewrite E in E1. injection E1 as <-.
  rewrite (total_seq t (proj2 OK)). unfold group_index. rewrite <- (zsumf_perm _ _ _ P), zsumf_app.
  assert (Z0 : zsumf (fun i => index_of (type_of t i)) (flat_map ends ps) = 0%Z).
  { assert (Z : forall ps, (forall p, In p ps -> (index_of (type_of t (fst p)) + index_of (type_of t (snd p)) = 0)%Z) -> zsumf (fun i => index_of (type_of t i)) (flat_map ends ps) = 0%Z).
    { induction ps0 as [|p l IH]; intro H0; [reflexivity|]. cbn [flat_map]. rewrite zsumf_app, IH by (intros q I; apply H0; right; exact I).
      specialize (H0 p (or_introl eq_refl)). unfold ends, zsumf. cbn. lia. }
    apply Z. intros p I. apply (H p I). }
  rewrite Z0, Z.add_0_l. unfold total_index. rewrite T.
  assert (ZM : forall l, zsumf index_of (map (type_of t) l) = zsumf (fun i => index_of (type_of t i)) l).
  { unfold zsumf. induction l as [|a l IH]; cbn; [reflexivity|]. rewrite IH; reflexivity. }
  rewrite ZM. apply zsumf_filter_nz.
Qed.
(** after deletion no saddle remains near a focus or a node *)
Lemma simplify_delete_apart t dmin t' : topo_ok t -> topo_simplify t dmin false = Ok t' ->
  forall i j p q a b, nth_error (txy t') i = Some p -> nth_error (ttys t') i = Some a -> nth_error (txy t') j = Some q -> nth_error (ttys t') j = Some b ->
    index_of a = 1%Z -> index_of b = (-1)%Z -> (dmin * dmin < sqdist p q)%num.
Proof.
  intros OK E i j p q a b Ep Ea Eq Eb Ha Hb. destruct (simplify_delete_lemma t dmin OK) as (ps & kept & t1 & E1 & P & _ & H & F & X & T). rewrite E in E1. injection E1 as <-.
  rewrite X in Ep, Eq. rewrite T in Ea, Eb. set (l := filter _ kept) in *.
  apply nth_error_map_inv' in Ep. apply nth_error_map_inv' in Eq. apply nth_error_map_inv' in Ea. apply nth_error_map_inv' in Eb.
  destruct Ep as (u & Eu & <-). destruct Ea as (u' & Eu' & <-). destruct Eq as (v & Ev & <-). destruct Eb as (v' & Ev' & <-).
  rewrite Eu in Eu'. injection Eu' as <-. rewrite Ev in Ev'. injection Ev' as <-.
  apply nth_error_In in Eu. apply nth_error_In in Ev. apply filter_In in Eu. apply filter_In in Ev.
  apply F; [apply Eu|apply Ev| |lia]. intro; subst v. lia.
Qed.
(** ** termination and errors *)
Lemma simplify_total t dmin merge : topo_ok t -> exists t', topo_simplify t dmin merge = Ok t'.
Proof.
  intro OK. destruct merge.
  - destruct (simplify_merge_lemma t dmin OK) as (gs & t' & E & _). eauto.
  - destruct (simplify_delete_lemma t dmin OK) as (ps & k & t' & E & _). eauto.
Qed.
Lemma simplify_empty t dmin merge : txy t = [] -> topo_simplify t dmin merge = Err ValueErr.
Proof. intro E. unfold topo_simplify. rewrite E. reflexivity. Qed.
Lemma crit_simplify_err asort c dmin merge : ctimes c <> [] -> crit_simplify asort c dmin merge = Err TypeErr.
Proof. intro N. unfold crit_simplify. destruct (ctimes c) as [|t l]; [congruence|]. reflexivity. Qed.
(** a frame seen as a set of points with types *)
Lemma frame_import c i t : topo_of_frame c i true = Ok t ->
  topo_ok t /\ forall p k, In (p, code k) (combine (txy t) (ttys t)) <-> exists s, nth_error (cpts c k) i = Some s /\ In p (xy s).
Proof.
  unfold topo_of_frame. cbn [negb guard]. destruct (Nat.leb _ i); [discriminate|]. cbn [guard].
  destruct (mapM _ _) as [l|] eqn:E; [|discriminate]. cbn [bind]. unfold topo_import. rewrite map_length.
  destruct (Nat.eqb_spec (length (concat l)) 0) as [Z|NZ]; [discriminate|]. cbn [guard]. intro H. injection H as <-. cbn [txy ttys].
  split; [split; cbn [txy ttys]; [intro X; apply NZ; rewrite <- (map_length fst), X; reflexivity|rewrite !map_length; reflexivity]|].
  intros p k.
  assert (CB : combine (map fst (concat l)) (map snd (concat l)) = concat l).
  { generalize (concat l) as m. induction m as [|[u v] m IH]; cbn; [reflexivity|]. rewrite IH; reflexivity. }
  rewrite CB. cbn [mapM] in E.
  destruct (nth_error (cpts c Foc) i) as [s1|] eqn:E1; [|discriminate].
  destruct (nth_error (cpts c FocC) i) as [s2|] eqn:E2; [|discriminate].
  destruct (nth_error (cpts c Sadd) i) as [s3|] eqn:E3; [|discriminate].
  destruct (nth_error (cpts c NodeI) i) as [s4|] eqn:E4; [|discriminate].
  destruct (nth_error (cpts c NodeO) i) as [s5|] eqn:E5; [|discriminate].
  cbn [bind] in E. injection E as <-. cbn [concat]. rewrite !in_app_iff, !in_map_iff. split.
  - intros H. repeat match goal with H : _ \/ _ |- _ => destruct H as [H|H] end; try destruct H as (x & Hx & Ix);
      try (injection Hx as <- Hk; destruct k; try discriminate Hk; eexists; split; eassumption). destruct H.
  - intros (s & Es & Is). destruct k; rewrite Es in *;
      repeat match goal with H : Some _ = Some _ |- _ => injection H as -> end;
      [left|right; left|right; right; right; left|right; right; right; right; left|right; right; left]; exists p; auto.
Qed.
