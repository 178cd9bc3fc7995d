(** * CritProofs9: topological simplification by replacement. *)
From Verif Require Import Num Res ListLib SortLib SeqSpec Arr PointsModel PointsSpec CritModel CritSpec CritProofs CritProofs2 CritProofs3.
From Coq Require Import Permutation Lia.

Lemma type_pbi_index ty : type_pbi ty = index_of ty.
Proof.
  unfold type_pbi, index_of.
  destruct (Z.eqb_spec ty 1); [subst; reflexivity|]. destruct (Z.eqb_spec ty 2); [subst; reflexivity|].
  destruct (Z.eqb_spec ty 4); [subst; reflexivity|]. destruct (Z.eqb_spec ty 5); [subst; reflexivity|]. cbn [orb].
  destruct (Z.eqb_spec ty 3); [subst; reflexivity|].
  destruct ty as [|p|p]; try reflexivity. do 3 (destruct p as [p|p|]; try reflexivity; try congruence).
Qed.
Lemma nth_pbi t i : nth i (tpbis t) 0%Z = index_of (type_of t i).
Proof. unfold tpbis, type_of. change 0%Z with (type_pbi 0) at 1. rewrite map_nth. apply type_pbi_index. Qed.
Lemma zsumf_app {A} (f : A -> Z) a b : zsumf f (a ++ b) = (zsumf f a + zsumf f b)%Z.
Proof. induction a; cbn; [reflexivity|]. unfold zsumf in *. rewrite IHa. lia. Qed.
Lemma qsumf_app {A} (f : A -> num) a b : qsumf f (a ++ b) = (qsumf f a + qsumf f b)%num.
Proof.
  unfold qsumf. induction a as [|x a IH]; cbn [app fold_right]; [|rewrite IH]; qring.
Qed.
Lemma zsumf_perm {A} (f : A -> Z) a b : Permutation a b -> zsumf f a = zsumf f b.
Proof. induction 1; unfold zsumf in *; cbn; lia. Qed.
Lemma zsumf_concat {A} (f : A -> Z) l : zsumf f (concat l) = zsumf (zsumf f) l.
Proof. induction l as [|a l IH]; [reflexivity|]. cbn [concat]. rewrite zsumf_app, IH. reflexivity. Qed.
Lemma qn_add' a b : qn (a + b) = (qn a + qn b)%num.
Proof. unfold qn. rewrite Nat2Z.inj_add, qz_add. reflexivity. Qed.
Lemma qn_pos' a : 0 < a -> (0 < qn a)%num.
Proof. intro H. unfold qn. change (0 < qz (Z.of_nat a))%num with (qz 0 < qz (Z.of_nat a))%num. apply qz_lt. lia. Qed.
Lemma centre_app t a b : a <> [] -> b <> [] ->
  (((fst (centre t a) * qn (length a) + fst (centre t b) * qn (length b)) / (qn (length a) + qn (length b)))%num,
   ((snd (centre t a) * qn (length a) + snd (centre t b) * qn (length b)) / (qn (length a) + qn (length b)))%num) = centre t (a ++ b).
Proof.
  intros Na Nb. assert (Pa : (0 < qn (length a))%num) by (apply qn_pos'; destruct a; [congruence|cbn; lia]).
  assert (Pb : (0 < qn (length b))%num) by (apply qn_pos'; destruct b; [congruence|cbn; lia]).
  unfold centre. cbn [fst snd]. rewrite !qsumf_app, app_length, qn_add'.
  assert (Ps : (0 < qn (length a) + qn (length b))%num) by qlra.
  f_equal; qfield; repeat split; apply qgt_neq; assumption.
Qed.
Lemma centre_one t i : centre t [i] = position t i.
Proof.
  unfold centre. cbn [qsumf fold_right length]. change (qn 1) with 1%num.
  destruct (position t i) as [x y]. cbn [fst snd]. f_equal; qfield; discriminate.
Qed.

Lemma concat_perm {A} (a b : list (list A)) : Permutation a b -> Permutation (concat a) (concat b).
Proof.
  induction 1; cbn [concat]; [constructor|apply Permutation_app_head; assumption| |etransitivity; eassumption].
  rewrite !app_assoc. apply Permutation_app_tail, Permutation_app_comm.
Qed.
(** ** the invariant *)
Definition actives (n : nat) (s : sstate) : list nat := filter (sact s) (seq 0 n).
Record minv (t : topo) (n : nat) (lim : num) (s : sstate) (G : nat -> list nat) : Prop := {
  m_merged : merged t lim (map G (actives n s));
  m_ne : forall i, i < n -> sact s i = true -> G i <> [];
  m_xy : forall i, i < n -> sact s i = true -> sxy s i = centre t (G i);
  m_wt : forall i, i < n -> sact s i = true -> swt s i = Z.of_nat (length (G i));
  m_ty : forall i, i < n -> sact s i = true -> stys s i = map (type_of t) (G i);
  m_pb : forall i, i < n -> sact s i = true -> spb s i = group_index t (G i);
  m_j1 : forall i j d, i < n -> j < n -> sD s i j = Some d -> sact s i = true /\ sact s j = true /\ i <> j /\ d = sqdist (sxy s i) (sxy s j);
  m_j2 : forall i j, i < n -> j < n -> sact s i = true -> sact s j = true -> i <> j -> sD s i j <> None \/ sD s j i <> None }.
Lemma minv_init t lim : minv t (length (txy t)) lim (ss_init t) (fun i => [i]).
Proof.
  set (n := length (txy t)). constructor; cbn [ss_init sD sxy swt sact stys spb].
  - assert (E : actives n (ss_init t) = seq 0 n).
    { unfold actives. cbn [ss_init sact]. induction (seq 0 n); cbn; congruence. }
    rewrite E. apply m_none.
  - discriminate.
  - intros i _ _. rewrite centre_one. reflexivity.
  - reflexivity.
  - reflexivity.
  - intros i _ _. rewrite nth_pbi. unfold group_index. cbn. lia.
  - intros i j d _ _. destruct (Nat.ltb_spec i j); [|discriminate]. intro E. injection E as <-. repeat split; [lia].
  - intros i j _ _ _ _ N. destruct (Nat.ltb_spec i j); [left; discriminate|]. right. destruct (Nat.ltb_spec j i); [discriminate|lia].
Qed.
Lemma nth_error_map_inv' {A B} (f : A -> B) l i y : nth_error (map f l) i = Some y -> exists x, nth_error l i = Some x /\ f x = y.
Proof. rewrite nth_error_map. destruct (nth_error l i); cbn; [|discriminate]. intro E. injection E as <-. eauto. Qed.
Lemma distinct_map {A} (G : nat -> A) l x y : NoDup l -> distinct_in (map G l) x y -> exists i j, In i l /\ In j l /\ i <> j /\ x = G i /\ y = G j.
Proof.
  intros ND (a & b & N & Ea & Eb). apply nth_error_map_inv' in Ea. apply nth_error_map_inv' in Eb.
  destruct Ea as (i & Ei & <-). destruct Eb as (j & Ej & <-). exists i, j.
  split; [apply nth_error_In in Ei; exact Ei|]. split; [apply nth_error_In in Ej; exact Ej|]. split; [|auto].
  intro E; subst j. apply N. rewrite NoDup_nth_error in ND. apply ND; [|congruence]. apply nth_error_Some. congruence.
Qed.
Lemma actives_nodup n s : NoDup (actives n s).
Proof. apply NoDup_filter, seq_NoDup. Qed.
Lemma actives_in n s i : In i (actives n s) <-> i < n /\ sact s i = true.
Proof. unfold actives. rewrite filter_In, in_seq. intuition lia. Qed.
Lemma olt_le a b x : olt a b = false -> a = Some x -> exists y, b = Some y /\ (y <= x)%num.
Proof. intros H ->. destruct b as [y|]; cbn in H; [|discriminate]. exists y. split; [reflexivity|]. apply qltb_ge in H. exact H. Qed.
(** the least distance is least among the centres *)
Lemma nearest t n lim s G i j d : minv t n lim s G -> 0 < n -> argmin2 n n (sD s) = (i, j) -> sD s i j = Some d ->
  forall a b, a < n -> b < n -> sact s a = true -> sact s b = true -> a <> b -> (d <= sqdist (sxy s a) (sxy s b))%num.
Proof.
  intros M Pn E Ed a b Ha Hb Aa Ab N. destruct (argmin2_spec n n (sD s) i j Pn Pn E) as (Hi & Hj & L).
  assert (Q : forall a b e, a < n -> b < n -> sD s a b = Some e -> (d <= sqdist (sxy s a) (sxy s b))%num).
  { intros a' b' e Ha' Hb' Ee. destruct (m_j1 _ _ _ _ _ M a' b' e Ha' Hb' Ee) as (_ & _ & _ & <-).
    destruct (olt_le _ _ _ (L a' b' Ha' Hb') Ee) as (y & Ey & Hy). rewrite Ed in Ey. injection Ey as <-. exact Hy. }
  destruct (m_j2 _ _ _ _ _ M a b Ha Hb Aa Ab N) as [S|S].
  - destruct (sD s a b) as [e|] eqn:Ee; [|congruence]. apply (Q a b e); assumption.
  - destruct (sD s b a) as [e|] eqn:Ee; [|congruence]. rewrite sqdist_sym. apply (Q b a e); assumption.
Qed.
Lemma merge_act n s i j : i <> j -> sact s i = true -> forall a, sact (ss_merge n s i j) a = (sact s a && negb (Nat.eqb a j))%bool.
Proof.
  intros N Ai a. unfold ss_merge. cbn [sact]. unfold upd. destruct (Nat.eqb_spec a i).
  - subst. rewrite Ai. destruct (Nat.eqb_spec i j); [congruence|reflexivity].
  - destruct (Nat.eqb a j); [rewrite andb_false_r|rewrite andb_true_r]; reflexivity.
Qed.
Lemma filter_two (l : list nat) i j f : NoDup l -> In i l -> In j l -> i <> j -> f i = true -> f j = true ->
  Permutation (filter f l) (i :: j :: filter (fun a => f a && negb (Nat.eqb a i) && negb (Nat.eqb a j))%bool l).
Proof.
  intros ND Ii Ij N Fi Fj. apply NoDup_Permutation.
  - apply NoDup_filter; exact ND.
  - constructor.
    + intros [E|H]; [congruence|]. apply filter_In in H. rewrite Nat.eqb_refl, andb_false_r in H. destruct H; discriminate.
    + constructor; [|apply NoDup_filter; exact ND]. intro H. apply filter_In in H. rewrite Nat.eqb_refl, andb_false_r in H. destruct H; discriminate.
  - intro a. rewrite filter_In. cbn [In]. rewrite filter_In. split.
    + intros [Ia Fa]. destruct (Nat.eqb_spec a i); [auto|]. destruct (Nat.eqb_spec a j); [auto|]. rewrite Fa. auto.
    + intros [<-|[<-|[Ia H]]]; auto. apply andb_true_iff in H. destruct H as [H _]. apply andb_true_iff in H. tauto.
Qed.
Lemma merge_step t n lim s G i j d : minv t n lim s G -> 0 < n -> argmin2 n n (sD s) = (i, j) -> sD s i j = Some d -> (d <= lim)%num ->
  minv t n lim (ss_merge n s i j) (upd G i (G i ++ G j)) /\ length (actives n s) = S (length (actives n (ss_merge n s i j))).
Proof.
  intros M Pn E Ed Hd. destruct (argmin2_spec n n (sD s) i j Pn Pn E) as (Hi & Hj & _).
  destruct (m_j1 _ _ _ _ _ M i j d Hi Hj Ed) as (Ai & Aj & N & Dd).
  pose proof (merge_act n s i j N Ai) as MA.
  set (rest := filter (fun a => sact s a && negb (Nat.eqb a i) && negb (Nat.eqb a j))%bool (seq 0 n)).
  assert (P1 : Permutation (actives n s) (i :: j :: rest)).
  { apply filter_two; try assumption; [apply seq_NoDup|apply in_seq; lia|apply in_seq; lia]. }
  assert (P2 : Permutation (actives n (ss_merge n s i j)) (i :: rest)).
  { apply NoDup_Permutation.
    - apply actives_nodup.
    - constructor; [|apply NoDup_filter, seq_NoDup]. intro H. apply filter_In in H. rewrite Nat.eqb_refl, andb_false_r in H. destruct H; discriminate.
    - intro a. rewrite actives_in, MA. cbn [In]. unfold rest. rewrite filter_In, in_seq. rewrite !andb_true_iff, !negb_true_iff, !Nat.eqb_neq.
      split; [intros (H1 & H2 & H3); destruct (Nat.eq_dec a i); [left; congruence|right; intuition lia]|].
      intros [<-|(H1 & (H2 & H3) & H4)]; intuition lia. }
  split; [|rewrite (Permutation_length P1), (Permutation_length P2); reflexivity].
  assert (Gr : forall a, In a rest -> upd G i (G i ++ G j) a = G a).
  { intros a I. unfold upd. apply filter_In in I. destruct I as [_ I]. apply andb_true_iff in I. destruct I as [I _]. apply andb_true_iff in I. destruct I as [_ I].
    apply negb_true_iff in I. rewrite I. reflexivity. }
  assert (EW : (qz (swt s i) = qn (length (G i)) /\ qz (swt s j) = qn (length (G j)))%num).
  { rewrite (m_wt _ _ _ _ _ M i Hi Ai), (m_wt _ _ _ _ _ M j Hj Aj). split; reflexivity. }
  assert (MID : forall a, a < n -> sact (ss_merge n s i j) a = true ->
      sxy (ss_merge n s i j) a = centre t (upd G i (G i ++ G j) a)).
  { intros a Ha Aa. rewrite MA in Aa. apply andb_true_iff in Aa. destruct Aa as [Aa Na]. unfold ss_merge. cbn [sxy]. unfold upd. destruct (Nat.eqb_spec a i).
    - destruct EW as [-> ->]. rewrite (m_xy _ _ _ _ _ M i Hi Ai), (m_xy _ _ _ _ _ M j Hj Aj).
      apply centre_app; [apply (m_ne _ _ _ _ _ M i Hi Ai)|apply (m_ne _ _ _ _ _ M j Hj Aj)].
    - apply (m_xy _ _ _ _ _ M); assumption. }
  constructor.
  - apply (m_next t lim (map G (actives n s)) (G i) (G j) (map G rest)).
    + apply M.
    + rewrite P1. reflexivity.
    + rewrite <- (m_xy _ _ _ _ _ M i Hi Ai), <- (m_xy _ _ _ _ _ M j Hj Aj), <- Dd. exact Hd.
    + intros x y DI. destruct (distinct_map G (actives n s) x y (actives_nodup n s) DI) as (a & b & Ia & Ib & Nab & -> & ->).
      apply actives_in in Ia. apply actives_in in Ib. destruct Ia as [Ha Aa], Ib as [Hb Ab].
      rewrite <- (m_xy _ _ _ _ _ M i Hi Ai), <- (m_xy _ _ _ _ _ M j Hj Aj), <- Dd.
      rewrite <- (m_xy _ _ _ _ _ M a Ha Aa), <- (m_xy _ _ _ _ _ M b Hb Ab). apply (nearest t n lim s G i j d M Pn E Ed); assumption.
    + rewrite P2. cbn [map]. unfold upd at 1. rewrite Nat.eqb_refl. rewrite (map_ext_in _ G rest Gr). reflexivity.
  - intros a Ha Aa. rewrite MA in Aa. apply andb_true_iff in Aa. destruct Aa as [Aa Na]. unfold upd. destruct (Nat.eqb_spec a i).
    + pose proof (m_ne _ _ _ _ _ M i Hi Ai). destruct (G i); [congruence|discriminate].
    + apply (m_ne _ _ _ _ _ M); assumption.
  - exact MID.
  - intros a Ha Aa. rewrite MA in Aa. apply andb_true_iff in Aa. destruct Aa as [Aa Na]. unfold ss_merge. cbn [swt]. unfold upd. destruct (Nat.eqb_spec a i).
    + rewrite (m_wt _ _ _ _ _ M i Hi Ai), (m_wt _ _ _ _ _ M j Hj Aj), app_length. lia.
    + apply (m_wt _ _ _ _ _ M); assumption.
  - intros a Ha Aa. rewrite MA in Aa. apply andb_true_iff in Aa. destruct Aa as [Aa Na]. unfold ss_merge. cbn [stys]. unfold upd. destruct (Nat.eqb_spec a i).
    + rewrite (m_ty _ _ _ _ _ M i Hi Ai), (m_ty _ _ _ _ _ M j Hj Aj), map_app. reflexivity.
    + apply (m_ty _ _ _ _ _ M); assumption.
  - intros a Ha Aa. rewrite MA in Aa. apply andb_true_iff in Aa. destruct Aa as [Aa Na]. unfold ss_merge. cbn [spb]. unfold upd. destruct (Nat.eqb_spec a i).
    + rewrite (m_pb _ _ _ _ _ M i Hi Ai), (m_pb _ _ _ _ _ M j Hj Aj). unfold group_index. rewrite zsumf_app. reflexivity.
    + apply (m_pb _ _ _ _ _ M); assumption.
  - intros a b e Ha Hb. rewrite !MA. unfold ss_merge. cbn [sD sxy]. unfold upd.
    destruct (Nat.eqb_spec b i) as [->|Nb].
    + destruct (Nat.eqb_spec a i) as [->|Na]; [rewrite (proj2 (Nat.eqb_neq i j) N); discriminate|].
      destruct (Nat.eqb_spec a j) as [->|Naj]; [discriminate|]. destruct (sact s a) eqn:Aa; [|discriminate]. intro H. injection H as <-.
      rewrite Ai. rewrite (proj2 (Nat.eqb_neq i j) N). cbn. auto.
    + destruct (Nat.eqb_spec a i) as [->|Na].
      * destruct (Nat.eqb_spec b j) as [->|Nbj]; [discriminate|]. destruct (sact s b) eqn:Ab; [|discriminate]. intro H. injection H as <-.
        rewrite Ai. rewrite (proj2 (Nat.eqb_neq i j) N). cbn. repeat split; [congruence|]. apply sqdist_sym.
      * unfold kill2. rewrite (proj2 (Nat.eqb_neq a i) Na), (proj2 (Nat.eqb_neq b i) Nb). cbn [orb].
        destruct (Nat.eqb_spec a j); [discriminate|]. destruct (Nat.eqb_spec b j); [discriminate|]. cbn [orb]. intro H.
        destruct (m_j1 _ _ _ _ _ M a b e Ha Hb H) as (A1 & A2 & A3 & A4). rewrite A1, A2. auto.
  - intros a b Ha Hb Aa Ab Nab. rewrite MA in Aa, Ab. apply andb_true_iff in Aa. apply andb_true_iff in Ab. destruct Aa as [Aa Na], Ab as [Ab Nb].
    apply negb_true_iff in Na. apply negb_true_iff in Nb. unfold ss_merge. cbn [sD]. unfold upd, kill2.
    destruct (Nat.eqb_spec b i) as [->|Nbi].
    + rewrite (proj2 (Nat.eqb_neq a i) Nab), Na, Aa. left; discriminate.
    + destruct (Nat.eqb_spec a i) as [->|Nai].
      * rewrite Nb, Ab. left; discriminate.
      * rewrite Na, Nb. cbn [orb]. apply (m_j2 _ _ _ _ _ M); assumption.
Qed.
Lemma merge_loop t n lim fuel s G : minv t n lim s G -> 0 < n -> length (actives n s) < fuel ->
  exists s' G', ss_loop fuel n true lim s = Ok s' /\ minv t n lim s' G' /\
    forall a b, a < n -> b < n -> sact s' a = true -> sact s' b = true -> a <> b -> (lim < sqdist (sxy s' a) (sxy s' b))%num.
Proof.
  revert s G; induction fuel as [|f IH]; intros s G M Pn L; [lia|]. cbn [ss_loop].
  destruct (argmin2 n n (sD s)) as [i j] eqn:E. destruct (sD s i j) as [d|] eqn:Ed.
  - destruct (qltb_spec lim d) as [Hd|Hd].
    + exists s, G. split; [reflexivity|]. split; [exact M|]. intros a b Ha Hb Aa Ab N.
      pose proof (nearest t n lim s G i j d M Pn E Ed a b Ha Hb Aa Ab N). eapply Qclt_le_trans; eassumption.
    + destruct (merge_step t n lim s G i j d M Pn E Ed) as [M' Lm]; [qlra|]. apply (IH _ _ M' Pn). lia.
  - exists s, G. split; [reflexivity|]. split; [exact M|]. intros a b Ha Hb Aa Ab N. exfalso.
    destruct (argmin2_spec n n (sD s) i j Pn Pn E) as (Hi & Hj & Mn). rewrite Ed in Mn.
    assert (Q : forall a b, a < n -> b < n -> sD s a b = None).
    { intros a' b' Ha' Hb'. specialize (Mn a' b' Ha' Hb'). destruct (sD s a' b'); [discriminate|reflexivity]. }
    destruct (m_j2 _ _ _ _ _ M a b Ha Hb Aa Ab N) as [S|S]; apply S; apply Q; assumption.
Qed.
Lemma merged_partition t lim gs : merged t lim gs -> Permutation (concat gs) (seq 0 (length (txy t))) /\ forall g, In g gs -> g <> [].
Proof.
  induction 1 as [|gs a b rest gs' M [IP IN] P _ _ P'].
  - split; [induction (seq 0 (length (txy t))) as [|x l IH]; cbn; [constructor|constructor; exact IH]|].
    intros g I. apply in_map_iff in I. destruct I as (i & <- & _). discriminate.
  - split.
    + rewrite <- IP. rewrite (concat_perm _ _ P'), (concat_perm _ _ P). cbn [concat]. rewrite app_assoc. reflexivity.
    + intros g I. apply (Permutation_in _ P') in I. destruct I as [<-|I].
      * assert (a <> []) by (apply IN; apply (Permutation_in _ (Permutation_sym P)); left; reflexivity). destruct a; [congruence|discriminate].
      * apply IN. apply (Permutation_in _ (Permutation_sym P)). right; right; exact I.
Qed.
