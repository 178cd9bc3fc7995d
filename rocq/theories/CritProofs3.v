(** * CritProofs3: the trajectories as a whole. *)
From Verif Require Import Num Res ListLib SortLib SeqSpec Arr FieldModel ScalarFieldModel ProfileModel ProfileSpec PointsModel PointsSpec CritModel CritSpec CritProofs CritProofs2.
From Coq Require Import Permutation Lia.

Lemma sqdist_sym a b : sqdist a b = sqdist b a.
Proof. unfold sqdist. qring. Qed.
Lemma follows_snoc d t' a b : follows (d ++ [t']) a b -> follows d a b \/ (b = t' /\ exists d0, d = d0 ++ [a]).
Proof.
  intros (l1 & l2 & E). destruct l2 as [|z l2] using rev_ind.
  - right. change (l1 ++ [a; b]) with (l1 ++ [a] ++ [b]) in E. rewrite app_assoc in E. apply app_inj_tail in E.
    destruct E as [-> ->]. split; [reflexivity|]. exists l1; reflexivity.
  - clear IHl2. left. exists l1, l2. change (l1 ++ a :: b :: l2 ++ [z]) with (l1 ++ (a :: b :: l2) ++ [z]) in E.
    rewrite app_assoc in E. apply app_inj_tail in E. destruct E as [-> _]. reflexivity.
Qed.
Lemma follows_in d a b : follows d a b -> In a d /\ In b d.
Proof. intros (l1 & l2 & ->). split; apply in_app_iff; right; cbn; auto. Qed.

Record lines_ok (eps : option num) (d : list num) (closed open : list (list tpoint)) (all : list tpoint) : Prop := mkL
  { lo_nodup : NoDup d;
    lo_perm : Permutation (concat closed ++ concat open) all;
    lo_open : forall l, In l open -> l <> [] /\ exists l1, d = l1 ++ map snd l;
    lo_closed : forall l, In l closed -> l <> [] /\ exists l1 l2, l2 <> [] /\ d = l1 ++ map snd l ++ l2;
    lo_steps : forall l, In l (closed ++ open) -> steps_within eps l;
    lo_stable : stable eps d (closed ++ open) }.

Lemma last_unique d l l1 p t d0 : NoDup d -> d = l1 ++ map snd l -> d = d0 ++ [t] -> In (p, t) l -> last_pos l = p.
Proof.
  intros ND E E0 I. destruct l as [|y l] using rev_ind; [destruct I|]. clear IHl.
  unfold last_pos. rewrite last_last. rewrite map_app in E. cbn in E. rewrite app_assoc in E.
  rewrite E0 in E. apply app_inj_tail in E. destruct E as [E Et].
  apply in_app_iff in I. destruct I as [I|[->|[]]]; [|reflexivity].
  exfalso. subst d. rewrite Et in ND. apply NoDup_remove_2 in ND. rewrite app_nil_r in ND. apply ND.
  rewrite E, in_app_iff. right. apply in_map_iff. exists (p, t). cbn. auto.
Qed.
Lemma times_in (d : list num) l1 (l : list tpoint) l2 p t : d = l1 ++ map snd l ++ l2 -> In (p, t) l -> In t d.
Proof. intros -> I. rewrite !in_app_iff. right; left. apply in_map_iff. exists (p, t); auto. Qed.
Lemma steps_snoc eps l x : steps_within eps l -> l <> [] -> within eps (sqdist (last_pos l) (fst x)) -> steps_within eps (l ++ [x]).
Proof.
  intros S N W l1 a b l2 E. destruct l2 as [|z l2] using rev_ind.
  - change (l1 ++ [a; b]) with (l1 ++ [a] ++ [b]) in E. rewrite app_assoc in E. apply app_inj_tail in E.
    destruct E as [-> ->]. unfold last_pos in W. rewrite last_last in W. exact W.
  - clear IHl2. change (l1 ++ a :: b :: l2 ++ [z]) with (l1 ++ (a :: b :: l2) ++ [z]) in E.
    rewrite app_assoc in E. apply app_inj_tail in E. destruct E as [E _]. apply (S l1 a b l2 E).
Qed.
Lemma steps_one eps x : steps_within eps [x].
Proof. intros l1 a b l2 E. destruct l1 as [|u [|w l1]]; discriminate. Qed.

Lemma one_step_ok eps d closed open new t' all : d <> [] ->
  lines_ok eps d closed open all -> ~ In t' d -> (forall x, In x new -> snd x = t') ->
  lines_ok eps (d ++ [t']) (fst (one_step eps closed open new)) (snd (one_step eps closed open new)) (all ++ new).
Proof.
  intros Nd [ND PE LO LC LS ST] NT NW.
  destruct (step_matching eps closed open new) as (ls & M & CL & OP & PM).
  set (c' := fst (one_step eps closed open new)) in *. set (o' := snd (one_step eps closed open new)) in *.
  clearbody c' o'.
  assert (NT' : NoDup (d ++ [t'])).
  { apply (Permutation_NoDup (l := t' :: d)); [apply Permutation_cons_append|]. constructor; assumption. }
  assert (LI : forall l x, In l (closed ++ open) -> In x l -> In (snd x) d).
  { intros l [p t] I Ix. apply in_app_iff in I. destruct I as [I|I].
    - destruct (LC l I) as (_ & l1 & l2 & _ & E). exact (times_in d l1 l l2 p t E Ix).
    - destruct (LO l I) as (_ & l1 & E). apply (times_in d l1 l [] p t); [rewrite app_nil_r; exact E|exact Ix]. }
  assert (OLD : forall A x, In A (c' ++ o') -> In x A -> In (snd x) d ->
            exists A0, In A0 (closed ++ open) /\ In x A0 /\ incl A0 A).
  { intros A x I Ix Hd. apply in_app_iff in I. destruct I as [I|I].
    - apply CL in I. destruct I as [I|(j & Ej & _)].
      + exists A. rewrite in_app_iff. split; [auto|split; [exact Ix|apply incl_refl]].
      + apply nth_error_In in Ej. exists A. rewrite in_app_iff. split; [auto|split; [exact Ix|apply incl_refl]].
    - apply OP in I. destruct I as [(i & j & p & l & _ & Ep & El & ->)|(i & p & Ep & _ & ->)].
      + apply nth_error_In in El. exists l. rewrite in_app_iff. split; [auto|].
        split; [|apply incl_appl, incl_refl]. apply in_app_iff in Ix. destruct Ix as [Ix|[<-|[]]]; [exact Ix|].
        exfalso. apply NT. rewrite <- (NW p); [exact Hd|]. apply nth_error_In in Ep; exact Ep.
      + exfalso. apply NT. destruct Ix as [<-|[]]. rewrite <- (NW p); [exact Hd|]. apply nth_error_In in Ep; exact Ep. }
  split.
  - exact NT'.
  - rewrite PM, app_assoc, PE. reflexivity.
  - intros B I. apply OP in I. destruct I as [(i & j & p & l & _ & Ep & El & ->)|(i & p & Ep & _ & ->)].
    + split; [destruct l; discriminate|]. apply nth_error_In in El. destruct (LO l El) as (_ & l1 & E).
      exists l1. rewrite map_app. cbn. rewrite (NW p) by (apply nth_error_In in Ep; exact Ep). rewrite E, <- app_assoc. reflexivity.
    + split; [discriminate|]. exists d. cbn. rewrite (NW p) by (apply nth_error_In in Ep; exact Ep). reflexivity.
  - intros A I. apply CL in I. destruct I as [I|(j & Ej & _)].
    + destruct (LC A I) as (N & l1 & l2 & N2 & E). split; [exact N|]. exists l1, (l2 ++ [t']).
      split; [destruct l2; discriminate|]. rewrite E, <- !app_assoc. reflexivity.
    + apply nth_error_In in Ej. destruct (LO A Ej) as (N & l1 & E). split; [exact N|]. exists l1, [t'].
      split; [discriminate|]. rewrite E, <- app_assoc. reflexivity.
  - intros l I. apply in_app_iff in I. destruct I as [I|I].
    + apply CL in I. destruct I as [I|(j & Ej & _)]; apply LS, in_app_iff; [auto|]. apply nth_error_In in Ej; auto.
    + apply OP in I. destruct I as [(i & j & p & l0 & Il & Ep & El & ->)|(i & p & Ep & _ & ->)]; [|apply steps_one].
      destruct (m_in _ _ _ _ M i j Il) as (p' & l' & Ep' & El' & W). rewrite Ep in Ep'. rewrite El in El'.
      injection Ep' as <-. injection El' as <-. apply nth_error_In in El.
      apply steps_snoc; [apply LS, in_app_iff; auto|apply LO; exact El|]. rewrite sqdist_sym. exact W.
  - intros A B p q t u IA IB Ip Iq F W. apply follows_snoc in F. destruct F as [F|[-> (d0 & Ed)]].
    + destruct (follows_in _ _ _ F) as [Ft Fu].
      destruct (OLD A (p, t) IA Ip Ft) as (A0 & IA0 & Ip0 & SA). destruct (OLD B (q, u) IB Iq Fu) as (B0 & IB0 & Iq0 & SB).
      destruct (ST A0 B0 p q t u IA0 IB0 Ip0 Iq0 F W) as [(p' & I & L)|(q' & I & L)].
      * left. exists p'. split; [apply SA; exact I|exact L].
      * right. exists q'. split; [apply SB; exact I|exact L].
    + assert (Nt : t <> t') by (intros ->; apply NT; rewrite Ed, in_app_iff; right; left; reflexivity).
      assert (FA : exists j l, nth_error open j = Some l /\ last_pos l = p /\
                   (A = l \/ exists i x, In (i, j) ls /\ nth_error new i = Some x /\ A = l ++ [x]) /\
                   (forall i, In (i, j) ls -> exists x, nth_error new i = Some x /\ In x A)).
      { apply in_app_iff in IA. destruct IA as [IA|IA].
        - apply CL in IA. destruct IA as [IA|(j & Ej & U)].
          + exfalso. destruct (LC A IA) as (_ & l1 & l2 & N2 & E). destruct l2 as [|z l2] using rev_ind; [congruence|]. clear IHl2.
            rewrite Ed in E. rewrite !app_assoc in E. apply app_inj_tail in E. destruct E as [E ->].
            rewrite Ed, E in ND. apply NoDup_remove_2 in ND. apply ND. rewrite app_nil_r, !in_app_iff. left; right.
            apply in_map_iff. exists (p, z); auto.
          + pose proof (nth_error_In _ _ Ej) as Io. destruct (LO A Io) as (_ & l1 & E).
            exists j, A. split; [exact Ej|]. split; [exact (last_unique d A l1 p t d0 ND E Ed Ip)|]. split; [auto|].
            intros i Il. exfalso. apply U. apply in_map_iff. exists (i, j); auto.
        - apply OP in IA. destruct IA as [(i & j & x & l & Il & Ex & El & ->)|(i & x & Ex & _ & ->)].
          + pose proof (nth_error_In _ _ El) as Io. destruct (LO l Io) as (_ & l1 & E).
            exists j, l. split; [exact El|]. split; [|split].
            * apply (last_unique d l l1 p t d0 ND E Ed). apply in_app_iff in Ip. destruct Ip as [Ip|[Ip|[]]]; [exact Ip|].
              exfalso; apply Nt. apply nth_error_In in Ex. rewrite <- (NW x Ex), Ip. reflexivity.
            * right. exists i, x; auto.
            * intros i' Il'. assert (i' = i) as ->; [|exists x; split; [exact Ex|apply in_app_iff; right; left; reflexivity]].
              pose proof (m_col _ _ _ _ M) as N. clear -N Il Il'. induction ls as [|[a b] r IH]; [destruct Il|].
              cbn in N. inversion N as [|? ? N1 N2]; subst. destruct Il as [Il|Il], Il' as [Il'|Il'].
              -- congruence.
              -- injection Il as -> ->. exfalso. apply N1. apply in_map_iff. exists (i', j); auto.
              -- injection Il' as -> ->. exfalso. apply N1. apply in_map_iff. exists (i, j); auto.
              -- apply IH; assumption.
          + exfalso; apply Nt. destruct Ip as [Ip|[]]. apply nth_error_In in Ex. rewrite <- (NW x Ex), Ip. reflexivity. }
      destruct FA as (j & l & El & Lp & _ & FA).
      assert (FB : exists i x, nth_error new i = Some x /\ fst x = q /\
                   (forall j', In (i, j') ls -> exists l', nth_error open j' = Some l' /\ incl l' B)).
      { apply in_app_iff in IB. destruct IB as [IB|IB].
        - exfalso. apply NT. apply CL in IB. destruct IB as [IB|(j' & Ej & _)].
          + apply (LI B (q, t')); [apply in_app_iff; auto|exact Iq].
          + apply nth_error_In in Ej. apply (LI B (q, t')); [apply in_app_iff; auto|exact Iq].
        - apply OP in IB. destruct IB as [(i & j' & x & l' & Il & Ex & El' & ->)|(i & x & Ex & U & ->)].
          + exists i, x. split; [exact Ex|]. split.
            * apply in_app_iff in Iq. destruct Iq as [Iq|[Iq|[]]]; [|rewrite Iq; reflexivity].
              exfalso. apply NT. apply nth_error_In in El'. apply (LI l' (q, t')); [apply in_app_iff; auto|exact Iq].
            * intros j2 Il2. assert (j2 = j') as ->; [|exists l'; split; [exact El'|apply incl_appl, incl_refl]].
              pose proof (m_row _ _ _ _ M) as N. clear -N Il Il2. induction ls as [|[a b] r IH]; [destruct Il|].
              cbn in N. inversion N as [|? ? N1 N2]; subst. destruct Il as [Il|Il], Il2 as [Il2|Il2].
              -- congruence.
              -- injection Il as -> ->. exfalso. apply N1. apply in_map_iff. exists (i, j2); auto.
              -- injection Il2 as -> ->. exfalso. apply N1. apply in_map_iff. exists (i, j'); auto.
              -- apply IH; assumption.
          + exists i, x. split; [exact Ex|]. destruct Iq as [Iq|[]]. split; [rewrite Iq; reflexivity|].
            intros j' Il. exfalso. apply U. apply in_map_iff. exists (i, j'); auto. }
      destruct FB as (i & x & Ex & Eq & FB).
      destruct (m_stable _ _ _ _ M i j x l Ex El) as (i' & j' & x' & l' & Il & O & Ex' & El' & Le).
      { rewrite Eq, Lp. change (dist2 q p) with (sqdist q p). rewrite sqdist_sym. exact W. }
      change (sqdist (fst x') (last_pos l') <= sqdist (fst x) (last_pos l))%num in Le. rewrite Eq, Lp in Le.
      rewrite (sqdist_sym q p) in Le. destruct O as [-> | ->].
      * right. destruct (FB j' Il) as (l2 & E2 & SB). rewrite El' in E2. injection E2 as <-.
        rewrite Ex in Ex'. injection Ex' as <-. exists (last_pos l'). rewrite Eq in Le. split; [|rewrite (sqdist_sym (last_pos l')); exact Le].
        apply SB. apply nth_error_In in El'. destruct (LO l' El') as (N & l1 & E).
        destruct l' as [|y l'] using rev_ind; [congruence|]. unfold last_pos. rewrite last_last.
        apply in_app_iff. right; left. rewrite map_app in E. cbn in E. rewrite app_assoc, Ed in E. apply app_inj_tail in E.
        destruct E as [_ ->]. destruct y; reflexivity.
      * left. destruct (FA i' Il) as (y & Ey & Iy). rewrite Ex' in Ey. injection Ey as <-.
        rewrite El in El'. injection El' as <-. rewrite Lp in Le. exists (fst x'). split; [|rewrite sqdist_sym; exact Le].
        rewrite <- (NW x'); [destruct x'; exact Iy|]. apply nth_error_In in Ex'. exact Ex'.
Qed.
