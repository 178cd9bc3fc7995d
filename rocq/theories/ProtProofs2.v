From Coq Require Import List Bool ZArith Lia.
From Verif Require Import Res ProtModel ProtSpec ProtProofs.
Import ListNotations.

Section Sound.
Context {P V : Type}.
Variable w : work P V.
Hypothesis alike : threads_alike w.

Lemma sound_put (o : proto P) raw d f v : sound w (par o) raw d -> from w o d f v -> sound w (par o) raw (put d f (Some (Whole v))).
Proof.
  intros (R & H) F.
  assert (E : forall g x, d g = Some (Whole x) -> expected w (par o) raw g = Ok x).
  { intros g x G. destruct (H g) as [N|(y & Y & Z)]; [congruence|]. congruence. }
  assert (N : f <> Raw) by (intros ->; exact F).
  assert (X : expected w (par o) raw f = Ok v).
  { destruct f; cbn [from] in F; try contradiction.
    - destruct F as (r & A & B). assert (r = raw) by congruence. subst r. exact B.
    - destruct F as (r & c & A & B & C). assert (r = raw) by congruence. subst r. cbn. rewrite B. exact C.
    - destruct F as (c & A & B). apply E in A. cbn in A |- *. rewrite A. exact B.
    - destruct F as (c & A & B). apply E in A. cbn in A |- *. rewrite A. exact B.
    - destruct F as (c & n & A & B). apply E in A. cbn in A |- *. rewrite A. cbn. rewrite (alike _ _ n). exact B.
    - destruct F as (c & A & B). apply E in A. cbn in A |- *. rewrite A. exact B.
    - destruct F as (c & n & A & B). apply E in A. cbn in A |- *. rewrite A. cbn. rewrite (alike _ _ n). exact B. }
  split; [rewrite put_other by congruence; exact R|].
  intro g. unfold holds. destruct (slot_eqb_spec g f) as [->|G].
  - right. exists v. rewrite put_same. auto.
  - rewrite put_other by exact G. apply H.
Qed.
Lemma sound_delete p raw d f : f <> Raw -> sound w p raw d -> sound w p raw (put d f None).
Proof.
  intros N (R & H). split; [rewrite put_other by congruence; exact R|]. intro g. unfold holds. destruct (slot_eqb_spec g f) as [->|G].
  - left. apply put_same.
  - rewrite put_other by exact G. apply H.
Qed.
Lemma sound_start a o mem raw d : sound w (par o) raw d -> steps (sound w (par o) raw) d (fst (fst (start w a o mem d))) (dsk (snd (fst (start w a o mem d)))).
Proof.
  intro H. destruct a; cbn [start].
  - apply (safe_compute w o mem (sound w (par o) raw) (fun d f v => sound_put o raw d f v) (mkrun d (threads o))). exact H.
  - apply (safe_recompute w o mem (sound w (par o) raw) (fun d f v => sound_put o raw d f v) (mkrun d (threads o))). exact H.
Qed.
Lemma sound_event p raw d e : orderly p e -> sound w p raw d -> sound w p raw (after_event w d e).
Proof.
  intros O H. destruct e as [a o mem|a o mem k|a o mem k|f|v]; cbn [orderly] in O; try contradiction; [subst p|subst p|].
  - eapply steps_I; [exact H|]. apply sound_start. exact H.
  - unfold after_event. cbv zeta. eapply steps_nth; [exact H|]. apply sound_start. exact H.
  - apply sound_delete; assumption.
Qed.
Lemma sound_history p raw (l : list (event P V)) : (forall e, In e l -> orderly p e) -> forall d, sound w p raw d -> sound w p raw (history w d l).
Proof.
  induction l as [|e l IH]; intros O d H; [exact H|]. cbn. apply IH; [intros; apply O; right; assumption|]. apply sound_event; [apply O; left; reflexivity|exact H].
Qed.
Lemma sound_source p raw : sound w p raw (only_source raw).
Proof. split; [reflexivity|]. intros []; try (left; reflexivity). right. exists raw. split; reflexivity. Qed.

Lemma prot_sound p raw (l : list (event P V)) : (forall e, In e l -> orderly p e) -> forall f, let d := history w (only_source raw) l in d f = None \/ holds w p raw d f.
Proof. intros O f d. apply (sound_history p raw l O _ (sound_source p raw)). Qed.
Lemma history_snoc d l e : history w d (l ++ [e]) = after_event w (history w d l) e.
Proof. unfold history. rewrite fold_left_app. reflexivity. Qed.
Lemma prot_results p raw (l : list (event P V)) o mem f : (forall e, In e l -> orderly p e) -> par o = p -> snd (start w Compute o mem (history w (only_source raw) l)) = Ok tt ->
  In f (results (detailled o)) -> holds w p raw (history w (only_source raw) (l ++ [Run Compute o mem])) f.
Proof.
  intros O E R F.
  assert (O' : forall e, In e (l ++ [Run Compute o mem]) -> orderly p e).
  { intros e J. apply in_app_iff in J as [J|[<-|[]]]; [auto|exact E]. }
  destruct (prot_sound p raw _ O' f) as [N|H]; [|exact H]. exfalso. rewrite history_snoc in N. revert N. apply (gives_compute w o mem f F). exact R.
Qed.

(** when nothing raises, it finishes *)
Lemma stage_pod o raw s : sound w (par o) raw (dsk s) -> dsk s Cln <> None -> is_ok (expected w (par o) raw Pod) = true -> snd (pod_decomp w o s) = Ok tt.
Proof.
  intros (R & H) N E. unfold pod_decomp, import. destruct (H Cln) as [X|(v & A & B)]; [contradiction|]. rewrite B. unfold calc. cbn in A, E. rewrite A in E. cbn in E.
  destruct (w_pod w (par o) v); [reflexivity|discriminate E].
Qed.
Lemma stage_rec (o : proto P) (det : bool) raw s : sound w (par o) raw (dsk s) -> dsk s Pod <> None -> is_ok (expected w (par o) raw (if det then RecDet else Rec)) = true -> snd (pod_reconstr w o det s) = Ok tt.
Proof.
  intros (R & H) N E. unfold pod_reconstr, import. destruct (H Pod) as [X|(v & A & B)]; [contradiction|]. rewrite B. unfold calc. cbn in A.
  destruct det; cbn in E; rewrite A in E; cbn in E; (destruct (w_rec w (par o) _ v); [reflexivity|discriminate E]).
Qed.
Lemma stage_traj (o : proto P) mem (det : bool) raw s : memory_moves mem -> sound w (par o) raw (dsk s) -> dsk s (if det then RecDet else Rec) <> None -> is_ok (expected w (par o) raw (if det then TrajDet else Traj)) = true ->
  snd (CP_detection w o mem det s) = Ok tt.
Proof.
  intros M (R & H) N E. unfold CP_detection, import. destruct (H (if det then RecDet else Rec)) as [X|(v & A & B)]; [contradiction|]. rewrite B.
  specialize (M det). unfold thread_limit. destruct (Z.eqb_spec ((fst (mem det) - snd (mem det)) * 2) 0) as [Q|Q]; [lia|]. cbn [guard].
  match goal with |- context [calc (w_traj w (par o) ?n v)] => generalize n end. intro n. unfold calc. rewrite (alike _ n 1%Z).
  destruct det; cbn in A, E; rewrite A in E; cbn in E; (destruct (w_traj w (par o) 1%Z v); [reflexivity|discriminate E]).
Qed.
Lemma stage_prepare o raw s : sound w (par o) raw (dsk s) -> is_ok (expected w (par o) raw Cln) = true -> is_ok (expected w (par o) raw Mean) = true -> snd (prepare_data w o s) = Ok tt.
Proof.
  intros (R & H) E F. unfold prepare_data, import. rewrite R. unfold calc. cbn in E, F. destruct (w_clean w (par o) raw) as [c|]; [|discriminate E]. cbn in F.
  destruct (w_mean w (par o) c); [reflexivity|discriminate F].
Qed.
Lemma seq_intro (m n : prog V) s : snd (m s) = Ok tt -> snd (n (snd (fst (m s)))) = Ok tt -> snd (seq m n s) = Ok tt.
Proof. intros A B. unfold seq. destruct (m s) as [[l t] r]. cbn in A, B. subst r. destruct (n t) as [[l' u] r]. exact B. Qed.
Lemma prot_finishes raw o mem d : sound w (par o) raw d -> memory_moves mem -> (forall f, In f (Mean :: results (detailled o)) -> is_ok (expected w (par o) raw f) = true) ->
  snd (start w Compute o mem d) = Ok tt.
Proof.
  intros S M E. unfold start. set (s0 := mkrun d (threads o)). assert (S0 : sound w (par o) raw (dsk s0)) by exact S. clearbody s0. clear S d.
  assert (E1 := E Mean (or_introl eq_refl)). assert (E2 := E Cln (or_intror (or_introl eq_refl))).
  assert (E3 := E Pod ltac:(cbn; auto)). assert (E4 := E Rec ltac:(cbn; auto)). assert (E5 := E Traj ltac:(cbn; auto 6)).
  pose proof (fun d f v => sound_put o raw d f v) as IP.
  assert (KT : forall (det : bool) s, sound w (par o) raw (dsk s) -> dsk s (if det then RecDet else Rec) <> None -> is_ok (expected w (par o) raw (if det then TrajDet else Traj)) = true -> snd (CP_detection w o mem det s) = Ok tt)
    by (intros; eapply stage_traj; eauto).
  assert (KR : forall s, sound w (par o) raw (dsk s) -> dsk s Pod <> None -> snd (seq (pod_reconstr w o false) (CP_detection w o mem false) s) = Ok tt).
  { intros s A B. pose proof (stage_rec o false raw s A B E4) as C. apply seq_intro; [exact C|]. apply KT; [|apply (gives_rec w o false s C)|exact E5].
    eapply steps_I; [exact A|]. apply (safe_rec w o _ IP false s A). }
  assert (KP : forall s, sound w (par o) raw (dsk s) -> dsk s Cln <> None -> snd (seq (pod_decomp w o) (seq (pod_reconstr w o false) (CP_detection w o mem false)) s) = Ok tt).
  { intros s A B. pose proof (stage_pod o raw s A B E3) as C. apply seq_intro; [exact C|]. apply KR; [|apply (gives_pod w o s C)].
    eapply steps_I; [exact A|]. apply (safe_pod w o _ IP s A). }
  assert (KC : forall s, sound w (par o) raw (dsk s) -> snd (seq (prepare_data w o) (seq (pod_decomp w o) (seq (pod_reconstr w o false) (CP_detection w o mem false))) s) = Ok tt).
  { intros s A. pose proof (stage_prepare o raw s A E2 E1) as C. apply seq_intro; [exact C|]. apply KP; [|apply (gives_prepare w o s C)].
    eapply steps_I; [exact A|]. apply (safe_prepare w o _ IP s A). }
  assert (KF : snd (compute_everything w (mkproto (par o) false (threads o)) mem s0) = Ok tt).
  { unfold compute_everything. cbn [detailled]. apply seq_intro; [|reflexivity]. unfold there.
    destruct (dsk s0 Cln) eqn:X1; [|apply KC; exact S0].
    destruct (dsk s0 Pod) eqn:X2; [|apply KP; [exact S0|congruence]].
    destruct (dsk s0 Rec) eqn:X3; [|apply KR; [exact S0|congruence]].
    destruct (dsk s0 Traj) eqn:X4; [reflexivity|apply (KT false); [exact S0|congruence|exact E5]]. }
  destruct (detailled o) eqn:D.
  2:{ unfold compute_everything in *. rewrite D. exact KF. }
  assert (E6 := E RecDet ltac:(cbn; auto 9)). assert (E7 := E TrajDet ltac:(cbn; auto 9)).
  unfold compute_everything in KF. cbn [detailled] in KF. unfold compute_everything. rewrite D.
  match type of KF with snd (seq ?a ?b s0) = _ => set (first_part := a) in * end.
  change (seq first_part skip) with (seq first_part (@skip V)) in KF.
  apply seq_ok in KF as (t & A & T & _ & _ & _).
  match goal with |- snd (seq ?a ?b s0) = _ => change a with first_part end.
  assert (SP : forall s, sound w (par o) raw (dsk s) -> steps (sound w (par o) raw) (dsk s) (trace (first_part s)) (final (first_part s))).
  { intros s B. revert s B. repeat first [apply safe_there|apply safe_seq]; first [apply safe_prepare|apply safe_pod|apply safe_rec|apply safe_traj|apply safe_skip]; exact IP. }
  assert (GP : final (first_part s0) Pod <> None).
  { pose proof (gives_compute w (mkproto (par o) false (threads o)) mem Pod ltac:(cbn; auto) s0) as G.
    unfold compute_everything in G. cbn [detailled] in G. change (gives (seq first_part skip) Pod) in G || idtac.
    assert (Q : snd (seq first_part skip s0) = Ok tt) by (apply seq_intro; [exact A|reflexivity]).
    specialize (G Q). unfold final in G |- *.
    assert (Z : snd (fst (seq first_part skip s0)) = snd (fst (first_part s0))).
    { unfold seq. destruct (first_part s0) as [[l u] r]. cbn in A. subst r. reflexivity. }
    change (dsk (snd (fst (seq first_part skip s0))) Pod <> None) in G. rewrite Z in G. exact G. }
  apply seq_intro; [exact A|].
  assert (St : sound w (par o) raw (dsk (snd (fst (first_part s0))))) by (eapply steps_I; [exact S0|apply SP; exact S0]).
  fold (final (first_part s0)) in St |- *. change (final (first_part s0)) with (dsk (snd (fst (first_part s0)))) in GP.
  set (s1 := snd (fst (first_part s0))) in *. unfold there.
  destruct (dsk s1 RecDet) eqn:X1.
  - destruct (dsk s1 TrajDet) eqn:X2; [reflexivity|]. apply (KT true); [exact St|congruence|exact E7].
  - pose proof (stage_rec o true raw s1 St GP E6) as C. apply seq_intro; [exact C|]. apply (KT true); [|apply (gives_rec w o true s1 C)|exact E7].
    eapply steps_I; [exact St|]. apply (safe_rec w o _ IP true s1 St).
Qed.
End Sound.
