(** * StabProofs2: the stabilised video and the sequences of calls *)
From Coq Require Import Reals List Bool ZArith Lia Lra.
From Verif Require Import Res FtleModel FtleProofs4 StabModel StabSpec StabProofs.
Import ListNotations.
#[local] Open Scope R_scope.

(** ** the axes *)
Lemma same_length {A} (l : list A) n : (forall k, (k < length l)%nat <-> (k < n)%nat) -> length l = n.
Proof. intro H. pose proof (H (length l)). pose proof (H n). lia. Qed.
Lemma last_nth {A} (l : list A) d : last l d = nth (length l - 1) l d.
Proof.
  induction l as [|a l IH]; [reflexivity|]. destruct l as [|b l]; [reflexivity|].
  change (last (a :: b :: l) d) with (last (b :: l) d). rewrite IH. cbn [length]. rewrite !Nat.sub_succ, !Nat.sub_0_r. reflexivity.
Qed.
Section Axis.
Variables (a h : R) (l : list R).
Hypothesis A : regular_axis a h l.
Lemma axis_step : nth 1 l 0 - nth 0 l 0 = h.
Proof. destruct A as (_ & N & E). rewrite !E by lia. cbn. ring. Qed.
Lemma axis_last : last l 0 = a + (INR (length l) - 1) * h.
Proof. destruct A as (_ & N & E). rewrite last_nth, E by lia. rewrite minus_INR by lia. cbn. ring. Qed.
Lemma axis_first : nth 0 l 0 = a.
Proof. destruct A as (_ & N & E). rewrite E by lia. cbn. ring. Qed.
(** the end of numpy.arange is [g] after the last coordinate *)
Lemma axis_arange b g k : lt k (length (arange (nth 0 l 0 - INR b * h) (last l 0 + INR b * h + g) h)) <-> INR k * h < (INR (length l) - 1 + 2 * INR b) * h + g.
Proof.
  destruct A as (H & _). rewrite arange_length by exact H. rewrite axis_first, axis_last. split; intro; lra.
Qed.
Lemma axis_same b g : 0 < g <= h -> length (arange (nth 0 l 0 - INR b * h) (last l 0 + INR b * h + g) h) = (length l + 2 * b)%nat.
Proof.
  intros [G G']. pose proof A as (H & N & _). apply same_length. intro k. rewrite axis_arange.
  assert (E : INR (length l) - 1 + 2 * INR b = INR (length l + 2 * b) - 1) by (rewrite plus_INR, mult_INR; cbn; ring). rewrite E. split; intro L.
  - apply INR_lt. apply (Rmult_lt_reg_r h); [exact H|]. lra.
  - assert (INR k + 1 <= INR (length l + 2 * b)) by (rewrite <- S_INR; apply le_INR; lia). nra.
Qed.
Lemma axis_longer b g : h < g -> lt (length l + 2 * b) (length (arange (nth 0 l 0 - INR b * h) (last l 0 + INR b * h + g) h)).
Proof.
  intro G. pose proof A as (H & _). rewrite axis_arange. rewrite plus_INR, mult_INR. cbn [INR]. lra.
Qed.
Lemma axis_nth b g k : 0 < g -> (k < length l)%nat -> nth (k + b) (arange (nth 0 l 0 - INR b * h) (last l 0 + INR b * h + g) h) 0 = nth k l 0.
Proof.
  intros G K. pose proof A as (H & N & E). rewrite arange_nth.
  - rewrite axis_first, E, plus_INR by exact K. ring.
  - rewrite axis_arange. assert (INR k + 1 <= INR (length l)) by (rewrite <- S_INR; apply le_INR; lia). rewrite plus_INR. pose proof (pos_INR b). nra.
Qed.
End Axis.

Section S.
Variable found : frame -> nat.
Variable estimate : frame -> frame -> option motion.
Variable smooth : list R -> list R.
Variable pad : border -> nat -> frame -> frame.
Variable warp : border -> matrix -> nat -> nat -> frame -> frame.
Variable md : mode.
Variable obj : video.
Notation compute := (compute_transform found estimate md obj).
Notation smoothing := (smooth_transform smooth).
Notation applying := (apply_transform pad warp obj).
Notation get := (get_stabilized_obj found estimate smooth pad warp md obj).

(** ** the calls depend on the video only *)
Lemma estimates_any l : forall prev n m, snd (estimates found estimate md prev l n) = snd (estimates found estimate md prev l m).
Proof.
  induction l as [|c l IH]; intros prev n m; [reflexivity|]. cbn. destruct (Nat.eqb (found prev) 0); [reflexivity|].
  specialize (IH (match md with Continuous => c | _ => prev end) (S n) (S m)).
  destruct (estimates _ _ _ _ l (S n)) as [? []], (estimates _ _ _ _ l (S m)) as [? []]; cbn in *; congruence.
Qed.
Lemma estimates_count l : forall prev n, snd (estimates found estimate md prev l n) = Ok (match md with Continuous => between estimate prev l | _ => from_first estimate prev l end) \/ exists e, snd (estimates found estimate md prev l n) = Err e.
Proof.
  intros prev n. destruct (estimates found estimate md prev l n) as [n' [ts|e]] eqn:E; [left|right; eexists; reflexivity].
  cbn. f_equal. destruct md; [apply (estimates_continuous _ _ _ _ _ _ _ E)| |]; refine (proj1 (estimates_first _ _ _ _ _ _ _ _ _ E)); discriminate.
Qed.
(** the transforms and the trajectory *)
Definition the_raw : list motion * list motion :=
  match frames obj with
  | [] => ([], [])
  | f :: l => match md with
              | Continuous => (between estimate f l, cumsum still (between estimate f l))
              | _ => (steps still (from_first estimate f l), from_first estimate f l)
              end
  end.
Lemma the_raw_cumsum : snd the_raw = cumsum still (fst the_raw).
Proof. unfold the_raw. destruct (frames obj); [reflexivity|]. destruct md; cbn [fst snd]; [reflexivity| |]; now rewrite cumsum_steps. Qed.
Lemma the_raw_length f l : frames obj = f :: l -> length (fst the_raw) = length l /\ length (snd the_raw) = length l.
Proof.
  intro E. unfold the_raw. rewrite E. destruct md; cbn [fst snd]; rewrite ?cumsum_length, ?steps_length, ?between_length; unfold from_first; rewrite ?map_length; auto.
Qed.
Lemma compute_ok d s s' : compute d s = (s', Ok tt) -> raw s' = Some the_raw /\ smoothed s' = smoothed s /\ stabilized s' = stabilized s /\ md <> OtherMode /\ exists f l, frames obj = f :: l.
Proof.
  unfold compute_transform, the_raw. destruct (frames obj) as [|f l] eqn:Fr; [discriminate|]. destruct (d && _); [discriminate|].
  destruct (estimates found estimate md f l (keypoints s)) as [n [ts|e]] eqn:E; [|discriminate].
  destruct (estimates_count l f (keypoints s)) as [C|[e C]]; rewrite E in C; cbn in C; [injection C as ->|discriminate C].
  destruct md.
  - intro H; injection H as <-. repeat split; try discriminate. eauto.
  - destruct (from_first estimate f l) as [|t ts] eqn:T; [discriminate|]. intro H; injection H as <-. repeat split; try discriminate. eauto.
  - discriminate.
Qed.
Lemma compute_err d s s' e : compute d s = (s', Err e) -> raw s' = raw s /\ smoothed s' = smoothed s /\ stabilized s' = stabilized s.
Proof.
  unfold compute_transform. destruct (frames obj) as [|f l]; [intro H; injection H as <- _; auto|]. destruct (d && _); [intro H; injection H as <- _; auto|].
  destruct (estimates found estimate md f l (keypoints s)) as [n [ts|e']]; [|intro H; injection H as <- _; auto].
  destruct md; [discriminate| |intro H; injection H as <- _; auto]. destruct ts; [intro H; injection H as <- _; auto|discriminate].
Qed.
Lemma compute_same d s t : snd (compute d s) = snd (compute d t).
Proof.
  unfold compute_transform. destruct (frames obj) as [|f l]; [reflexivity|]. destruct (d && _); [reflexivity|].
  pose proof (estimates_any l f (keypoints s) (keypoints t)) as E.
  destruct (estimates found estimate md f l (keypoints s)) as [n [ts|e]], (estimates found estimate md f l (keypoints t)) as [m [us|e']]; cbn in E; try discriminate E; injection E as <-; [|reflexivity].
  destruct md; try reflexivity. now destruct ts.
Qed.
Definition the_smooth : list motion * list motion :=
  let sm := smooth_columns smooth (snd the_raw) in
  (sm, map (fun v => madd (fst v) (msub (fst (snd v)) (snd (snd v)))) (combine (fst the_raw) (combine sm (snd the_raw)))).
Lemma smooth_ok s s' : raw s = Some the_raw -> smoothing s = (s', Ok tt) -> raw s' = raw s /\ smoothed s' = Some the_smooth /\ stabilized s' = stabilized s.
Proof.
  intros Rw. unfold smooth_transform. rewrite Rw, (surjective_pairing the_raw). destruct (Nat.eqb _ 0); [discriminate|]. intro H; injection H as <-.
  cbn [raw smoothed stabilized]. rewrite <- surjective_pairing. repeat split; exact (eq_sym Rw).
Qed.
Lemma smooth_err s s' e : smoothing s = (s', Err e) -> s' = s.
Proof. unfold smooth_transform. destruct (raw s) as [[]|]; [|intro H; now injection H]. destruct (Nat.eqb _ 0); [intro H; now injection H|discriminate]. Qed.
Lemma smooth_same s t : raw s = raw t -> snd (smoothing s) = snd (smoothing t).
Proof. intro E. unfold smooth_transform. rewrite E. destruct (raw t) as [[]|]; [|reflexivity]. now destruct (Nat.eqb _ 0). Qed.
(** the result for the transforms [tr] *)
Definition shown (bt : border) (b : nat) (tr : list motion) : video :=
  mkvideo (new_axe_x obj b) (new_axe_y obj b) (map (fun v => transformed pad warp obj bt b (fst v) (snd v)) (combine (still :: tr) (frames obj))).
Lemma apply_ok bt b s s' sm tr : smoothed s = Some (sm, tr) -> applying bt b s = (s', Ok tt) ->
  raw s' = raw s /\ smoothed s' = smoothed s /\ stabilized s' = Some (shown bt b tr) /\ known bt /\ (length (frames obj) <= S (length tr))%nat.
Proof.
  intros Sm. unfold apply_transform. rewrite Sm. unfold known.
  destruct bt; try discriminate; (destruct (negb _); [discriminate|]); (destruct (Nat.ltb _ _) eqn:L; [discriminate|]); intro H; injection H as <-; apply Nat.ltb_ge in L; cbn [length] in L; cbn [raw smoothed stabilized]; repeat split; try discriminate; try exact L; now rewrite Sm.
Qed.
Lemma apply_err bt b s s' e : applying bt b s = (s', Err e) -> s' = s.
Proof.
  unfold apply_transform. destruct (smoothed s) as [[sm tr]|]; [|intro H; now injection H].
  destruct bt; try (intro H; now injection H); (destruct (negb _); [intro H; now injection H|]); (destruct (Nat.ltb _ _); [intro H; now injection H|discriminate]).
Qed.
Lemma apply_same bt b s t : smoothed s = smoothed t -> snd (applying bt b s) = snd (applying bt b t).
Proof.
  intro E. unfold apply_transform. rewrite E. destruct (smoothed t) as [[sm tr]|]; [|reflexivity].
  destruct bt; try reflexivity; (destruct (negb _); [reflexivity|]); now destruct (Nat.ltb _ _).
Qed.
Lemma get_ok d bt b s s' v : get d bt b s = (s', Ok v) ->
  v = Some (shown bt b (snd the_smooth)) /\ raw s' = Some the_raw /\ smoothed s' = Some the_smooth /\ stabilized s' = v /\ known bt /\ md <> OtherMode /\ (length (frames obj) <= S (length (snd the_smooth)))%nat.
Proof.
  unfold get_stabilized_obj, then_. destruct (compute d s) as [s1 [[]|e]] eqn:E1; [|discriminate].
  destruct (smoothing s1) as [s2 [[]|e]] eqn:E2; [|discriminate]. destruct (applying bt b s2) as [s3 [[]|e]] eqn:E3; [|discriminate].
  intro H; injection H as <- <-. apply compute_ok in E1 as (R1 & S1 & _ & M & _). apply (smooth_ok _ _ R1) in E2 as (R2 & S2 & _).
  rewrite (surjective_pairing the_smooth) in S2. destruct (apply_ok _ _ _ _ _ _ S2 E3) as (R3 & S3 & V3 & B & L).
  repeat split; [exact V3| | |exact B|exact M|exact L]; [now rewrite R3, R2|rewrite S3, S2, <- surjective_pairing; reflexivity].
Qed.
Lemma get_err d bt b s s' e : get d bt b s = (s', Err e) -> stabilized s' = stabilized s.
Proof.
  unfold get_stabilized_obj, then_. destruct (compute d s) as [s1 [[]|e1]] eqn:E1.
  2:{ intro H; injection H as <- _. apply (compute_err _ _ _ _ E1). }
  apply compute_ok in E1 as (R1 & S1 & V1 & M & _).
  destruct (smoothing s1) as [s2 [[]|e2]] eqn:E2.
  2:{ intro H; injection H as <- _. apply smooth_err in E2 as ->. exact V1. }
  apply (smooth_ok _ _ R1) in E2 as (R2 & S2 & V2).
  destruct (applying bt b s2) as [s3 [[]|e3]] eqn:E3; [discriminate|]. intro H; injection H as <- _. apply apply_err in E3 as ->. now rewrite V2.
Qed.
Lemma get_same d bt b s t : snd (get d bt b s) = snd (get d bt b t).
Proof.
  unfold get_stabilized_obj, then_. pose proof (compute_same d s t) as C.
  destruct (compute d s) as [s1 [[]|e1]] eqn:E1, (compute d t) as [t1 [[]|e1']] eqn:F1; cbn in C; try discriminate C; [|now injection C as <-].
  apply compute_ok in E1 as (R1 & _). apply compute_ok in F1 as (Q1 & _).
  pose proof (smooth_same s1 t1) as C2. rewrite R1, Q1 in C2. specialize (C2 eq_refl).
  destruct (smoothing s1) as [s2 [[]|e2]] eqn:E2, (smoothing t1) as [t2 [[]|e2']] eqn:F2; cbn in C2; try discriminate C2; [|now injection C2 as <-].
  apply (smooth_ok _ _ R1) in E2 as (_ & S2 & _). apply (smooth_ok _ _ Q1) in F2 as (_ & P2 & _).
  pose proof (apply_same bt b s2 t2) as C3. rewrite S2, P2 in C3. specialize (C3 eq_refl). rewrite (surjective_pairing the_smooth) in S2, P2.
  destruct (applying bt b s2) as [s3 [[]|e3]] eqn:E3, (applying bt b t2) as [t3 [[]|e3']] eqn:F3; cbn in C3; try discriminate C3; [|now injection C3 as <-].
  destruct (apply_ok _ _ _ _ _ _ S2 E3) as (_ & _ & -> & _). destruct (apply_ok _ _ _ _ _ _ P2 F3) as (_ & _ & -> & _). reflexivity.
Qed.

(** ** histories of calls *)
Definition history (cs : list call) : state := fold_left (fun s c => after found estimate smooth pad warp md obj c s) cs new.
Definition inv (s : state) : Prop :=
  (raw s = None \/ raw s = Some the_raw /\ (exists n, compute false new = (mkstate n (Some the_raw) None None, Ok tt))) /\
  (smoothed s = None \/ smoothed s = Some the_smooth /\ raw s = Some the_raw /\ length (snd the_raw) <> 0%nat).
Lemma compute_false d s s' : compute d s = (s', Ok tt) -> exists n, compute false new = (mkstate n (Some the_raw) None None, Ok tt).
Proof.
  intro E. assert (E' : snd (compute false new) = Ok tt).
  { rewrite (compute_same false new s). revert E. unfold compute_transform. destruct (frames obj) as [|f l]; [discriminate|]. cbn [andb].
    destruct (d && _); [discriminate|]. now intros ->. }
  destruct (compute false new) as [[n r sm st] [[]|e]] eqn:F; [|discriminate E']. apply compute_ok in F as (R & S & V & _). cbn in R, S, V. subst. eauto.
Qed.
Lemma inv_compute d s : inv s -> inv (fst (compute d s)).
Proof.
  intros [I1 I2]. destruct (compute d s) as [s' [[]|e]] eqn:E; cbn [fst].
  - pose proof (compute_false _ _ _ E) as F. apply compute_ok in E as (R & S & _). split; [right; auto|]. destruct I2 as [I2|(I2 & _ & L)]; [left; congruence|right]. rewrite S. auto.
  - apply compute_err in E as (R & S & _). unfold inv. rewrite R, S. auto.
Qed.
Lemma inv_smooth s : inv s -> inv (fst (smoothing s)).
Proof.
  intros [I1 I2]. destruct (smoothing s) as [s' [[]|e]] eqn:E; cbn [fst].
  - destruct I1 as [I1|[I1 F]]; [unfold smooth_transform in E; rewrite I1 in E; discriminate E|].
    assert (L : length (snd the_raw) <> 0%nat). { intro L. unfold smooth_transform in E. rewrite I1, (surjective_pairing the_raw), L in E. discriminate E. }
    apply (smooth_ok _ _ I1) in E as (R & S & _). split; [right|right]; rewrite R; auto.
  - apply smooth_err in E as ->. split; assumption.
Qed.
Lemma inv_apply bt b s : inv s -> inv (fst (applying bt b s)).
Proof.
  intros I. destruct (applying bt b s) as [s' [[]|e]] eqn:E; cbn [fst].
  - destruct (smoothed s) as [[sm tr]|] eqn:Sm; [|unfold apply_transform in E; rewrite Sm in E; discriminate E].
    destruct (apply_ok _ _ _ _ _ _ Sm E) as (R & S & _). unfold inv. rewrite R, S. exact I.
  - apply apply_err in E as ->. exact I.
Qed.
Lemma inv_get d bt b s : inv s -> inv (fst (get d bt b s)).
Proof.
  intro I. unfold get_stabilized_obj, then_. apply (inv_compute d) in I. destruct (compute d s) as [s1 [u|e]]; [|exact I]. cbn [fst] in I.
  apply inv_smooth in I. destruct (smoothing s1) as [s2 [u'|e]]; [|exact I]. cbn [fst] in I. apply (inv_apply bt b) in I. destruct (applying bt b s2) as [s3 [u''|e]]; exact I.
Qed.
Lemma inv_history cs : inv (history cs).
Proof.
  unfold history. assert (I : inv new) by (split; left; reflexivity). revert I. generalize new. induction cs as [|c cs IH]; intros s I; [exact I|].
  cbn [fold_left]. apply IH. destruct c; cbn [after]; [apply inv_compute|apply inv_smooth|apply inv_apply|apply inv_get]; exact I.
Qed.
Lemma apply_history cs bt b s' : applying bt b (history cs) = (s', Ok tt) -> snd (get false bt b new) = Ok (stabilized s').
Proof.
  intro E. destruct (inv_history cs) as [I1 I2].
  destruct I2 as [I2|(I2 & R & L)]; [unfold apply_transform in E; rewrite I2 in E; discriminate E|].
  destruct I1 as [I1|[_ (n & F)]]; [congruence|]. unfold get_stabilized_obj, then_. rewrite F.
  set (s1 := mkstate n (Some the_raw) None None).
  destruct (smoothing s1) as [s2 [[]|e]] eqn:E2.
  2:{ exfalso. revert E2. unfold smooth_transform, s1. cbn [raw]. rewrite (surjective_pairing the_raw). rewrite (proj2 (Nat.eqb_neq _ _) L). discriminate. }
  apply (smooth_ok s1 s2 eq_refl) in E2 as (R2 & S2 & _).
  pose proof (apply_same bt b (history cs) s2) as C. rewrite I2, S2 in C. specialize (C eq_refl). rewrite E in C. cbn in C.
  rewrite (surjective_pairing the_smooth) in I2, S2.
  destruct (applying bt b s2) as [s3 [[]|e]] eqn:E3; [|discriminate C].
  destruct (apply_ok _ _ _ _ _ _ I2 E) as (_ & _ & -> & _). destruct (apply_ok _ _ _ _ _ _ S2 E3) as (_ & _ & V & _). cbn. now rewrite V.
Qed.
Lemma after_stabilized c s : stabilized (after found estimate smooth pad warp md obj c s) = stabilized s \/
  exists bt b v, stabilized (after found estimate smooth pad warp md obj c s) = Some v /\ (c = Apply bt b \/ exists d, c = Get d bt b).
Proof.
  destruct c as [d| |bt b|d bt b]; cbn [after].
  - left. destruct (compute d s) as [s' [[]|e]] eqn:E; [apply compute_ok in E|apply compute_err in E]; cbn; tauto.
  - left. unfold smooth_transform. destruct (raw s) as [[]|]; [|reflexivity]. now destruct (Nat.eqb _ 0).
  - destruct (applying bt b s) as [s' [[]|e]] eqn:E; cbn [fst]; [right|left; now rewrite (apply_err _ _ _ _ _ E)].
    destruct (smoothed s) as [[sm tr]|] eqn:Sm; [|unfold apply_transform in E; rewrite Sm in E; discriminate E].
    destruct (apply_ok _ _ _ _ _ _ Sm E) as (_ & _ & V & _). exists bt, b. eauto.
  - destruct (get d bt b s) as [s' [v|e]] eqn:E; cbn [fst]; [right|left; apply (get_err _ _ _ _ _ _ E)].
    apply get_ok in E as (V & _ & _ & V' & _). exists bt, b. eexists. rewrite V', V. split; [reflexivity|]. right. eauto.
Qed.
End S.
