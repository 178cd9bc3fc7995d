(** * CohProofs: proofs about the coherences of modal fields. *)
From Coq Require Import Lia.
From Verif Require Import Num Res ListLib SortLib Arr FieldModel ScalarFieldModel VectorFieldModel ProfileModel PointsModel PointsSpec TemporalModel GradModel PodModel TurbProofs TurbProofs5
  CohModel CohSpec.

Lemma all_some (l : list onum) : In None l \/ exists ns, l = map Some ns.
Proof.
  induction l as [|[a|] l [I|(ns & ->)]]; [right; now exists []|left; now right|right; now exists (a :: ns)|left; now left|left; now left].
Qed.
Lemma mean_ok a : array_mean a (omean (flatten a)).
Proof.
  destruct (all_some (flatten a)) as [I|(ns & E)]; [rewrite (omean_nan _ I); now left|]. destruct ns as [|n ns]; [rewrite E; right; exact E|].
  destruct (omean_total (n :: ns)) as (v & H & T); [discriminate|]. rewrite E, H. exists (n :: ns). split; [exact E|]. split; [discriminate|exact T].
Qed.
Lemma map_Some_inj (l l' : list num) : map Some l = map Some l' -> l = l'.
Proof. revert l'; induction l as [|a l IH]; intros [|b l'] E; try discriminate; [reflexivity|]. cbn in E. f_equal; [congruence|apply IH; congruence]. Qed.
Lemma mean_unique a k : array_mean a (Some k) -> omean (flatten a) = Some k.
Proof.
  intros (ns & E & N & T). destruct (omean_total ns N) as (v & H & T'). rewrite E, H. f_equal.
  assert (P : qn (length ns) <> 0%num) by (apply qgt_neq, qn_pos; destruct ns; [congruence|cbn; lia]).
  assert (D : (v * qn (length ns) = k * qn (length ns))%num) by congruence. apply (f_equal (fun z => z / qn (length ns))%num) in D.
  unfold Qcdiv in D. rewrite <- !Qcmult_assoc, Qcmult_inv_r, !Qcmult_1_r in D by exact P. exact D.
Qed.
Lemma centred_ok a : lowered a (centred a).
Proof.
  split; [reflexivity|]. split; [reflexivity|]. exists (omean (flatten a)). split; [apply mean_ok|]. intros i j. cbn. now destruct (at_ a i j), (omean (flatten a)).
Qed.
Lemma centred_same a : array_mean a (Some 0%num) -> same_cells a (centred a).
Proof.
  intros H. split; [reflexivity|]. split; [reflexivity|]. intros i j. cbn. rewrite (mean_unique _ _ H). destruct (at_ a i j) as [v|]; cbn; [|reflexivity]. f_equal. qring.
Qed.
Lemma put_lowered f : lowered (values f) (values (sf_put f [centred (values f)])).
Proof.
  split; [reflexivity|]. split; [reflexivity|]. exists (omean (flatten (values f))). split; [apply mean_ok|]. intros i j. cbn [sf_put values raw msk at_ centred amap].
  destruct (at_ (msk f) i j); [reflexivity|]. unfold osub, lift2. now destruct (at_ (raw f) i j), (omean (flatten (values f))).
Qed.
Lemma put_same f : array_mean (values f) (Some 0%num) -> same_cells (values f) (values (sf_put f [centred (values f)])).
Proof.
  intros H. destruct (centred_same _ H) as (_ & _ & S0). split; [reflexivity|]. split; [reflexivity|]. intros i j. specialize (S0 i j).
  cbn [sf_put values raw msk at_] in *. destruct (at_ (msk f) i j) eqn:E; [reflexivity|exact S0].
Qed.
Lemma map_forall2 {A} (R : A -> A -> Prop) (h : A -> A) l : (forall x, In x l -> R x (h x)) -> Forall2 R l (map h l).
Proof. induction l as [|a l IH]; intros H; cbn; constructor; [apply H; now left|apply IH; intros; apply H; now right]. Qed.
Lemma but_set {F} (m : mfield F) l : but_modes m (set_modes m l).
Proof. repeat split. Qed.

Lemma crop_space_evo {F} (M : mops F) m ivx ivy m' : mf_crop_space M m ivx ivy = Ok m' -> mf_times m' = mf_times m /\ mf_evo m' = mf_evo m.
Proof.
  unfold mf_crop_space. destruct (grid_crop (mf_g m) ivx ivy) as [[w g]|]; cbn [bind]; [|discriminate].
  destruct (o_crop (m_ops M) (mf_mean m) ivx ivy); cbn [bind]; [|discriminate]. destruct (mapM _ (mf_modes m)); cbn [bind]; [|discriminate]. intros E. injection E as <-. now split.
Qed.
Lemma crop_evo {F} (M : mops F) m ivx ivy m' : mf_crop M m ivx ivy None = Ok m' -> mf_times m' = mf_times m /\ mf_evo m' = mf_evo m.
Proof.
  unfold mf_crop. cbn [bind]. destruct ivx, ivy; try apply crop_space_evo. intros E. injection E as <-. now split.
Qed.
Section Fresh.
Context {F : Type} (M : mops F) (put : F -> list (arr onum) -> F) (spec : arr onum -> onum) (high : nat -> nat -> num) (tspec : list num -> list profile -> list onum).
Definition fresh (b : cbase F) : Prop := match cb_temp b with None => True | Some v => v = tspec (mf_times (cb b)) (mf_evo (cb b)) end.
Lemma call_fresh b c b' : fresh b -> cb_call M put spec high tspec b c = Ok b' -> fresh b'.
Proof.
  intros H. unfold cb_call. destruct c as [low| |ivx ivy ivt|k r].
  - intros E. injection E as <-. unfold spatial_coherence. destruct (cb_spat b); exact H.
  - intros E. injection E as <-. unfold temporal_coherence. destruct (cb_temp b) eqn:T; [exact H|reflexivity].
  - unfold cb_crop. destruct (mf_crop M (cb b) ivx ivy ivt) as [m|] eqn:C; cbn [bind]; [|discriminate]. intros E. injection E as <-. destruct ivt; [exact I|].
    destruct (crop_evo _ _ _ _ _ C) as [T V]. unfold fresh in *. cbn. destruct (cb_temp b); [|exact I]. rewrite T, V. exact H.
  - unfold cb_crop_base. destruct (crop_base (cb b) k r); cbn [bind]; [|discriminate]. intros E. injection E as <-. exact I.
Qed.
Lemma calls_fresh cs : forall b b', fresh b -> cb_calls M put spec high tspec b cs = Ok b' -> fresh b'.
Proof.
  induction cs as [|c cs IH]; cbn [cb_calls]; intros b b' H E; [injection E as <-; exact H|].
  destruct (cb_call M put spec high tspec b c) as [b1|] eqn:C; cbn [bind] in E; [|discriminate]. exact (IH _ _ (call_fresh _ _ _ H C) E).
Qed.
Lemma fresh_temporal b : fresh b -> snd (temporal_coherence tspec b) = tspec (mf_times (cb b)) (mf_evo (cb b)).
Proof. unfold fresh, temporal_coherence. destruct (cb_temp b); intros H; [exact H|reflexivity]. Qed.
End Fresh.
