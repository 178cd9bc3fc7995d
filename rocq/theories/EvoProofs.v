(** * EvoProofs *)
From Coq Require Import Lia.
From Verif Require Import Num Res ListLib SortLib Arr FieldModel ScalarFieldModel VectorFieldModel ProfileModel FieldSpec SeqSpec FieldProofs FieldProofs2
  TemporalModel TemporalSpec TemporalProofs TemporalProofs8 TemporalProofs10 GradSpec GradProofs GradProofs2 PodModel CloSpec EvoModel EvoSpec.

Section Evo.
Context {S : Type} (evolve : num -> S -> res S) (field : S -> res vfield) (asort : list num -> list nat) (u : unit_t) (dt : num).
Fixpoint times_from (t : num) (n : nat) : list num := match n with 0 => [] | Datatypes.S k => t :: times_from (t + dt)%num k end.
Lemma times_len n : forall t, length (times_from t n) = n.
Proof. induction n as [|n IH]; intro t; [reflexivity|]. cbn. now rewrite IH. Qed.
Lemma times_map n : forall t, times_from t n = map (fun i => (t + qn i * dt)%num) (seq 0 n).
Proof.
  induction n as [|n IH]; intro t; [reflexivity|]. cbn [times_from seq map]. f_equal; [change (qn 0) with (qz 0); qring|]. rewrite IH, <- seq_shift, map_map. apply map_ext. intro i. rewrite qn_S. qring.
Qed.
Lemma frames_add l : forall s fs time t, history (evolve dt) s l -> Forall2 (fun a f => field a = Ok f) l fs ->
  frames evolve field asort u dt (length l) s time t = out_res (add_all vf_ops asort t (map (fun p => (fst p, snd p, u)) (combine fs (times_from time (length l))))).
Proof.
  induction l as [|s' l IH]; intros s fs time t H F; inversion F as [|? f ? fs' E F']; subst; [reflexivity|].
  destruct H as [H1 H2]. cbn [length frames times_from combine map add_all fst snd]. rewrite H1. cbn [bind]. rewrite E. cbn [bind].
  destruct (tf_add vf_ops asort t f time u) as [t' [e|]]; cbn [out_res bind]; [reflexivity|]. now apply IH.
Qed.
Lemma combine_fst {A B} (a : list A) (b : list B) : length a = length b -> map fst (combine a b) = a.
Proof. revert b. induction a as [|x a IH]; intros [|y b] L; try discriminate; [reflexivity|]. cbn in *. f_equal. apply IH. lia. Qed.
Lemma combine_snd {A B} (a : list A) (b : list B) : length a = length b -> map snd (combine a b) = b.
Proof. revert b. induction a as [|x a IH]; intros [|y b] L; try discriminate; [reflexivity|]. cbn in *. f_equal. apply IH. lia. Qed.
Lemma evo_lemma s l f0 fs g : is_argsort asort -> (0 < sc u)%num -> (0 < dt)%num -> history (evolve dt) s l -> field s = Ok f0 -> Forall2 (fun a f => field a = Ok f) l fs ->
  (forall f, In f (f0 :: fs) -> vg f = g) ->
  temporal_field evolve field asort u dt s (length l) = Ok (mktf g (f0 :: fs) true (map (fun i => (qn i * dt)%num) (seq 0 (Datatypes.S (length l)))) u).
Proof.
  intros AS U D H E F G. unfold temporal_field. rewrite E. cbn [bind]. assert (LF : length fs = length l) by (clear - F; induction F; cbn; lia).
  transitivity (out_res (add_all vf_ops asort tf_new (map (fun p => (fst p, snd p, u)) (combine (f0 :: fs) (times_from 0 (Datatypes.S (length l))))))).
  - cbn [times_from combine map add_all fst snd]. destruct (tf_add vf_ops asort tf_new f0 0 u) as [t' [e|]]; cbn [out_res bind]; [reflexivity|]. now apply frames_add.
  - assert (LC : length (f0 :: fs) = length (times_from 0 (Datatypes.S (length l)))) by (rewrite times_len; cbn [length]; lia).
    rewrite (add_all_lemma vf_ops asort u g).
    + rewrite combine_fst, combine_snd by exact LC. cbn [out_res tff tft tf_new app]. rewrite times_map. do 2 f_equal. apply map_ext. intro i. qring.
    + exact AS.
    + exact U.
    + intros p I. apply G. rewrite <- (combine_fst _ _ LC). now apply in_map.
    + split; [reflexivity|]. intros a b _ Hb. cbn in Hb. lia.
    + rewrite combine_snd by exact LC. cbn [tft tf_new app]. rewrite times_map. apply increasing_map_seq. intros i j I _.
      assert (K : (0 < (qn j - qn i) * dt)%num). { apply qmul_pos; [|exact D]. assert (qn i < qn j)%num by (unfold qn; apply qz_lt; lia). qlra. }
      assert ((qn j - qn i) * dt = qn j * dt - qn i * dt)%num by qring. qlra.
    + now left.
    + discriminate.
Qed.
End Evo.

Lemma roundtrip theta f time : grid_ok2 (vg f) -> vf_wf f -> all_shown f ->
  exists r, export_vf (to_vf theta f time) = Ok r /\ ax (vg r) = ax (vg f) /\ ay (vg r) = ay (vg f) /\ vf_wf r /\
    forall i j, i < length (ax (vg f)) -> j < length (ay (vg f)) ->
      at_ (vmsk r) i j = at_ (vmsk f) i j /\ at_ (cx r) i j = seen (at_ (vmsk f) i j) (at_ (cx f) i j) /\ at_ (cy r) i j = seen (at_ (vmsk f) i j) (at_ (cy f) i j).
Proof.
  intros ((IX & IY) & LX & LY) (W1 & W2 & W3) AL. unfold export_vf, to_vf. cbn [b_vx b_vy b_x b_y b_mask].
  destruct (vf_import_plain (ax (vg f)) (ay (vg f)) (atrans (atrans (cx f))) (atrans (atrans (cy f))) (atrans (atrans (vmsk f))) one_unit one_unit one_unit IX IY LX LY W1 W2 W3) as (r & E & (GV & _ & WR) & C).
  exists r. split; [exact E|]. 
  rewrite GV. cbn [ax ay]. split; [reflexivity|]. split; [reflexivity|]. split.
  - exact WR.
  - intros i j I J. specialize (C i j). cbn [atrans at_] in C. destruct C as (C1 & C2 & C3).
    assert (K : (at_ (vmsk f) i j || isnan (at_ (cx f) i j) || isnan (at_ (cy f) i j))%bool = at_ (vmsk f) i j).
    { destruct (at_ (vmsk f) i j) eqn:M; [reflexivity|]. destruct (AL i j I J M) as [A B]. destruct (at_ (cx f) i j); [|contradiction]. destruct (at_ (cy f) i j); [reflexivity|contradiction]. }
    rewrite K in C1, C2, C3. auto.
Qed.

(** ** masks *)
Lemma mask_field x y m u w t : increasing x -> increasing y -> 2 <= length x -> 2 <= length y -> has_shape m (length x) (length y) ->
  exists r, sf_import x y (amap of_bool m) None u w t = Ok r /\ sg r = mkgrid x y u w /\ uv r = t /\ sf_wf r /\ forall i j, at_ (values r) i j = of_bool (at_ m i j) /\ at_ (msk r) i j = false.
Proof.
  intros IX IY LX LY [M0 M1]. rewrite sf_import_none by assumption. eexists. split; [reflexivity|]. cbn [sg uv]. split; [reflexivity|]. split; [reflexivity|]. split.
  - split; split; cbn; assumption.
  - intros i j. split; reflexivity.
Qed.
