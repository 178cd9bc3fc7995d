(** * TurbEx: series of vector fields on which the turbulence statistics are computed *)
From Coq Require Import Lia.
From Verif Require Import Num Res ListLib SortLib Arr FieldModel ScalarFieldModel VectorFieldModel FieldSpec SeqSpec PointsModel PointsSpec
  TemporalModel TemporalSpec ProfileModel ProfileSpec Concrete TemporalEx TurbModel TurbSpec.

(** two frames given in metres and millimetres *)
Definition mixed_frame (a : onum) (u : unit_t) : vfield :=
  let f := vf_of [0; 1]%Z [10; 20]%Z [[a; a]; [a; a]] [[a; a]; [a; a]] [[false; false]; [false; false]] in mkvf (vg f) (cx f) (cy f) (vmsk f) u.
Definition ex_mixed : tfield vfield := mktf g22 [mixed_frame (oz 1) metre; mixed_frame (oz 3000) millimetre] true (zs [0; 1]%Z) second.
(** two frames without masked value *)
Definition ex_plain : tfield vfield := mktf g22 [mixed_frame (oz 2) metre; mixed_frame (oz (-3)) metre] true (zs [0; 1]%Z) second.
Lemma ex_mixed_ok : tf_ok ex_mixed /\ increasing (tft ex_mixed).
Proof. assert (I : increasing (tft ex_mixed)) by incr. split; [|exact I]. split; [reflexivity|]. now apply increasing_nondecreasing. Qed.
Lemma ex_mixed_series : vf_series_ok ex_mixed.
Proof.
  split; [exact g22_ok|]. split; [each_frame_tac; reflexivity|]. split.
  - each_frame_tac; (split; [repeat split|split; [apply vclean_b_ok; reflexivity|reflexivity]]).
  - intros f h I. revert f I h. each_frame_tac; each_frame_tac; reflexivity.
Qed.
Lemma ex_plain_ok : tf_ok ex_plain /\ increasing (tft ex_plain).
Proof. assert (I : increasing (tft ex_plain)) by incr. split; [|exact I]. split; [reflexivity|]. now apply increasing_nondecreasing. Qed.
Lemma ex_plain_series : vf_series_ok ex_plain.
Proof.
  split; [exact g22_ok|]. split; [each_frame_tac; reflexivity|]. split.
  - each_frame_tac; (split; [repeat split|split; [apply vclean_b_ok; reflexivity|reflexivity]]).
  - intros f h I. revert f I h. each_frame_tac; each_frame_tac; reflexivity.
Qed.
Lemma ex_plain_unmasked : forall f, In f (tff ex_plain) -> nothing_masked f.
Proof. each_frame_tac; intros i j Hi Hj; cbn in Hi, Hj; (destruct i as [|[|i]]; [| |lia]); (destruct j as [|[|j]]; [| |lia]); reflexivity. Qed.
Lemma ex_tv_unit : one_unit_for ex_tv metre.
Proof. each_frame_tac; reflexivity. Qed.
Definition omb (v : onum) (x : num) : bool := match v with Some y => qeqb x y | None => false end.
Lemma omb_eq v x : omb v x = true -> v = Some x.
Proof. unfold omb. destruct v as [y|]; [|discriminate]. destruct (qeqb_spec x y); [congruence|discriminate]. Qed.
Fixpoint nums_eqb (l m : list num) : bool := match l, m with [], [] => true | a :: l, b :: m => (qeqb a b && nums_eqb l m)%bool | _, _ => false end.
Lemma nums_eqb_eq l m : nums_eqb l m = true -> l = m.
Proof.
  revert m. induction l as [|a l IH]; intros [|b m] H; try discriminate H; [reflexivity|]. cbn in H. apply andb_true_iff in H. destruct H as (H1 & H2). f_equal; [|now apply IH].
  destruct (qeqb_spec a b); congruence.
Qed.

(** the products of the fluctuations are 1 m2 in both frames; the stress is said to be 500000.5 m2 *)
Lemma ex_mixed_stress : exists m xx yy xy, tf_mean vf_ops ex_mixed 1 = Ok m /\ reynolds argsort ex_mixed 1 = Ok (xx, yy, xy) /\ at_ (msk xx) 0 0 = false /\
  dev_products cx cx m (tff ex_mixed) 0 0 = [1%num; 1%num] /\ sc (uv xx) = 1%num /\ at_ (values xx) 0 0 = Some (qq 1000001 2) /\
  ~ average_of (dev_products cx cx m (tff ex_mixed) 0 0) (uv xx) (at_ (values xx) 0 0).
Proof.
  destruct (ok_ex (tf_mean vf_ops ex_mixed 1) (fun m => nums_eqb (dev_products cx cx m (tff ex_mixed) 0 0) [1%num; 1%num])) as (m & Em & Hm); [vmr|]. apply nums_eqb_eq in Hm.
  destruct (ok_ex (reynolds argsort ex_mixed 1) (fun r => let '(xx, _, _) := r in (negb (at_ (msk xx) 0 0) && qeqb (sc (uv xx)) 1%num && omb (at_ (values xx) 0 0) (qq 1000001 2))%bool)) as (((xx & yy) & xy) & Er & Hr); [vmr|].
  apply andb_true_iff in Hr. destruct Hr as (Hr & H3). apply andb_true_iff in Hr. destruct Hr as (H1 & H2). apply negb_true_iff in H1. apply omb_eq in H3.
  assert (U : sc (uv xx) = 1%num) by (destruct (qeqb_spec (sc (uv xx)) 1%num); congruence).
  exists m, xx, yy, xy. split; [exact Em|]. split; [exact Er|]. split; [exact H1|]. split; [exact Hm|]. split; [exact U|]. split; [exact H3|]. rewrite Hm, H3. intros (x & Ex & Hx). injection Ex as <-. rewrite U in Hx. discriminate Hx.
Qed.
(** stresses, kinetic energies of the masked series of TemporalEx *)
Lemma ex_tv_stress : exists xx yy xy, reynolds argsort ex_tv 1 = Ok (xx, yy, xy) /\ at_ (msk xx) 1 0 = false /\ at_ (values xx) 1 0 = Some 1%num /\ at_ (values xy) 0 0 = Some (qq 16 3) .
Proof.
  destruct (ok_ex (reynolds argsort ex_tv 1) (fun r => let '(xx, _, xy) := r in (negb (at_ (msk xx) 1 0) && omb (at_ (values xx) 1 0) 1%num && omb (at_ (values xy) 0 0) (qq 16 3))%bool)) as (((xx & yy) & xy) & Er & Hr); [vmr|].
  apply andb_true_iff in Hr. destruct Hr as (Hr & H3). apply andb_true_iff in Hr. destruct Hr as (H1 & H2). apply negb_true_iff in H1. apply omb_eq in H2, H3. exists xx, yy, xy. auto.
Qed.
