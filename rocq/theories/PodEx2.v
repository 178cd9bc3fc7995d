(** * PodEx2: modal bases for the examples and the counterexamples of crop and scale *)
From Verif Require Import Num Res ListLib SortLib Arr FieldModel ScalarFieldModel VectorFieldModel ProfileModel ProfileSpec FieldSpec FieldProofs SeqSpec Concrete
  PointsModel PointsSpec TemporalModel TemporalSpec TemporalEx GradModel PodModel PodSpec PodSpec2 PodProofs PodProofs2 PodProofs6 PodProofs10 PodProofs11 PodProofs12 ScalarProofs PodEx.
From Coq Require Import Lia.

Definition fr3 (a b c d e f : onum) : sfield := sf_of [0; 1; 3]%Z [10; 20]%Z [[a; b]; [c; d]; [e; f]] [[isnan a; isnan b]; [isnan c; isnan d]; [isnan e; isnan f]].
Definition ex_base3 : mfield sfield :=
  mkmf Pod (fr3 (oz 1) (oz 2) (oz 3) (oz 4) (oz 5) (oz 6)) [fr3 (oz 1) None (oz 0) (oz 2) (oz 1) (oz 3); fr3 (oz 0) (oz 1) (oz 1) (oz 0) (oz 7) (oz 7)] [0; 1]%Z
       [pr [1; 2; 3]%Z; pr [0; 1; 0]%Z] (zs [0; 1; 2]%Z) second (mkgrid (zs [0; 1; 3]%Z) (zs [10; 20]%Z) metre metre) metre None None None None None None.
Definition vr3 (a b c d e f : Z) : vfield := vf_of [0; 1; 3]%Z [10; 20]%Z [[oz a; oz b]; [oz c; oz d]; [oz e; oz f]] [[oz f; oz e]; [oz d; oz c]; [oz b; oz a]] [].
Definition ex_base3v : mfield vfield :=
  mkmf Pod (vr3 1 2 3 4 5 6) [vr3 1 4 0 2 1 3; vr3 0 1 1 0 7 7] [0; 1]%Z
       [pr [1; 2; 3]%Z; pr [0; 1; 0]%Z] (zs [0; 1; 2]%Z) second (mkgrid (zs [0; 1; 3]%Z) (zs [10; 20]%Z) metre metre) metre None None None None None None.
Lemma g3_ok : grid_ok2 (mkgrid (zs [0; 1; 3]%Z) (zs [10; 20]%Z) metre metre).
Proof. split; [split; incr|]. cbn. lia. Qed.
Lemma ex_base3_core : base_core ex_base3.
Proof.
  split; [reflexivity|]. split; [discriminate|]. split; [reflexivity|]. split; [reflexivity|]. split; [incr|]. split; [discriminate|].
  intros p I. cbn in I. destruct I as [<-|[<-|[]]]; (split; [now apply pr_ok|reflexivity]).
Qed.
Lemma ex_base3v_core : base_core ex_base3v.
Proof.
  split; [reflexivity|]. split; [discriminate|]. split; [reflexivity|]. split; [reflexivity|]. split; [incr|]. split; [discriminate|].
  intros p I. cbn in I. destruct I as [<-|[<-|[]]]; (split; [now apply pr_ok|reflexivity]).
Qed.
Lemma ex_base3_sf : sf_base_ok ex_base3.
Proof.
  split; [exact g3_ok|]. split; [reflexivity|]. split; [reflexivity|]. split; [repeat split|]. split; [|reflexivity].
  intros f I. cbn in I. destruct I as [<-|[<-|[]]]; (split; [reflexivity|repeat split]).
Qed.
Lemma ex_base3v_vf : vf_base_ok ex_base3v.
Proof.
  split; [exact g3_ok|]. split; [reflexivity|]. split; [reflexivity|]. split; [repeat split|]. split; [|reflexivity].
  intros f I. cbn in I. destruct I as [<-|[<-|[]]]; (split; [reflexivity|repeat split]).
Qed.
Lemma ex_base3_two : keeps_two (ax (mf_g ex_base3)) (Some (qq 1 2, qz 3)) /\ keeps_two (ay (mf_g ex_base3)) None.
Proof.
  split.
  - exists 1. cbn. split; [lia|]. split; split; apply qleb_le; vmr.
  - exists 0. cbn. auto.
Qed.
Lemma ex_base3_ut : forall p, In p (mf_evo ex_base3) -> pux p = mf_ut ex_base3.
Proof. intros p I. cbn in I. destruct I as [<-|[<-|[]]]; reflexivity. Qed.
Lemma ex_window : (exists x, In x (mf_times ex_base3) /\ in_window (nths (mf_times ex_base3) 0) (qq 1 2) (qz 2) x = true) /\
  ((nths (mf_times ex_base3) 0 < qz 2)%num \/ (last (mf_times ex_base3) (qz 0) <= qz 2)%num).
Proof. split; [|left; apply qltb_lt; vmr]. exists (qz 1). split; [cbn; auto|vmr]. Qed.
(** the crop in space, the crop in time and the scale of the base, computed *)
Lemma ex_crop3 : exists mf' t', mf_crop sf_mops ex_base3 (Some (qq 1 2, qz 3)) None (Some (qq 1 2, qz 2)) = Ok mf' /\ mf_times mf' = zs [1; 2]%Z /\ ax (mf_g mf') = zs [1; 3]%Z /\
  reconstruct sf_mops argsort mf' WAll None = Ok t' /\ map (fun f => at_ (values f) 0 1) (tff t') = map oz [8; 10]%Z.
Proof.
  destruct (ok_ex (let* m := mf_crop sf_mops ex_base3 (Some (qq 1 2, qz 3)) None (Some (qq 1 2, qz 2)) in let* t := reconstruct sf_mops argsort m WAll None in Ok (m, t))
    (fun r => (list_eqb (mf_times (fst r)) (zs [1; 2]%Z) && list_eqb (ax (mf_g (fst r))) (zs [1; 3]%Z) && oseqb (map (fun f => at_ (values f) 0 1) (tff (snd r))) (map oz [8; 10]%Z))%bool)) as ((m & t) & E & H); [vmr|].
  apply bind_ok in E. destruct E as (m' & E1 & E). apply bind_ok in E. destruct E as (t' & E2 & E). injection E as -> ->. cbn [fst snd] in H. apply andb_true_iff in H. destruct H as (H & H3). apply andb_true_iff in H. destruct H as (H1 & H2).
  apply list_eqb_eq in H1, H2. apply oseqb_eq in H3. exists m, t. auto.
Qed.
Lemma ex_scale3 : exists mf' t', mf_scale sf_mops ex_base3 (SNum (qz 2)) (SUnum (qz 3) metre) (SNum (qq 1 2)) (SUnum (qz (-5)) second) = Ok mf' /\ mf_times mf' = [qz 0; qq 1 2; qz 1] /\
  reconstruct sf_mops argsort mf' WAll None = Ok t' /\ map (fun f => at_ (values f) 1 1) (tff t') = map oz [-30; -40; -50]%Z.
Proof.
  destruct (ok_ex (let* m := mf_scale sf_mops ex_base3 (SNum (qz 2)) (SUnum (qz 3) metre) (SNum (qq 1 2)) (SUnum (qz (-5)) second) in let* t := reconstruct sf_mops argsort m WAll None in Ok (m, t))
    (fun r => (list_eqb (mf_times (fst r)) [qz 0; qq 1 2; qz 1] && oseqb (map (fun f => at_ (values f) 1 1) (tff (snd r))) (map oz [-30; -40; -50]%Z))%bool)) as ((m & t) & E & H); [vmr|].
  apply bind_ok in E. destruct E as (m' & E1 & E). apply bind_ok in E. destruct E as (t' & E2 & E). injection E as -> ->. cbn [fst snd] in H. apply andb_true_iff in H. destruct H as (H1 & H3).
  apply list_eqb_eq in H1. apply oseqb_eq in H3. exists m, t. auto.
Qed.
(** bounds on a time of the base *)
Lemma ex_bound_lost : exists mf', mf_crop sf_mops ex_base3 None None (Some (qz 1, qz 2)) = Ok mf' /\ mf_times ex_base3 = zs [0; 1; 2]%Z /\ mf_times mf' = zs [2]%Z /\
  mf_crop sf_mops ex_base3 None None (Some (qz (-1), qz 0)) = Err ValueErr /\ mf_crop sf_mops ex_base3 None None (Some (qz 2, qz 3)) = Err ValueErr.
Proof.
  destruct (ok_ex (mf_crop sf_mops ex_base3 None None (Some (qz 1, qz 2))) (fun r => list_eqb (mf_times r) (zs [2]%Z))) as (m & E & H); [vmr|]. apply list_eqb_eq in H.
  exists m. split; [exact E|]. split; [reflexivity|]. split; [exact H|]. split; vmr.
Qed.
