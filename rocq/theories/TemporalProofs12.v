(** * TemporalProofs12: sums and products of series *)
From Verif Require Import Num Res ListLib SortLib Arr FieldModel ScalarFieldModel VectorFieldModel ProfileModel FieldSpec SeqSpec
  FieldProofs RotateProofs FieldProofs2 ScalarProofs FieldProofs3 PointsModel PointsSpec PointsProofs5 PointsProofs6 TemporalModel TemporalSpec
  TemporalProofs TemporalProofs2 TemporalProofs3 TemporalProofs5 TemporalProofs6 TemporalProofs7 TemporalProofs8.
From Coq Require Import Lia Permutation.

Lemma add_all_perm {F} (ops : fops F) asort u g l : is_argsort asort -> (0 < sc u)%num -> (forall p, In p l -> o_grid ops (fst p) = g) ->
  forall t, tf_ok t -> tff t = [] \/ (u = tfu t /\ g = tfg t) -> l <> [] ->
  exists t', add_all ops asort t (map (fun p => (fst p, snd p, u)) l) = (t', None) /\ tf_ok t' /\ tfu t' = u /\ tfg t' = g /\
    Permutation (frames t') (map (fun p => (snd p, fst p)) l ++ frames t).
Proof.
  intros AS GU. induction l as [|[f x] l IH]; intros HG t O U NE; [congruence|]. cbn [map add_all fst snd].
  assert (Gf : o_grid ops f = g) by (apply (HG (f, x)); now left).
  destruct (tf_add_lemma ops asort t f x u AS O GU) as (t1 & E1 & O1 & U1 & G1 & P1).
  { destruct U as [U|[U V]]; [now left|right; split; [exact U|congruence]]. }
  rewrite E1. destruct l as [|q l].
  - cbn [map add_all]. exists t1. split; [reflexivity|]. split; [exact O1|]. split; [exact U1|]. split; [congruence|]. cbn. exact P1.
  - destruct (IH (fun p H => HG p (or_intror H)) t1 O1) as (t' & E & O' & U' & G' & P'); [right; split; congruence|congruence|].
    exists t'. split; [exact E|]. split; [exact O'|]. split; [exact U'|]. split; [exact G'|].
    etransitivity; [exact P'|]. etransitivity; [apply Permutation_app_head; exact P1|]. cbn [map app fst snd].
    symmetry. apply (Permutation_middle ((snd q, fst q) :: map (fun p => (snd p, fst p)) l) (frames t) (x, f)).
Qed.
Lemma tf_mul_num_lemma {F} (ops : fops F) asort t c g : is_argsort asort -> tff t <> [] -> (forall f, In f (tff t) -> o_grid ops (o_muln ops f c) = g) ->
  exists t', tf_mul_num ops asort t c = Ok t' /\ tf_ok t' /\ Permutation (frames t') (map (fun f => (0%num, o_muln ops f c)) (tff t)).
Proof.
  intros AS NE HG. unfold tf_mul_num.
  destruct (add_all_perm ops asort one_unit g (map (fun f => (o_muln ops f c, 0%num)) (tff t)) AS eq_refl) with (t := @tf_new F) as (t' & E & O & _ & _ & P).
  - intros p H. apply in_map_iff in H. destruct H as (f & <- & If). cbn. now apply HG.
  - split; [reflexivity|]. intros a b _ Hb. cbn in Hb. lia.
  - now left.
  - destruct (tff t); [congruence|discriminate].
  - rewrite map_map in E. cbn [fst snd] in E. exists t'. rewrite E. cbn [out_res]. split; [reflexivity|]. split; [exact O|].
    rewrite map_map in P. cbn [fst snd] in P. unfold frames in P at 2. cbn in P. rewrite app_nil_r in P. exact P.
Qed.
(** times all 0 *)
Lemma tf_mul_times {F} (ops : fops F) asort t c g : is_argsort asort -> tff t <> [] -> (forall f, In f (tff t) -> o_grid ops (o_muln ops f c) = g) ->
  exists t', tf_mul_num ops asort t c = Ok t' /\ tfu t' = one_unit /\ (forall x, In x (tft t') -> x = 0%num) /\ length (tft t') = length (tff t).
Proof.
  intros AS NE HG. unfold tf_mul_num.
  destruct (add_all_perm ops asort one_unit g (map (fun f => (o_muln ops f c, 0%num)) (tff t)) AS eq_refl) with (t := @tf_new F) as (t' & E & O & U & _ & P).
  - intros p H. apply in_map_iff in H. destruct H as (f & <- & If). cbn. now apply HG.
  - split; [reflexivity|]. intros a b _ Hb. cbn in Hb. lia.
  - now left.
  - destruct (tff t); [congruence|discriminate].
  - rewrite map_map in E. cbn [fst snd] in E. exists t'. rewrite E. cbn [out_res]. split; [reflexivity|]. split; [exact U|].
    rewrite map_map in P. cbn [fst snd] in P. unfold frames in P at 2. cbn in P. rewrite app_nil_r in P. destruct O as [L S0].
    assert (LP := Permutation_length P). unfold frames in LP. rewrite combine_length, map_length in LP. split; [|lia].
    intros x Hx. apply In_nth_error in Hx. destruct Hx as (k & Hk). pose proof (nth_error_Some_lt _ _ _ Hk).
    destruct (nth_error (tff t') k) as [f|] eqn:Ef; [|apply nth_error_None in Ef; lia].
    assert (In (x, f) (frames t')) by (eapply nth_error_In; apply frames_nth; split; eauto).
    apply (Permutation_in _ P) in H0. apply in_map_iff in H0. destruct H0 as (h & Eh & _). congruence.
Qed.
Lemma tf_plus_same_sf asort t s : sf_series_ok t -> tf_ok t -> sf_series_ok s -> tf_ok s -> tft s = tft t -> tfg s = tfg t ->
  (forall f h, In f (tff t) -> In h (tff s) -> dim (uv f) = dim (uv h)) ->
  exists t', tf_plus sf_ops asort t s = Ok t' /\ tf_ok t' /\ one_grid sf_ops t' /\ tfu t' = tfu t /\ tft t' = tft t /\
    Forall2 (fun p c => sf_add (fst p) (snd p) = Ok c) (combine (tff t) (tff s)) (tff t').
Proof.
  intros (_ & OG & FO & _) [L S0] (_ & OG' & FO' & _) [L' S0'] ET EG DM. unfold tf_plus. rewrite ET, list_eqb_refl.
  assert (Nat.ltb (length (tff s)) (length (tff t)) = false) as -> by (apply Nat.ltb_ge; rewrite <- L, <- L', ET; lia). cbn [guard].
  assert (HD : forall p, In p (combine (tff t) (tff s)) -> exists c, sf_add (fst p) (snd p) = Ok c /\ sg c = tfg t).
  { intros [f h] H. pose proof (in_combine_l _ _ _ _ H) as If. pose proof (in_combine_r _ _ _ _ H) as Ih.
    destruct (FO f If) as (W & C & U). destruct (sf_add_cells f h) as (c & k & E & _ & G & _); auto.
    - transitivity (tfg s); [now apply OG'|]. rewrite EG. symmetry. now apply OG.
    - exists c. split; [exact E|]. rewrite G. now apply OG. }
  destruct (mapM_total (fun p => o_add sf_ops (fst p) (snd p)) (combine (tff t) (tff s))) as (cs & E).
  { intros p Hp. destruct (HD p Hp) as (c & Ec & _). exists c. exact Ec. }
  rewrite E. cbn [bind]. pose proof (proj1 (mapM_forall2 _ _ _) E) as FF. pose proof (Forall2_len _ _ _ FF) as LL. rewrite combine_length in LL.
  eexists. split; [reflexivity|]. split; [split; cbn; [rewrite <- LL, <- L, <- L', ET; lia|exact S0]|]. split.
  - intros c Ic. cbn in *. destruct (Forall2_in_r _ _ _ _ FF Ic) as (p & Ip & Ep). destruct (HD p Ip) as (c' & Ec & Gc). cbn in Ep. rewrite Ep in Ec. injection Ec as ->. exact Gc.
  - split; [reflexivity|]. split; [reflexivity|]. exact FF.
Qed.
