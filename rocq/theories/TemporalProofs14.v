(** * TemporalProofs14: fluctuations of a series of vector fields *)
From Verif Require Import Num Res ListLib SortLib Arr FieldModel ScalarFieldModel VectorFieldModel ProfileModel FieldSpec SeqSpec
  FieldProofs RotateProofs FieldProofs2 ScalarProofs FieldProofs3 ProfileSpec ProfileProofs PointsModel PointsSpec PointsProofs5 PointsProofs6 ProfileProofs3 TemporalModel TemporalSpec
  TemporalProofs TemporalProofs2 TemporalProofs3 TemporalProofs5 TemporalProofs6 TemporalProofs7 TemporalProofs8 TemporalProofs10 TemporalSpec2.
From Coq Require Import Lia.

Definition vcells (f : vfield) : Prop := forall i j, i < length (ax (vg f)) -> j < length (ay (vg f)) ->
  (at_ (cx f) i j = None <-> at_ (vmsk f) i j = true) /\ (at_ (cy f) i j = None <-> at_ (vmsk f) i j = true).
Lemma comp_cell (a b : onum) k (ma mb : bool) : (a = None <-> ma = true) -> (b = None <-> mb = true) -> (ma || mb)%bool = false ->
  exists x y, a = Some x /\ b = Some y /\ oadd a (oscale k (oneg b)) = Some (x + - y * k)%num.
Proof.
  intros A B M. apply orb_false_iff in M. destruct M as [-> ->]. destruct a as [x|]; [|destruct A as [A _]; discriminate (A eq_refl)].
  destruct b as [y|]; [|destruct B as [B _]; discriminate (B eq_refl)]. exists x, y. repeat split.
Qed.
Lemma vf_minus f m : vg m = vg f -> dim (vuv f) = dim (vuv m) -> good_unit (vuv f) -> vf_wf f -> vcells f -> vcells m ->
  exists d, vf_plus f (vf_neg m) = Ok d /\ vminus_mean f m d.
Proof.
  intros E D G W C Cm. destruct (vf_add_cells f (vf_neg m) E D G W) as (s & k & Es & Hk & Gs & Us & Ws & V). exists s. split; [exact Es|].
  split; [exact Gs|]. split; [exact Us|]. split; [exact Ws|]. intros i j Hi Hj. destruct (V i j) as (Vm & Vx & Vy). cbn [vf_neg vmsk cx cy amap at_] in Vm, Vx, Vy. split; [exact Vm|].
  intro Hm. rewrite Hm in Vx, Vy. rewrite Vm in Hm. destruct (C i j Hi Hj) as (C1 & C2). specialize (Cm i j). rewrite E in Cm. destruct (Cm Hi Hj) as (D1 & D2). cbn [vf_neg vuv] in Hk.
  destruct (comp_cell _ _ k _ _ C1 D1 Hm) as (x & y & X & Y & Z). destruct (comp_cell _ _ k _ _ C2 D2 Hm) as (x' & y' & X' & Y' & Z').
  split; [exists x, y, (x + - y * k)%num|exists x', y', (x' + - y' * k)%num]; repeat split; try assumption; try congruence; rewrite <- Hk; qring.
Qed.
Lemma vfluct_total comp (m : vfield) i j l l' :
  Forall2 (fun f d => vuv d = vuv f /\ at_ (vmsk d) i j = orb (at_ (vmsk f) i j) (at_ (vmsk m) i j) /\ (at_ (vmsk d) i j = false -> comp_minus comp f m d i j)) l l' ->
  (at_ (comp m) i j = None <-> at_ (vmsk m) i j = true) ->
  match at_ (comp m) i j with
  | None => vavailables comp l' i j = []
  | Some b => (total (vavailables comp l' i j) + qn (length (vavailables comp l i j)) * (b * sc (vuv m)) = total (vavailables comp l i j))%num
  end.
Proof.
  intros FF K. induction FF as [|f d l l' (Ud & Vm & Vv) FF IH].
  - destruct (at_ (comp m) i j); [|reflexivity]. cbn [vavailables flat_map length]. rewrite total_nil, qn0_mul. qring.
  - unfold vavailables in *. cbn [flat_map]. destruct (at_ (comp m) i j) as [b|] eqn:Em.
    + assert (Mm : at_ (vmsk m) i j = false) by (destruct (at_ (vmsk m) i j); [destruct K as [_ K]; discriminate (K eq_refl)|reflexivity]).
      rewrite !app_length, !total_app. rewrite Mm, orb_false_r in Vm. destruct (at_ (vmsk d) i j) eqn:Ed.
      * assert (vavail comp d i j = [] /\ vavail comp f i j = []) as [-> ->] by (unfold vavail; rewrite Ed, <- Vm; now split). cbn [length Nat.add]. rewrite total_nil. rewrite <- IH. qring.
      * destruct (Vv eq_refl) as (a & b' & c & Ea & Eb & Ec & E). rewrite Em in Eb. injection Eb as <-.
        assert (vavail comp d i j = [(c * sc (vuv d))%num] /\ vavail comp f i j = [(a * sc (vuv f))%num]) as [-> ->] by (unfold vavail; rewrite Ed, <- Vm, Ea, Ec; now split). cbn [length Nat.add].
        rewrite !total_cons, !total_nil, <- IH, Ud, E.
        assert (E3 : forall n, (qn (S n) = qn n + 1)%num) by (intro n; unfold qn; rewrite Nat2Z.inj_succ, <- Z.add_1_r, qz_add; reflexivity). rewrite E3. qring.
    + assert (Mm : at_ (vmsk m) i j = true) by (apply K; reflexivity). rewrite IH, app_nil_r. unfold vavail. rewrite Vm, Mm, orb_true_r. reflexivity.
Qed.
(** the frames of the fluctuations, for any class of fields *)
Lemma fluct_run {F} (ops : fops F) asort t nmb m (R : F -> F -> Prop) : is_argsort asort -> tf_ok t -> increasing (tft t) -> good_unit (tfu t) -> tff t <> [] ->
  tf_mean ops t nmb = Ok m -> (forall f, In f (tff t) -> exists d, o_add ops f (o_neg ops m) = Ok d /\ o_grid ops d = tfg t /\ R f d) ->
  exists t', tf_fluct ops asort t nmb = Ok t' /\ tf_ok t' /\ tfg t' = tfg t /\ tfu t' = tfu t /\ each_frame R t t' /\ Forall2 R (tff t) (tff t') /\ tft t' = tft t.
Proof.
  intros AS O I GU NE Em Hf. pose proof O as [L S0].
  assert (Hds : exists ds, Forall2 (fun f d => o_add ops f (o_neg ops m) = Ok d /\ o_grid ops d = tfg t /\ R f d) (tff t) ds).
  { clear -Hf. induction (tff t) as [|f l IH]; [exists []; constructor|]. destruct IH as (ds & H); [intros; apply Hf; now right|].
    destruct (Hf f (or_introl eq_refl)) as (d & Hd). exists (d :: ds). now constructor. }
  destruct Hds as (ds & FF). pose proof (Forall2_len _ _ _ FF) as Lds.
  assert (MM : mapM (fun p => let* d := o_add ops (snd p) (o_neg ops m) in Ok (d, fst p, tfu t)) (tf_iter t) = Ok (map (fun p => (fst p, snd p, tfu t)) (combine ds (tft t)))).
  { apply mapM_forall2. unfold tf_iter. clear -FF L. revert L. generalize (tft t). induction FF as [|f d l l' [R1 _] FF IH]; intros ts L; destruct ts as [|x ts]; try discriminate L; cbn [combine map]; constructor.
    - cbn [fst snd]. rewrite R1. reflexivity.
    - apply IH. now injection L. }
  assert (GD : forall p, In p (combine ds (tft t)) -> o_grid ops (fst p) = tfg t).
  { intros [d x] H. apply in_combine_l in H. destruct (Forall2_in_r _ _ _ _ FF H) as (f & If & _ & Gd & _). exact Gd. }
  assert (M1 : map fst (combine ds (tft t)) = ds) by (rewrite map_fst_combine'; [reflexivity|lia]).
  assert (M2 : map snd (combine ds (tft t)) = tft t) by (rewrite map_snd_combine'; [reflexivity|lia]).
  eexists. split.
  { unfold tf_fluct. rewrite Em. cbn [bind]. rewrite MM. cbn [bind].
    rewrite (add_all_lemma ops asort (tfu t) (tfg t) (combine ds (tft t)) AS GU GD tf_new); cbn [tft tff tf_new app out_res]; [reflexivity| | |now left|].
    - split; [reflexivity|]. intros a b _ Hb. cbn in Hb. lia.
    - now rewrite M2.
    - intro Hn. rewrite Hn in M1. cbn in M1. rewrite <- M1 in Lds. destruct (tff t); [congruence|discriminate Lds]. }
  cbn [tf_new tff tft app]. rewrite M1, M2. split; [split; cbn; [lia|exact S0]|]. split; [reflexivity|]. split; [reflexivity|]. split; [|split; [|reflexivity]].
  - unfold each_frame, frames. cbn [tft tff]. revert L. generalize (tft t). clear -FF. induction FF as [|f d l l' (_ & _ & R1) FF IH]; intros ts L; destruct ts as [|x ts]; try discriminate L; cbn [combine]; constructor; [now split|apply IH; now injection L].
  - cbn [tff]. clear -FF. induction FF as [|f d l l' (_ & _ & R1) FF IH]; constructor; auto.
Qed.
Lemma tf_fluct_vf asort t nmb : is_argsort asort -> vf_series_ok t -> tf_ok t -> increasing (tft t) -> good_unit (tfu t) -> tff t <> [] -> (0 <= nmb)%Z ->
  exists m t', tf_mean vf_ops t nmb = Ok m /\ tf_fluct vf_ops asort t nmb = Ok t' /\ tf_ok t' /\ tfg t' = tfg t /\ tfu t' = tfu t /\
    each_frame (fun f d => vminus_mean f m d) t t' /\
    (forall i j, i < length (ax (tfg t)) -> j < length (ay (tfg t)) ->
       total (vavailables cx (tff t') i j) = 0%num /\ total (vavailables cy (tff t') i j) = 0%num).
Proof.
  intros AS SO O I GU NE NM. destruct (tf_mean_vf t nmb SO NE NM) as (m & Em & Gm & Wm & (f0 & r & E0 & Um) & Hm). destruct SO as (GO & OG & FO & DM).
  assert (Cm : vcells m).
  { intros i j Hi Hj. rewrite Gm in Hi, Hj. destruct (Hm i j Hi Hj) as (_ & H1 & H2). destruct (at_ (vmsk m) i j).
    - destruct (H1 eq_refl) as [-> ->]. split; split; auto.
    - destruct (H2 eq_refl) as ((x & -> & _) & (y & -> & _)). split; split; discriminate. }
  assert (Hf : forall f, In f (tff t) -> exists d, o_add vf_ops f (o_neg vf_ops m) = Ok d /\ o_grid vf_ops d = tfg t /\ vminus_mean f m d).
  { intros f If. destruct (FO f If) as (Wf & Cf & Uf). pose proof (OG f If) as Gf. cbn in Gf. destruct (vf_minus f m) as (d & Ed & Hd); auto.
    - now rewrite Gm.
    - rewrite Um. apply DM; [exact If|rewrite E0; now left].
    - intros i j Hi Hj. now apply vclean_cell.
    - exists d. split; [exact Ed|]. split; [|exact Hd]. destruct Hd as (Gd & _). cbn. congruence. }
  destruct (fluct_run vf_ops asort t nmb m _ AS O I GU NE Em Hf) as (t' & Et & Ot & Gt & Ut & EF & FF & _). exists m, t'. do 6 (split; [assumption|]).
  intros i j Hi Hj. destruct (Hm i j Hi Hj) as (_ & Hm1 & Hm2). destruct (Cm i j) as (C1 & C2); [now rewrite Gm|now rewrite Gm|].
  assert (F1 : Forall2 (fun f d => vuv d = vuv f /\ at_ (vmsk d) i j = orb (at_ (vmsk f) i j) (at_ (vmsk m) i j) /\ (at_ (vmsk d) i j = false -> comp_minus cx f m d i j)) (tff t) (tff t') /\
               Forall2 (fun f d => vuv d = vuv f /\ at_ (vmsk d) i j = orb (at_ (vmsk f) i j) (at_ (vmsk m) i j) /\ (at_ (vmsk d) i j = false -> comp_minus cy f m d i j)) (tff t) (tff t')).
  { split; (eapply Forall2_impl'; [|exact FF]); intros f d If (_ & Ud & _ & V); destruct (V i j) as (A & B); try (rewrite (OG f If : vg f = tfg t); assumption); split; [exact Ud| |exact Ud|]; (split; [exact A|]); intro Md; now destruct (B Md). }
  destruct F1 as (F1 & F2). pose proof (vfluct_total cx m i j _ _ F1 C1) as T1. pose proof (vfluct_total cy m i j _ _ F2 C2) as T2.
  destruct (at_ (vmsk m) i j) eqn:Mm.
  - destruct (Hm1 eq_refl) as (X & Y). rewrite X in T1. rewrite Y in T2. rewrite T1, T2. split; reflexivity.
  - destruct (Hm2 eq_refl) as ((x & X & HX) & (y & Y & HY)). rewrite X in T1. rewrite Y in T2.
    assert (E1 : (x * sc (vuv m) * qn (length (vavailables cx (tff t) i j)) = qn (length (vavailables cx (tff t) i j)) * (x * sc (vuv m)))%num) by qring.
    assert (E2 : (y * sc (vuv m) * qn (length (vavailables cy (tff t) i j)) = qn (length (vavailables cy (tff t) i j)) * (y * sc (vuv m)))%num) by qring. split; qlra.
Qed.
