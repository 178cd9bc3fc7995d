(** * TemporalProofs10: fluctuations, recurrence maps, extrema and time profiles *)
From Verif Require Import Num Res ListLib SortLib Arr FieldModel ScalarFieldModel VectorFieldModel ProfileModel FieldSpec SeqSpec
  FieldProofs RotateProofs FieldProofs2 ScalarProofs FieldProofs3 ProfileSpec ProfileProofs PointsModel PointsSpec PointsProofs5 PointsProofs6 ProfileProofs3 TemporalModel TemporalSpec
  TemporalProofs TemporalProofs2 TemporalProofs3 TemporalProofs5 TemporalProofs6 TemporalProofs7 TemporalProofs8.
From Coq Require Import Lia.

(** ** Fluctuations *)
Lemma map_fst_combine' {A B} (a : list A) (b : list B) : length a = length b -> map fst (combine a b) = a.
Proof. revert b. induction a as [|x a IH]; intros [|y b] L; try discriminate L; cbn; [reflexivity|]. f_equal. apply IH. now injection L. Qed.
Lemma map_snd_combine' {A B} (a : list A) (b : list B) : length a = length b -> map snd (combine a b) = b.
Proof. revert b. induction a as [|x a IH]; intros [|y b] L; try discriminate L; cbn; [reflexivity|]. f_equal. apply IH. now injection L. Qed.
Lemma app_mid {A} (a : list A) x b : a ++ x :: b = (a ++ [x]) ++ b.
Proof. now rewrite <- app_assoc. Qed.
Lemma add_all_lemma {F} (ops : fops F) asort u g l : is_argsort asort -> (0 < sc u)%num -> (forall p, In p l -> o_grid ops (fst p) = g) ->
  forall t, tf_ok t -> increasing (tft t ++ map snd l) -> tff t = [] \/ (u = tfu t /\ g = tfg t) -> l <> [] ->
  add_all ops asort t (map (fun p => (fst p, snd p, u)) l) = (mktf g (tff t ++ map fst l) true (tft t ++ map snd l) u, None).
Proof.
  intros AS GU. induction l as [|[f x] l IH]; intros HG t O I U NE; [congruence|]. cbn [map add_all fst snd].
  assert (Gf : o_grid ops f = g) by (apply (HG (f, x)); now left).
  assert (I1 : increasing (tft t)). { intros a b Hab Hb. specialize (I a b Hab). rewrite app_length in I. rewrite !app_nth1 in I by lia. apply I. lia. }
  rewrite (tf_add_last ops asort t f x u AS O I1 GU).
  - rewrite Gf. destruct l as [|q l]; [cbn [map add_all]; rewrite ?app_nil_r; reflexivity|].
    rewrite IH; cbn [tff tft tfu tfg].
    + cbn [map fst snd]. rewrite <- !app_assoc. reflexivity.
    + intros p Hp. apply HG. now right.
    + destruct O as [L S0]. split; cbn [tff tft]; [rewrite !app_length; cbn; lia|]. apply increasing_nondecreasing.
      intros a b Hab Hb. specialize (I a b Hab). cbn [map snd] in I. rewrite app_length in Hb. cbn in Hb.
      rewrite (app_mid (tft t) x) in I. rewrite !(app_nth1 (tft t ++ [x])) in I by (rewrite app_length; cbn; lia). apply I. rewrite !app_length; cbn; lia.
    + cbn [map snd] in I |- *. now rewrite (app_mid (tft t) x) in I.
    + right; auto.
    + congruence.
  - destruct U as [U|[U1 U2]]; [left; exact U|right; split; [exact U1|congruence]].
  - intros y Hy. apply In_nth_error in Hy. destruct Hy as (k & Hk). pose proof (nth_error_Some_lt _ _ _ Hk). apply nth_error_nths in Hk.
    specialize (I k (length (tft t))). cbn [map snd] in I. rewrite app_nth1, app_nth2, Nat.sub_diag in I by lia. cbn in I. rewrite Hk in I. apply I; [lia|rewrite app_length; cbn; lia].
Qed.

Lemma sf_minus f m : sg m = sg f -> dim (uv f) = dim (uv m) -> good_unit (uv f) -> sf_wf f -> sf_wf m -> sf_clean f -> sf_clean m ->
  exists d, sf_add f (sf_neg m) = Ok d /\ minus_mean f m d.
Proof.
  intros E D G W Wm C Cm. destruct (sf_add_cells f (sf_neg m) E D G W) as (s & k & Es & Hk & Gs & Us & Ws & V). exists s. split; [exact Es|].
  repeat split; try apply Ws; auto.
  - destruct (V i j) as [_ ->]. f_equal. pose proof (clean_cell m i j Cm) as K. rewrite E in K. specialize (K H H0).
    unfold sf_neg. cbn [msk amap at_]. destruct (at_ (values m) i j); cbn in *; [|symmetry; now apply K]. destruct (at_ (msk m) i j); [|reflexivity]. destruct K as [_ K]. discriminate (K eq_refl).
  - intro Hm. destruct (V i j) as [Vr Vm]. pose proof (clean_cell m i j Cm) as K. rewrite E in K. specialize (K H H0). pose proof (clean_cell f i j C H H0) as K'.
    rewrite Vm in Hm. apply orb_false_iff in Hm. destruct Hm as [H1 H2].
    destruct (at_ (values f) i j) as [a|]; [|destruct K' as [K' _]; specialize (K' eq_refl); congruence].
    assert (Nv : at_ (values (sf_neg m)) i j = oneg (at_ (values m) i j)).
    { unfold values at 1. cbn [at_]. rewrite H2. reflexivity. }
    rewrite Nv in Vr.
    assert (Hb : exists b, at_ (values m) i j = Some b).
    { unfold sf_neg in H2. cbn [msk amap at_] in H2. destruct (at_ (values m) i j) as [b|]; [eauto|discriminate H2]. }
    destruct Hb as (b & Eb). exists a, b, (a + - b * k)%num. split; [reflexivity|]. split; [exact Eb|]. rewrite Eb in Vr. cbn in Vr.
    split; [|unfold sf_neg in Hk; cbn [uv] in Hk; rewrite <- Hk; qring].
    unfold values. cbn [at_]. rewrite Vm, H1, H2. cbn [orb]. exact Vr.
Qed.
Lemma fluct_total m i j : sf_clean m -> i < length (ax (sg m)) -> j < length (ay (sg m)) -> forall l l',
  Forall2 (fun f d => minus_mean f m d) l l' -> (forall f, In f l -> sg f = sg m /\ sf_clean f /\ sf_wf f) ->
  match at_ (values m) i j with
  | None => availables l' i j = []
  | Some b => length (availables l' i j) = length (availables l i j) /\
     (total (availables l' i j) + qn (length (availables l i j)) * (b * sc (uv m)) = total (availables l i j))%num
  end.
Proof.
  intros Cm Hi Hj. pose proof (clean_cell m i j Cm Hi Hj) as K. induction 1 as [|f d l l' R FF IH]; intro HF.
  - destruct (at_ (values m) i j); [|reflexivity]. cbn [availables flat_map length]. rewrite total_nil, qn0_mul. split; [reflexivity|qring].
  - destruct (HF f (or_introl eq_refl)) as (Gf & Cf & Wf). specialize (IH (fun f' H => HF f' (or_intror H))).
    destruct R as (Gd & Ud & Wd & V). destruct (V i j) as [Vm Vv]; [congruence|congruence|].
    unfold availables in *. cbn [flat_map]. pose proof (clean_cell f i j Cf) as K'. rewrite Gf in K'. specialize (K' Hi Hj).
    destruct (at_ (values m) i j) as [b|].
    + assert (Mm : at_ (msk m) i j = false) by (destruct (at_ (msk m) i j); [destruct K as [_ K]; discriminate (K eq_refl)|reflexivity]).
      destruct IH as [IH1 IH2]. rewrite !app_length, !total_app. rewrite Mm, orb_false_r in Vm.
      destruct (at_ (msk d) i j) eqn:Ed.
      * assert (avail d i j = [] /\ avail f i j = []) as [-> ->] by (unfold avail; rewrite Ed, <- Vm; now split). cbn [length Nat.add]. rewrite total_nil. split; [exact IH1|]. rewrite <- IH2. qring.
      * destruct (Vv eq_refl) as (a & b' & c & Ea & Eb & Ec & E). injection Eb as <-.
        assert (avail d i j = [(c * sc (uv d))%num] /\ avail f i j = [(a * sc (uv f))%num]) as [-> ->] by (unfold avail; rewrite Ed, <- Vm, Ea, Ec; now split). cbn [length Nat.add].
        split; [congruence|]. rewrite !total_cons, !total_nil, <- IH2, Ud, E.
        assert (E3 : forall n, (qn (S n) = qn n + 1)%num) by (intro n; unfold qn; rewrite Nat2Z.inj_succ, <- Z.add_1_r, qz_add; reflexivity). rewrite E3. qring.
    + assert (Mm : at_ (msk m) i j = true) by (apply K; reflexivity). rewrite IH, app_nil_r. unfold avail. rewrite Vm, Mm, orb_true_r. reflexivity.
Qed.
Lemma tf_fluct_sf asort t nmb : is_argsort asort -> sf_series_ok t -> tf_ok t -> increasing (tft t) -> good_unit (tfu t) -> tff t <> [] -> (0 <= nmb)%Z ->
  exists m t', tf_mean sf_ops t nmb = Ok m /\ tf_fluct sf_ops asort t nmb = Ok t' /\ tf_ok t' /\ tfg t' = tfg t /\ tfu t' = tfu t /\
    each_frame (fun f d => minus_mean f m d) t t' /\
    (forall i j, i < length (ax (tfg t)) -> j < length (ay (tfg t)) -> total (availables (tff t') i j) = 0%num).
Proof.
  intros AS SO O I GU NE NM. destruct (tf_mean_sf t nmb SO NE NM) as (m & Em & Gm & Wm & Cm & (f0 & r & E0 & Um) & Hm). destruct SO as (GO & OG & FO & DM).
  assert (Hf : forall f, In f (tff t) -> exists d, sf_add f (sf_neg m) = Ok d /\ minus_mean f m d).
  { intros f If. destruct (FO f If) as (Wf & Cf & Uf). apply sf_minus; auto; [transitivity (tfg t); [exact Gm|symmetry; now apply OG]|]. rewrite Um. apply DM; [exact If|rewrite E0; now left]. }
  pose proof O as [L S0].
  assert (Hds : exists ds, Forall2 (fun f d => sf_add f (sf_neg m) = Ok d /\ minus_mean f m d) (tff t) ds).
  { clear -Hf. induction (tff t) as [|f l IH]; [exists []; constructor|]. destruct IH as (ds & H); [intros; apply Hf; now right|].
    destruct (Hf f (or_introl eq_refl)) as (d & Hd). exists (d :: ds). now constructor. }
  destruct Hds as (ds & FF). pose proof (Forall2_len _ _ _ FF) as Lds.
  assert (MM : mapM (fun p => let* d := o_add sf_ops (snd p) (o_neg sf_ops m) in Ok (d, fst p, tfu t)) (tf_iter t) = Ok (map (fun p => (fst p, snd p, tfu t)) (combine ds (tft t)))).
  { apply mapM_forall2. unfold tf_iter. clear -FF L. revert L. generalize (tft t). induction FF as [|f d l l' [R _] FF IH]; intros ts L; destruct ts as [|x ts]; try discriminate L; cbn [combine map]; constructor.
    - cbn [fst snd]. change (o_add sf_ops f (o_neg sf_ops m)) with (sf_add f (sf_neg m)). rewrite R. reflexivity.
    - apply IH. now injection L. }
  assert (GD : forall p, In p (combine ds (tft t)) -> o_grid sf_ops (fst p) = tfg t).
  { intros [d x] H. apply in_combine_l in H. destruct (Forall2_in_r _ _ _ _ FF H) as (f & If & _ & Gd & _). cbn. rewrite Gd. now apply OG. }
  assert (M1 : map fst (combine ds (tft t)) = ds) by (rewrite map_fst_combine'; [reflexivity|lia]).
  assert (M2 : map snd (combine ds (tft t)) = tft t) by (rewrite map_snd_combine'; [reflexivity|lia]).
  exists m. eexists. split; [exact Em|]. split.
  { unfold tf_fluct. rewrite Em. cbn [bind]. rewrite MM. cbn [bind].
    rewrite (add_all_lemma sf_ops asort (tfu t) (tfg t) (combine ds (tft t)) AS GU GD tf_new); cbn [tft tff tf_new app out_res]; [reflexivity| | |now left|].
    - split; [reflexivity|]. intros a b _ Hb. cbn in Hb. lia.
    - now rewrite M2.
    - intro Hn. rewrite Hn in M1. cbn in M1. rewrite <- M1 in Lds. destruct (tff t); [congruence|discriminate Lds]. }
  cbn [tf_new tff tft app]. rewrite M1, M2. split; [split; cbn; [lia|exact S0]|]. split; [reflexivity|]. split; [reflexivity|]. split.
  - unfold each_frame, frames. cbn [tft tff]. revert L. generalize (tft t). clear -FF. induction FF as [|f d l l' [_ R] FF IH]; intros ts L; destruct ts as [|x ts]; try discriminate L; cbn [combine]; constructor; [now split|apply IH; now injection L].
  - intros i j Hi Hj. cbn [tff]. rewrite <- Gm in Hi, Hj.
    pose proof (fluct_total m i j Cm Hi Hj (tff t) ds) as T. specialize (T ltac:(eapply Forall2_impl'; [|exact FF]; cbn; intros ? ? _ [_ H]; exact H)).
    specialize (T ltac:(intros f If; destruct (FO f If) as (A & B & C); split; [transitivity (tfg t); [now apply OG|now symmetry]|now split])).
    rewrite Gm in Hi, Hj. destruct (Hm i j Hi Hj) as [Hm1 Hm2]. pose proof (clean_cell m i j Cm) as K. rewrite Gm in K. specialize (K Hi Hj).
    destruct (at_ (values m) i j) as [b|] eqn:Eb.
    + destruct T as [_ T]. destruct (at_ (msk m) i j); [destruct K as [_ K]; discriminate (K eq_refl)|]. destruct (Hm2 eq_refl) as (x & Ex & Hx). injection Ex as <-.
      assert (E : (b * sc (uv m) * qn (length (availables (tff t) i j)) = qn (length (availables (tff t) i j)) * (b * sc (uv m)))%num) by qring. qlra.
    + rewrite T. reflexivity.
Qed.
