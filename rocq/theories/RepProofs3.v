(** * RepProofs3: conditional averages, modes as a series, smoothing of a base. *)
From Coq Require Import Permutation Lia.
From Verif Require Import Num Res ListLib SortLib Arr FieldModel ScalarFieldModel VectorFieldModel ProfileModel FieldSpec SeqSpec
  FieldProofs RotateProofs FieldProofs2 ScalarProofs FieldProofs3 PointsModel PointsSpec PointsProofs5 PointsProofs6 TemporalModel TemporalSpec
  TemporalProofs TemporalProofs2 TemporalProofs3 TemporalProofs5 TemporalProofs6 TemporalProofs7 TemporalProofs8 TemporalProofs10 TemporalProofs12
  FilesModel StoreModel StoreSpec PodModel RepModel RepSpec.
Import ListNotations.

Lemma first_time_spec l x : match first_time l x with
  | Ok k => nth_error l k = Some x /\ forall j, j < k -> nth_error l j <> Some x
  | Err e => e = IndexErr /\ ~ In x l end.
Proof.
  induction l as [|y l IH]; cbn [first_time]; [split; [reflexivity|intros []]|]. destruct (qeqb y x) eqn:Q.
  - apply qeqb_eq in Q. subst. split; [reflexivity|lia].
  - apply qeqb_neq in Q. destruct (first_time l x) as [k|e]; cbn [bind].
    + destruct IH as [A B]. split; [exact A|]. intros [|j] Hj; cbn; [congruence|]. apply B. lia.
    + destruct IH as [-> N]. split; [reflexivity|]. intros [E|I]; [congruence|contradiction].
Qed.
Lemma times_found {F} (t : tfield F) : tf_ok t -> forall xs, (forall x, In x xs -> In x (tft t)) ->
  exists inds fs, mapM (first_time (tft t)) xs = Ok inds /\ Forall2 (frame_at t) xs fs /\ Forall2 (fun i f => nth_error (tff t) i = Some f) inds fs /\ length inds = length xs.
Proof.
  intros [L _]. induction xs as [|x xs IH]; intro H; [exists [], []; repeat split; constructor|].
  destruct IH as (inds & fs & E & A & B & C); [intros; apply H; now right|].
  pose proof (first_time_spec (tft t) x) as S. destruct (first_time (tft t) x) as [k|e] eqn:Q; [|destruct S as [_ S]; exfalso; apply S, H; now left].
  destruct S as [S1 S2]. destruct (nth_error (tff t) k) as [f|] eqn:Ef; [|apply nth_error_None in Ef; pose proof (nth_error_Some_lt _ _ _ S1); lia].
  exists (k :: inds), (f :: fs). cbn [mapM]. rewrite Q. cbn [bind]. rewrite E. cbn [bind]. split; [reflexivity|]. split; [constructor; [exists k; auto|exact A]|]. split; [constructor; auto|cbn; now rewrite C].
Qed.
Lemma sum_at_sf t : sf_series_ok t -> forall inds fs l acc,
  Forall2 (fun i f => nth_error (tff t) i = Some f) inds fs -> sg acc = tfg t -> sf_wf acc -> good_unit (uv acc) ->
  (forall f, In f (tff t) -> dim (uv acc) = dim (uv f)) ->
  (forall i j, i < length (ax (tfg t)) -> j < length (ay (tfg t)) -> cell_total l acc i j) ->
  exists s, sum_at sf_ops t acc inds = Ok s /\ sg s = tfg t /\ uv s = uv acc /\ sf_wf s /\
    forall i j, i < length (ax (tfg t)) -> j < length (ay (tfg t)) -> cell_total (l ++ fs) s i j.
Proof.
  intros (GO & OG & FO & DM). induction inds as [|a inds IH]; intros fs l acc F2 Eg W U D C; inversion F2; subst.
  - exists acc. cbn [sum_at]. split; [reflexivity|]. repeat (split; [now auto|]). intros i j Hi Hj. rewrite app_nil_r. auto.
  - rename y into f. rename l' into fs. cbn [sum_at]. rewrite H1. pose proof (nth_error_In _ _ H1) as If. destruct (FO f If) as (Wf & Cf & Uf). pose proof (OG f If) as Gf. cbn in Gf.
    destruct (sf_add_cells acc f) as (s & k & Es & Hk & Gs & Us & Ws & Vs); try assumption; [congruence|now apply D|].
    cbn [o_add sf_ops]. rewrite Es. cbn [bind].
    destruct (IH fs (l ++ [f]) s) as (r & Er & Gr & Ur & Wr & Vr).
    + assumption.
    + congruence.
    + exact Ws.
    + congruence.
    + intros h Ih. rewrite Us. now apply D.
    + intros i j Hi Hj. specialize (C i j Hi Hj). destruct (Vs i j) as [V1 V2]. unfold cell_total in *. rewrite existsb_app. cbn [existsb]. rewrite orb_false_r.
      destruct (existsb (fun h => at_ (msk h) i j) l).
      * cbn [orb]. now rewrite V2, C.
      * cbn [orb]. destruct C as (C1 & v & C2 & C3). rewrite V2, C1. cbn [orb].
        destruct (at_ (msk f) i j) eqn:Em; [reflexivity|]. split; [reflexivity|].
        pose proof (clean_cell f i j Cf) as Kc. rewrite Gf in Kc. specialize (Kc Hi Hj).
        destruct (at_ (values f) i j) as [w|] eqn:Ew; [|destruct Kc as [Kc _]; rewrite (Kc eq_refl) in Em; discriminate].
        unfold values at 1. cbn [at_]. rewrite V2, C1. cbn [orb]. rewrite V1, C2. cbn [oscale option_map oadd lift2]. eexists. split; [reflexivity|].
        rewrite availables_app, total_app. cbn [availables flat_map]. rewrite app_nil_r. unfold avail. rewrite Em, Ew. rewrite total_cons, total_nil, Us, <- C3, <- Hk. qring.
    + exists r. split; [exact Er|]. split; [exact Gr|]. split; [congruence|]. split; [exact Wr|].
      intros i j Hi Hj. specialize (Vr i j Hi Hj). rewrite <- app_assoc in Vr. exact Vr.
Qed.
Lemma avail_count t l i j : sf_series_ok t -> (forall h, In h l -> In h (tff t)) -> i < length (ax (tfg t)) -> j < length (ay (tfg t)) ->
  existsb (fun h => at_ (msk h) i j) l = false -> length (availables l i j) = length l.
Proof.
  intros (GO & OG & FO & DM) HI Hi Hj Ex. induction l as [|h l IH]; [reflexivity|]. cbn [existsb] in Ex. apply orb_false_iff in Ex. destruct Ex as [E1 E2].
  cbn [availables flat_map]. rewrite app_length. cbn [length]. change (flat_map (fun f => avail f i j) l) with (availables l i j). rewrite IH; [|intros; apply HI; now right|exact E2].
  assert (Ih : In h (tff t)) by (apply HI; now left). destruct (avail_length h i j) as [A _]; [apply (FO h Ih)|rewrite (OG h Ih : sg h = tfg t); exact Hi|rewrite (OG h Ih : sg h = tfg t); exact Hj|].
  rewrite A, E1. reflexivity.
Qed.
Lemma cond_average_ok t xs : sf_series_ok t -> tf_ok t -> xs <> [] -> (forall x, In x xs -> In x (tft t)) ->
  exists g, cond_average sf_ops t xs = Ok g /\ average_at t xs g.
Proof.
  intros SO O NE HX. pose proof SO as (GO & OG & FO & DM). destruct (times_found t O xs HX) as (inds & fs & E & A & B & C). unfold cond_average. rewrite E. cbn [bind].
  destruct B as [|i f inds fs Ef B]; [destruct xs; [congruence|discriminate C]|]. rewrite Ef. pose proof (nth_error_In _ _ Ef) as If. destruct (FO f If) as (Wf & Cf & Uf). pose proof (OG f If) as Gf. cbn in Gf.
  destruct (sum_at_sf t SO inds fs [f] f) as (s & Es & Gs & Us & Ws & Vs); try assumption.
  - intros h Ih. now apply DM.
  - intros i0 j Hi Hj. unfold cell_total. cbn [existsb]. rewrite orb_false_r. destruct (at_ (msk f) i0 j) eqn:Em; [reflexivity|]. split; [reflexivity|].
    pose proof (clean_cell f i0 j Cf) as Kc. rewrite Gf in Kc. specialize (Kc Hi Hj).
    destruct (at_ (values f) i0 j) as [w|] eqn:Ew; [|destruct Kc as [Kc _]; rewrite (Kc eq_refl) in Em; discriminate].
    exists w. split; [reflexivity|]. cbn [availables flat_map]. rewrite app_nil_r. unfold avail. rewrite Em, Ew, total_cons, total_nil. qring.
  - rewrite Es. cbn [bind]. eexists. split; [reflexivity|]. exists (f :: fs). split; [exact A|]. split; [exact Gs|]. intros a j Hi Hj. specialize (Vs a j Hi Hj).
    change ([f] ++ fs) with (f :: fs) in Vs. unfold cell_total, cell_average in *.
    assert (Ln : length (i :: inds) = length (f :: fs)) by (cbn; f_equal; clear -B; induction B; cbn; auto). rewrite Ln. set (n := length (f :: fs)).
    assert (P : (0 < qn n)%num) by (apply qn_pos; unfold n; cbn; lia).
    cbn [o_divn sf_ops]. destruct (existsb (fun h => at_ (msk h) a j) (f :: fs)) eqn:Ex.
    + unfold sf_div_num. cbn [msk values raw at_ amap]. rewrite Vs. cbn. auto.
    + destruct Vs as (V1 & v & V2 & V3). cbn [values at_] in V2. rewrite V1 in V2. unfold sf_div_num. cbn [msk values raw at_ amap uv].
      rewrite V1, V2. cbn [div_isnan odiv]. assert (qeqb (qn n) 0%num = false) as -> by (apply qeqb_neq; now apply qgt_neq). rewrite andb_false_r. split; [reflexivity|].
      eexists. split; [reflexivity|]. rewrite <- V3. rewrite (avail_count t (f :: fs) a j SO); [|  |assumption|assumption|exact Ex].
      * change (length (f :: fs)) with n. qfield. now apply qgt_neq.
      * intros h [<-|Ih]; [exact If|]. clear -B Ih. induction B as [|x y l l' H B IH]; [destruct Ih|]. destruct Ih as [<-|Ih]; [now apply nth_error_In in H|auto].
Qed.
Lemma reconstruct_lemma t asort av reals u : is_argsort asort -> sf_series_ok t -> tf_ok t -> (0 < sc u)%num -> length av = length reals -> av <> [] ->
  (forall xs, In xs reals -> xs <> [] /\ forall x, In x xs -> In x (tft t)) ->
  exists r gs, reconstruct_fields sf_ops asort t av reals u = Ok r /\ tf_ok r /\ tfu r = u /\ tfg r = tfg t /\ Forall2 (average_at t) reals gs /\ Permutation (frames r) (combine av gs).
Proof.
  intros AS SO O U L NE HR. unfold reconstruct_fields.
  assert (X : exists gs, mapM (fun p => let* f := cond_average sf_ops t (snd p) in Ok (f, fst p, u)) (combine av reals) = Ok (map (fun p => (fst p, snd p, u)) (combine gs av)) /\
              Forall2 (average_at t) reals gs /\ length gs = length av).
  { clear NE. revert av L. induction reals as [|xs reals IH]; intros [|a av] L; try discriminate L; [exists []; repeat split; constructor|].
    destruct (HR xs (or_introl eq_refl)) as [N1 N2]. destruct (cond_average_ok t xs SO O N1 N2) as (g & Eg & Ag).
    destruct (IH (fun ys I => HR ys (or_intror I)) av) as (gs & E & A & Lg); [now injection L|]. exists (g :: gs). cbn [combine mapM snd fst]. rewrite Eg. cbn [bind]. rewrite E. cbn [bind combine map fst snd].
    split; [reflexivity|]. split; [now constructor|cbn; now rewrite Lg]. }
  destruct X as (gs & E & A & Lg). rewrite E. cbn [bind].
  destruct (add_all_perm sf_ops asort u (tfg t) (combine gs av) AS U) with (t := @tf_new sfield) as (r & Er & Or & Ur & Gr & P).
  - intros [g a] I. apply in_combine_l in I. cbn [fst]. clear -A I. induction A as [|xs g0 l l' (fs & _ & Eg & _) A IH]; [destruct I|]. destruct I as [<-|I]; [exact Eg|auto].
  - split; [reflexivity|]. intros a b _ Hb. cbn in Hb. lia.
  - now left.
  - destruct gs, av; try discriminate Lg; [congruence|discriminate].
  - exists r, gs. rewrite Er. cbn [out_res]. split; [reflexivity|]. split; [exact Or|]. split; [exact Ur|]. split; [exact Gr|]. split; [exact A|].
    cbn [frames tf_new tft tff combine] in P. rewrite app_nil_r in P. apply (Permutation_trans P). clear -Lg. revert av Lg. induction gs as [|g gs IH]; intros [|a av] L; try discriminate L; cbn; [constructor|]. apply perm_skip, IH. now injection L.
Qed.
Lemma reconstruct_missing t asort av reals u : sf_series_ok t -> tf_ok t -> length av = length reals ->
  (exists xs, In xs reals /\ (xs = [] \/ exists x, In x xs /\ ~ In x (tft t))) ->
  reconstruct_fields sf_ops asort t av reals u = Err IndexErr.
Proof.
  intros SO O L H. unfold reconstruct_fields.
  assert (X : mapM (fun p => let* f := cond_average sf_ops t (snd p) in Ok (f, fst p, u)) (combine av reals) = Err IndexErr); [|now rewrite X].
  revert av L. induction reals as [|ys reals IH]; intros [|a av] L; try discriminate L; [destruct H as (? & [] & _)|]. cbn [combine mapM snd fst].
  assert (D : (ys = [] \/ exists x, In x ys /\ ~ In x (tft t)) \/ (ys <> [] /\ forall x, In x ys -> In x (tft t))).
  { destruct ys as [|y ys]; [auto|]. assert (Q : forall l : list num, (exists x, In x l /\ ~ In x (tft t)) \/ forall x, In x l -> In x (tft t)).
    { induction l as [|z l [(x & I & N)|A]]; [right; intros x []|left; exists x; split; [now right|exact N]|]. destruct (in_dec Qc_eq_dec z (tft t)) as [Y|N]; [right; intros x [<-|I]; auto|left; exists z; split; [now left|exact N]]. }
    destruct (Q (y :: ys)) as [W|W]; [left; now right|right; split; [discriminate|exact W]]. }
  destruct D as [D|[D1 D2]].
  - assert (E : cond_average sf_ops t ys = Err IndexErr); [|rewrite E; reflexivity]. unfold cond_average. destruct D as [->|(x & I & N)]; [reflexivity|].
    assert (M : mapM (first_time (tft t)) ys = Err IndexErr); [|now rewrite M]. clear -I N. induction ys as [|y ys IH]; [destruct I|]. cbn [mapM]. pose proof (first_time_spec (tft t) y) as S. destruct (first_time (tft t) y) as [k|e].
    + cbn [bind]. destruct I as [->|I]; [destruct S as [S _]; apply nth_error_In in S; contradiction|]. now rewrite IH.
    + destruct S as [-> _]. reflexivity.
  - destruct (cond_average_ok t ys SO O D1 D2) as (g & Eg & _). rewrite Eg. cbn [bind]. rewrite IH; [reflexivity| |now injection L].
    destruct H as (xs & [<-|I] & Hx); [|eauto]. destruct Hx as [->|(x & I & N)]; [congruence|]. exfalso. now apply N, D2.
Qed.

(** ** Modes as a series *)
Lemma modes_lemma {F} (ops : fops F) asort m g : is_argsort asort -> mf_modes m <> [] -> (forall f, In f (mf_modes m) -> o_grid ops f = g) ->
  modes_as_tf ops asort m = Ok (mktf g (mf_modes m) true (map (fun i => qn (i + 1)) (seq 0 (length (mf_modes m)))) one_unit).
Proof.
  intros AS NE HG. unfold modes_as_tf. set (l := mf_modes m) in *.
  assert (Q : map (fun p => (snd p, qn (fst p + 1), one_unit)) (combine (seq 0 (length l)) l) =
              map (fun p => (fst p, snd p, one_unit)) (map (fun p => (snd p, qn (fst p + 1))) (combine (seq 0 (length l)) l))) by (rewrite map_map; reflexivity).
  assert (M1 : map fst (map (fun p => (snd p, qn (fst p + 1))) (combine (seq 0 (length l)) l)) = l).
  { rewrite map_map. cbn [fst]. apply map_snd_combine'. apply seq_length. }
  assert (M2 : map snd (map (fun p => (snd p, qn (fst p + 1))) (combine (seq 0 (length l)) l)) = map (fun i => qn (i + 1)) (seq 0 (length l))).
  { rewrite map_map. cbn [snd]. rewrite <- (map_map fst (fun i => qn (i + 1))). f_equal. apply map_fst_combine'. apply seq_length. }
  rewrite Q, (add_all_lemma ops asort one_unit g); [cbn [out_res tff tft tf_new app]; now rewrite M1, M2|exact AS|reflexivity| | | |now left|].
  - intros p I. apply HG. rewrite <- M1. now apply in_map.
  - split; [reflexivity|]. intros a b _ Hb. cbn in Hb. lia.
  - cbn [tft tf_new app]. rewrite M2. apply increasing_map_seq. intros. unfold qn. apply qz_lt. lia.
  - intro E. rewrite E in M1. cbn in M1. congruence.
Qed.

(** ** Smoothing *)
Lemma smooth_all {A} (smooth : A -> res A) : forall l l', Forall2 (fun a b => smooth a = Ok b) l l' -> smooth_first smooth (length l) l = (l', None).
Proof. intros l l' H. induction H as [|a b l l' E H IH]; [reflexivity|]. cbn [length smooth_first]. now rewrite E, IH. Qed.
Lemma smooth_fails {A} (smooth : A -> res A) a e r : smooth a = Err e -> forall l l', Forall2 (fun a b => smooth a = Ok b) l l' ->
  smooth_first smooth (length (l ++ a :: r)) (l ++ a :: r) = (l' ++ a :: r, Some e).
Proof. intros E l l' H. induction H as [|x y l l' Q H IH]; cbn [app length smooth_first]; [now rewrite E|]. now rewrite Q, IH. Qed.
Lemma smooth_temporal_lemma {F} smooth (m : mfield F) l' : length (mf_evo m) = length (mf_modes m) -> Forall2 (fun a b => smooth a = Ok b) (mf_evo m) l' ->
  smooth_temporal smooth true m = (set_evo m l', Ok None) /\ smooth_temporal smooth false m = (m, Ok (Some (set_evo m l'))).
Proof. intros L H. unfold smooth_temporal. rewrite <- L, (smooth_all smooth _ _ H). split; reflexivity. Qed.
Lemma smooth_spatial_lemma {F} (smooth : F -> res F) (m : mfield F) l' : Forall2 (fun a b => smooth a = Ok b) (mf_modes m) l' ->
  smooth_spatial smooth true m = (set_modes m l', Ok None).
Proof. intro H. unfold smooth_spatial. now rewrite (smooth_all smooth _ _ H). Qed.
