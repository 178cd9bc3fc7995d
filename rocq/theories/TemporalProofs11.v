(** * TemporalProofs11: recurrence maps, extrema and time profiles *)
From Verif Require Import Num Res ListLib SortLib Arr FieldModel ScalarFieldModel VectorFieldModel ProfileModel FieldSpec SeqSpec
  FieldProofs RotateProofs FieldProofs2 ScalarProofs FieldProofs3 ProfileSpec ProfileProofs PointsModel PointsSpec PointsProofs5 PointsProofs6 ProfileProofs3 TemporalModel TemporalSpec
  TemporalProofs TemporalProofs2 TemporalProofs3 TemporalProofs5 TemporalProofs6 TemporalProofs7 TemporalProofs8 TemporalProofs10.
From Coq Require Import Lia.

(** ** Recurrence map *)
Lemma qpow_abs x p : qpow (qabs x) p = power (qabs x) p.
Proof. induction p as [|p IH]; cbn [qpow power]; [reflexivity|now rewrite IH]. Qed.
Lemma qpow_even_odd x p : (Nat.even p = true -> qpow x p = power (qabs x) p) /\ (Nat.even p = false -> (qpow x p * (if qleb 0%num x then 1%num else (0 - 1)%num) = power (qabs x) p)%num).
Proof.
  induction p as [|p [IH1 IH2]]; [split; [reflexivity|discriminate]|]. rewrite Nat.even_succ, <- Nat.negb_even. cbn [qpow power].
  destruct (Nat.even p); cbn [negb]; split; intro H; try discriminate.
  - rewrite <- (IH1 eq_refl). destruct (qabs_spec x) as [[Hx Ha]|[Hx Ha]]; rewrite Ha; destruct (qleb_spec 0%num x); try qlra; qring.
  - rewrite <- (IH2 eq_refl). destruct (qabs_spec x) as [[Hx Ha]|[Hx Ha]]; rewrite Ha; destruct (qleb_spec 0%num x); try qlra; qring.
Qed.
Lemma opow_some p x : opow p (Some x) = Some (power (qabs x) p).
Proof. unfold opow. cbn [option_map]. destruct (Nat.even p) eqn:E; [now rewrite (proj1 (qpow_even_odd x p))|now rewrite qpow_abs]. Qed.
Lemma rec_entry_some root p nmb a b : length a = length b -> rec_entry root p nmb (map Some a) (map Some b) = Some (root (power_sum p a b) / qn nmb)%num.
Proof.
  intro L. unfold rec_entry, power_sum.
  assert (E : osum (map (fun q => opow p (osub (fst q) (snd q))) (combine (map Some a) (map Some b))) = Some (total (map (fun q => power (qabs (fst q - snd q)) p) (combine a b)))).
  { revert b L. induction a as [|x a IH]; intros [|y b] L; try discriminate L; [reflexivity|]. cbn [map combine fst snd]. unfold osum in *. cbn [fold_right].
    rewrite IH by (now injection L). change (osub (Some x) (Some y)) with (Some (x - y)%num). rewrite opow_some, total_cons. reflexivity. }
  now rewrite E.
Qed.
Lemma rec_entry_none root p nmb a b k : nth_error a k = Some None \/ nth_error b k = Some None -> length a = length b -> rec_entry root p nmb a b = None.
Proof.
  intros H L. unfold rec_entry.
  assert (E : osum (map (fun q => opow p (osub (fst q) (snd q))) (combine a b)) = None).
  { revert b k H L. induction a as [|x a IH]; intros [|y b] [|k] H L; try discriminate L; try (destruct H as [H|H]; discriminate H); cbn [map combine fst snd]; unfold osum in *; cbn [fold_right].
    - destruct H as [H|H]; injection H as ->; [reflexivity|]. destruct x; reflexivity.
    - rewrite (IH b k); [|exact H|now injection L]. destruct (opow p (osub x y)); reflexivity. }
  now rewrite E.
Qed.
Lemma power_sum_sym p a : forall b, power_sum p a b = power_sum p b a.
Proof. unfold power_sum. induction a as [|x a IH]; intros [|y b]; cbn [combine map]; try reflexivity. rewrite !total_cons, IH. cbn [fst snd]. now rewrite qabs_sub_sym. Qed.
Lemma tf_recurrence_lemma {F} (ops : fops F) vals pc u root t p bw : increasing (tft t) -> 2 <= length (tft t) -> length (tff t) = length (tft t) ->
  exists f, tf_recurrence ops vals pc u root t p bw = Ok f /\ ax (sg f) = tft t /\ ay (sg f) = tft t /\ ux (sg f) = tfu t /\ uy (sg f) = tfu t /\ uv f = u /\ sf_wf f /\
    forall i j fi fj, nth_error (tff t) i = Some fi -> nth_error (tff t) j = Some fj ->
      (i = j -> at_ (values f) i j = Some 0%num /\ at_ (msk f) i j = false) /\
      (i <> j -> (exists b, bw = Some b /\ (b < Z.abs (Z.of_nat i - Z.of_nat j))%Z) -> at_ (values f) i j = None /\ at_ (msk f) i j = true) /\
      (i <> j -> ~ (exists b, bw = Some b /\ (b < Z.abs (Z.of_nat i - Z.of_nat j))%Z) ->
        (forall a b, no_nan (vals fi) a -> no_nan (vals fj) b -> length a = length b ->
           at_ (values f) i j = Some (root (power_sum p a b) / qn (length (ax (tfg t)) * length (ay (tfg t)) * pc))%num /\ at_ (msk f) i j = false) /\
        (forall k, nth_error (vals fi) k = Some None \/ nth_error (vals fj) k = Some None -> length (vals fi) = length (vals fj) ->
           at_ (values f) i j = None /\ at_ (msk f) i j = true)).
Proof.
  intros I L2 L. unfold tf_recurrence.
  assert (EI : forall v : arr onum, sf_import (tft t) (tft t) v None (tfu t) (tfu t) u = sf_import (tft t) (tft t) v (Some (afull (d0 v) (d1 v) false)) (tfu t) (tfu t) u) by reflexivity.
  rewrite EI, sf_import_plain by (cbn; auto).
  eexists. split; [reflexivity|]. cbn [sg ax ay ux uy uv]. repeat (split; [reflexivity|]).
  split; [repeat split; cbn; assumption|]. intros i j fi fj Ei Ej.
  set (nmb := length (ax (tfg t)) * length (ay (tfg t)) * pc). cbn [values at_ raw msk amap2 amap afull].
  set (R := rec_map vals root p nmb bw (tff t)).
  assert (VM : forall v, at_ R i j = v -> (if (false || isnan (at_ R i j))%bool then None else at_ R i j) = v /\ (false || isnan (at_ R i j))%bool = isnan v).
  { intros v ->. cbn [orb]. destruct v; now split. }
  split; [|split].
  - intros <-. apply (VM (Some 0%num)). unfold R. cbn [rec_map at_]. rewrite Nat.min_id, Nat.max_id, Nat.eqb_refl. reflexivity.
  - intros N (b & Eb & Hb). apply (VM None). unfold R. cbn [rec_map at_]. destruct (Nat.eqb_spec (Nat.min i j) (Nat.max i j)); [lia|].
    assert (too_far bw (Nat.min i j) (Nat.max i j) = true) as ->; [|reflexivity]. rewrite Eb. cbn. apply Z.ltb_lt. lia.
  - intros N NB. assert (TF : too_far bw (Nat.min i j) (Nat.max i j) = false).
    { unfold too_far. destruct bw as [b|]; [|reflexivity]. apply Z.ltb_ge. destruct (Z.lt_ge_cases b (Z.abs (Z.of_nat i - Z.of_nat j))); [exfalso; apply NB; eauto|lia]. }
    assert (ER : at_ R i j = rec_entry root p nmb (vals fi) (vals fj) \/ at_ R i j = rec_entry root p nmb (vals fj) (vals fi)).
    { unfold R. cbn [rec_map at_]. destruct (Nat.eqb_spec (Nat.min i j) (Nat.max i j)); [lia|]. rewrite TF.
      destruct (Nat.lt_ge_cases i j); [rewrite Nat.min_l, Nat.max_r by lia; left|rewrite Nat.min_r, Nat.max_l by lia; right]; rewrite Ei, Ej; reflexivity. }
    split.
    + intros a b Ha Hb Lab. apply (VM (Some (root (power_sum p a b) / qn nmb)%num)). destruct ER as [->| ->]; rewrite Ha, Hb.
      * now apply rec_entry_some.
      * rewrite (power_sum_sym p a b). now apply rec_entry_some.
    + intros k Hk Lk. apply (VM None). destruct ER as [->| ->]; apply (rec_entry_none _ _ _ _ _ k); auto. tauto.
Qed.

(** ** Extremal fields *)
Lemma existsb_false_iff {A} (P : A -> bool) l : (forall x, In x l -> P x = false) -> existsb P l = false.
Proof. induction l as [|x l IH]; intro H; [reflexivity|]. cbn. rewrite (H x) by (now left). apply IH. intros; apply H; now right. Qed.
Section Extr.
Context (better : num -> num -> bool).
Hypothesis irr : forall a, better a a = false.
Hypothesis tra : forall a b c, better b a = false -> better c b = false -> better c a = false.
Hypothesis asy : forall a b, better a b = true -> better b a = false.
Lemma extr_fold i j l : forall f v, at_ (msk f) i j = false -> at_ (raw f) i j = Some v ->
  (forall h, In h l -> (at_ (values h) i j = None <-> at_ (msk h) i j = true)) ->
  let s := fold_left (extr_step better) l f in
  sg s = sg f /\ uv s = uv f /\ msk s = msk f /\ d0 (raw s) = d0 (raw f) /\ d1 (raw s) = d1 (raw f) /\
  exists w, at_ (raw s) i j = Some w /\ better v w = false /\ (w = v \/ exists h, In h l /\ at_ (values h) i j = Some w) /\
    forall h x, In h l -> at_ (values h) i j = Some x -> better x w = false.
Proof.
  induction l as [|h l IH]; intros f v Hm Hv HC; cbn [fold_left].
  - cbv zeta. repeat (split; [reflexivity|]). exists v. split; [exact Hv|]. split; [apply irr|]. split; [now left|]. intros h x [].
  - assert (Hf : at_ (values f) i j = Some v) by (unfold values; cbn [at_]; rewrite Hm; exact Hv).
    assert (HS : exists v', at_ (raw (extr_step better f h)) i j = Some v' /\ better v v' = false /\ (v' = v \/ at_ (values h) i j = Some v') /\ (forall x, at_ (values h) i j = Some x -> better x v' = false)).
    { cbn [extr_step raw at_]. rewrite Hf. pose proof (HC h (or_introl eq_refl)) as K. destruct (at_ (values h) i j) as [x|] eqn:Ex.
      - assert (at_ (msk h) i j = false) as -> by (destruct (at_ (msk h) i j); [destruct K as [_ K]; discriminate (K eq_refl)|reflexivity]).
        cbn [ocmp negb andb]. rewrite andb_true_r. destruct (better x v) eqn:B.
        + exists x. repeat split; auto. intros y Hy. injection Hy as <-. apply irr.
        + exists v. repeat split; auto. intros y Hy. injection Hy as <-. exact B.
      - cbn [ocmp andb]. exists v. repeat split; auto. discriminate. }
    destruct HS as (v' & E1 & E2 & E3 & E4).
    destruct (IH (extr_step better f h) v' Hm E1 (fun h' H => HC h' (or_intror H))) as (G & U & M & D0 & D1 & w & W1 & W2 & W3 & W4).
    cbv zeta. split; [exact G|]. split; [exact U|]. split; [exact M|]. split; [exact D0|]. split; [exact D1|]. exists w. split; [exact W1|]. split; [now apply (tra w v' v)|]. split.
    + destruct W3 as [->|(k & Ik & Ek)]; [destruct E3 as [->|E3]; [now left|right; exists h; split; [now left|exact E3]]|right; exists k; split; [now right|exact Ek]].
    + intros k x [<-|Ik] Hk; [|now apply (W4 k)]. apply (tra w v' x); [exact W2|now apply E4].
Qed.
Lemma tsf_extremum_lemma t nmb u : sf_series_ok t -> (forall f, In f (tff t) -> uv f = u) -> tff t <> [] ->
  exists s, tsf_extremum better t nmb = Ok s /\ sg s = tfg t /\ uv s = u /\
    forall i j, i < length (ax (tfg t)) -> j < length (ay (tfg t)) ->
      (at_ (msk s) i j = true <-> (Z.of_nat (length (availables (tff t) i j)) <= nmb)%Z) /\
      ((exists f r, tff t = f :: r /\ at_ (msk f) i j = false) -> at_ (msk s) i j = false ->
         exists w, at_ (values s) i j = Some w /\ (exists h, In h (tff t) /\ at_ (values h) i j = Some w) /\
           forall h x, In h (tff t) -> at_ (values h) i j = Some x -> better x w = false).
Proof.
  intros (GO & OG & FO & DM) HU NE. unfold tsf_extremum. destruct (tff t) as [|f r] eqn:Ef; [congruence|].
  assert (SH : existsb (fun h => negb (Nat.eqb (d0 (msk h)) (length (ax (tfg t))) && Nat.eqb (d1 (msk h)) (length (ay (tfg t))))) (f :: r) = false).
  { apply existsb_false_iff. intros h Ih. destruct (FO h Ih) as ([_ [M0 M1]] & _ & _). assert (G : sg h = tfg t) by (apply OG; rewrite Ef; exact Ih). rewrite M0, M1, G, !Nat.eqb_refl. reflexivity. }
  rewrite SH. cbn [guard]. unfold set_mask.
  assert (GS : forall l f0, sg (fold_left (extr_step better) l f0) = sg f0 /\ uv (fold_left (extr_step better) l f0) = uv f0).
  { induction l as [|h l IH]; intro f0; cbn [fold_left]; [now split|]. destruct (IH (extr_step better f0 h)) as [-> ->]. now split. }
  destruct (GS r f) as [G1 G2]. assert (Gf : sg f = tfg t) by (apply OG; rewrite Ef; now left).
  rewrite shape_is_true by (cbn; rewrite G1, Gf; reflexivity).
  eexists. split; [reflexivity|]. cbn [sg uv msk]. split; [now rewrite G1|]. split; [rewrite G2; apply HU; now left|].
  intros i j Hi Hj. assert (CV : count_valid sf_ops (f :: r) i j = length (availables (f :: r) i j)).
  { assert (HF : forall h, In h (f :: r) -> sg h = tfg t /\ sf_clean h) by (intros h Ih; split; [apply OG; rewrite Ef; exact Ih|now apply FO]).
    clear -HF Hi Hj. unfold count_valid, availables. induction (f :: r) as [|h l IH]; [reflexivity|]. cbn [filter flat_map]. rewrite app_length.
    destruct (HF h (or_introl eq_refl)) as [Gh Ch]. destruct (avail_length h i j Ch) as [La _]; [now rewrite Gh|now rewrite Gh|]. rewrite La.
    change (o_mask sf_ops h) with (msk h). destruct (at_ (msk h) i j); cbn [negb length]; rewrite IH; auto; intros; apply HF; now right. }
  cbn [at_]. rewrite CV. split; [apply Z.leb_le|]. intros (f' & r' & E & Hm) Hs. injection E as <- <-.
  pose proof (FO f (or_introl eq_refl)) as (Wf & Cf & _). pose proof (clean_cell f i j Cf) as K. rewrite Gf in K. specialize (K Hi Hj).
  assert (Hv : exists v, at_ (values f) i j = Some v) by (destruct (at_ (values f) i j); [eauto|destruct K as [K _]; specialize (K eq_refl); congruence]).
  destruct Hv as (v & Ev). assert (Er : at_ (raw f) i j = Some v) by (unfold values in Ev; cbn [at_] in Ev; rewrite Hm in Ev; exact Ev).
  destruct (extr_fold i j r f v Hm Er) as (_ & _ & _ & _ & _ & w & W1 & W2 & W3 & W4).
  { intros h Ih. pose proof (FO h (or_intror Ih)) as (_ & Ch & _). assert (Gh : sg h = tfg t) by (apply OG; rewrite Ef; now right). apply clean_cell; [exact Ch|now rewrite Gh|now rewrite Gh]. }
  exists w. split.
  { unfold values. cbn [at_ msk raw]. rewrite CV, Hs. exact W1. }
  split.
  - destruct W3 as [->|(h & Ih & Eh)]; [exists f; split; [now left|exact Ev]|exists h; split; [now right|exact Eh]].
  - intros h x [<-|Ih] Ex; [|now apply (W4 h)]. rewrite Ev in Ex. injection Ex as <-. exact W2.
Qed.
End Extr.
Lemma tsf_min_lemma t nmb u : sf_series_ok t -> (forall f, In f (tff t) -> uv f = u) -> tff t <> [] ->
  exists s, tsf_min t nmb = Ok s /\ sg s = tfg t /\ uv s = u /\
    forall i j, i < length (ax (tfg t)) -> j < length (ay (tfg t)) ->
      (at_ (msk s) i j = true <-> (Z.of_nat (length (availables (tff t) i j)) <= nmb)%Z) /\
      ((exists f r, tff t = f :: r /\ at_ (msk f) i j = false) -> at_ (msk s) i j = false ->
         exists w, at_ (values s) i j = Some w /\ (exists h, In h (tff t) /\ at_ (values h) i j = Some w) /\
           forall h x, In h (tff t) -> at_ (values h) i j = Some x -> (w <= x)%num).
Proof.
  intros A B C. destruct (tsf_extremum_lemma qltb) with (t := t) (nmb := nmb) (u := u) as (s & E & G & U & H); auto.
  - intro a. apply qltb_ge, qle_refl.
  - intros a b c H1 H2. apply qltb_ge in H1, H2. apply qltb_ge. qlra.
  - intros a b H1. apply qltb_ge. apply qltb_lt in H1. qlra.
  - exists s. split; [exact E|]. split; [exact G|]. split; [exact U|]. intros i j Hi Hj. destruct (H i j Hi Hj) as [H1 H2]. split; [exact H1|].
    intros X Y. destruct (H2 X Y) as (w & W1 & W2 & W3). exists w. split; [exact W1|]. split; [exact W2|]. intros h x Ih Ex. apply qltb_ge. now apply (W3 h).
Qed.
Lemma tsf_max_lemma t nmb u : sf_series_ok t -> (forall f, In f (tff t) -> uv f = u) -> tff t <> [] ->
  exists s, tsf_max t nmb = Ok s /\ sg s = tfg t /\ uv s = u /\
    forall i j, i < length (ax (tfg t)) -> j < length (ay (tfg t)) ->
      (at_ (msk s) i j = true <-> (Z.of_nat (length (availables (tff t) i j)) <= nmb)%Z) /\
      ((exists f r, tff t = f :: r /\ at_ (msk f) i j = false) -> at_ (msk s) i j = false ->
         exists w, at_ (values s) i j = Some w /\ (exists h, In h (tff t) /\ at_ (values h) i j = Some w) /\
           forall h x, In h (tff t) -> at_ (values h) i j = Some x -> (x <= w)%num).
Proof.
  intros A B C. destruct (tsf_extremum_lemma (fun a b => qltb b a)) with (t := t) (nmb := nmb) (u := u) as (s & E & G & U & H); auto.
  - intro a. apply qltb_ge, qle_refl.
  - intros a b c H1 H2. apply qltb_ge in H1, H2. apply qltb_ge. qlra.
  - intros a b H1. apply qltb_ge. apply qltb_lt in H1. qlra.
  - exists s. split; [exact E|]. split; [exact G|]. split; [exact U|]. intros i j Hi Hj. destruct (H i j Hi Hj) as [H1 H2]. split; [exact H1|].
    intros X Y. destruct (H2 X Y) as (w & W1 & W2 & W3). exists w. split; [exact W1|]. split; [exact W2|]. intros h x Ih Ex. specialize (W3 h x Ih Ex). now apply qltb_ge in W3.
Qed.

(** ** Time profiles *)
Lemma nearest_cell_lemma g x y : grid_sorted g -> on_axis (ax g) x -> on_axis (ay g) y ->
  exists i j, nearest_cell g x y = Ok (i, j) /\ nearest_node (ax g) x i /\ nearest_node (ay g) y j.
Proof.
  intros S (NX & X1 & X2) (NY & Y1 & Y2). unfold nearest_cell.
  destruct (lookup_nearest g 1%Z x S (or_introl eq_refl) NX X1 X2) as (i & Ei & Hi). destruct (lookup_nearest g 2%Z y S (or_intror eq_refl) NY Y1 Y2) as (j & Ej & Hj).
  rewrite Ei, Ej. cbn [bind]. exists i, j. split; [reflexivity|]. split; [exact Hi|exact Hj].
Qed.
Lemma Forall2_nth_from {A} (l : list A) : forall l', Forall2 (fun k x => nth_error (l' ++ l) k = Some x) (seq (length l') (length l)) l.
Proof.
  induction l as [|x l IH]; intro l'; [constructor|]. cbn [length seq]. constructor.
  - rewrite nth_error_app2, Nat.sub_diag by lia. reflexivity.
  - specialize (IH (l' ++ [x])). rewrite app_length, Nat.add_1_r in IH. rewrite <- app_assoc in IH. exact IH.
Qed.
Lemma Forall2_nth_seq {A} (l : list A) : Forall2 (fun k x => nth_error l k = Some x) (seq 0 (length l)) l.
Proof. exact (Forall2_nth_from l []). Qed.
Lemma filter_length_le' {A} (P : A -> bool) l : length (filter P l) <= length l.
Proof. induction l as [|x l IH]; [constructor|]. cbn. destruct (P x); cbn; lia. Qed.
Lemma Forall2_filter {A B} (R : A -> B -> Prop) (P : A -> bool) (Q : B -> bool) l l' : Forall2 R l l' -> (forall a b, R a b -> P a = Q b) -> Forall2 R (filter P l) (filter Q l').
Proof. intros H E. induction H as [|a b l l' R0 H IH]; [constructor|]. cbn [filter]. rewrite (E a b R0). destruct (Q b); [now constructor|exact IH]. Qed.
Lemma time_samples_lemma {F} (ops : fops F) comp t sel : forall inds cells, Forall2 (fun k s => nth_error (frames t) k = Some s) inds sel -> length inds <= length cells ->
  time_samples ops comp t cells inds = Ok (map (fun q => at_ (comp (snd (fst q))) (fst (snd q)) (snd (snd q))) (combine sel cells),
                                           map (fun q => at_ (o_mask ops (snd (fst q))) (fst (snd q)) (snd (snd q))) (combine sel cells)).
Proof.
  intros inds cells FF L. unfold time_samples.
  assert (E : mapM (fun p => match nth_error (tff t) (snd p), nth_error cells (fst p) with
                   | Some f, Some (i, j) => Ok (at_ (comp f) i j, at_ (o_mask ops f) i j) | _, _ => Err IndexErr end) (combine (seq 0 (length inds)) inds)
     = Ok (map (fun q => (at_ (comp (snd (fst q))) (fst (snd q)) (snd (snd q)), at_ (o_mask ops (snd (fst q))) (fst (snd q)) (snd (snd q)))) (combine sel cells))).
  { apply mapM_forall2. assert (G : forall pre cs inds' sel', cells = pre ++ cs -> Forall2 (fun k s => nth_error (frames t) k = Some s) inds' sel' -> length inds' <= length cs ->
      Forall2 (fun p b => match nth_error (tff t) (snd p), nth_error cells (fst p) with
                   | Some f, Some (i, j) => Ok (at_ (comp f) i j, at_ (o_mask ops f) i j) | _, _ => Err IndexErr end = Ok b) (combine (seq (length pre) (length inds')) inds')
        (map (fun q => (at_ (comp (snd (fst q))) (fst (snd q)) (snd (snd q)), at_ (o_mask ops (snd (fst q))) (fst (snd q)) (snd (snd q)))) (combine sel' cs))).
    { intros pre cs inds' sel' EC FF'. revert pre cs EC. induction FF' as [|k [x f] inds' sel' R FF' IH]; intros pre cs EC L'; [constructor|].
      destruct cs as [|[i j] cs]; [cbn in L'; lia|]. cbn [length seq combine map fst snd]. constructor.
      - cbn [fst snd]. apply frames_nth in R. destruct R as [_ ->]. rewrite EC, nth_error_app2, Nat.sub_diag by lia. reflexivity.
      - specialize (IH (pre ++ [(i, j)]) cs). rewrite app_length, Nat.add_1_r in IH. apply IH; [now rewrite <- app_assoc|cbn in L'; lia]. }
    apply (G [] cells); auto. }
  rewrite E. cbn [bind]. rewrite !map_map. reflexivity.
Qed.
Lemma zip3_map {A} (f : A -> num) (g : A -> onum) (h : A -> bool) l : zip3 (map f l) (map g l) (map h l) = map (fun a => (f a, g a, h a)) l.
Proof. unfold zip3. induction l as [|a l IH]; [reflexivity|]. cbn. now rewrite IH. Qed.
Lemma prof_samples {F} (ops : fops F) comp (sel : list (num * F)) (cells : list (nat * nat)) u w : length sel <= length cells -> nondecreasing (map fst sel) ->
  exists p, prof_new (map fst sel) (map (fun q => at_ (comp (snd (fst q))) (fst (snd q)) (snd (snd q))) (combine sel cells))
      (Some (map (fun q => at_ (o_mask ops (snd (fst q))) (fst (snd q)) (snd (snd q))) (combine sel cells))) u w = Ok p /\
    pux p = u /\ puy p = w /\ samples p = map (fun q => time_sample ops comp (fst (snd q)) (snd (snd q)) (fst q)) (combine sel cells).
Proof.
  intros L N. assert (EF : map fst sel = map (fun q => fst (fst q)) (combine sel cells)).
  { clear N. revert cells L. induction sel as [|s sel IH]; intros [|c cells] L; cbn in L; try lia; [reflexivity|reflexivity|]. cbn. f_equal. apply IH. lia. }
  rewrite EF in N |- *.
  destruct (new_lemma (map (fun q => fst (fst q)) (combine sel cells)) (map (fun q => at_ (comp (snd (fst q))) (fst (snd q)) (snd (snd q))) (combine sel cells))
     (Some (map (fun q => at_ (o_mask ops (snd (fst q))) (fst (snd q)) (snd (snd q))) (combine sel cells))) u w) as (p & E & _ & U & W & _ & H); [now rewrite !map_length|now rewrite !map_length|].
  exists p. split; [exact E|]. split; [exact U|]. split; [exact W|]. destruct (H N) as [_ ->]. rewrite zip3_map, map_map. reflexivity.
Qed.
Lemma out_in_ivt wt x : negb (out_window wt x) = in_ivt wt x.
Proof. destruct wt as [[a b]|]; [|reflexivity]. cbn. destruct (qltb_spec x a), (qltb_spec b x), (qleb_spec a x), (qleb_spec x b); try reflexivity; exfalso; qlra. Qed.
Lemma nondecreasing_filter_fst {A} (P : num * A -> bool) (l : list (num * A)) : nondecreasing (map fst l) -> nondecreasing (map fst (filter P l)).
Proof.
  intro N. assert (K : exists filt, map fst (filter P l) = keep filt (map fst l)).
  { exists (map P l). clear N. induction l as [|a l IH]; [reflexivity|]. cbn [filter map keep]. destruct (P a); cbn; now rewrite IH. }
  destruct K as (filt & ->). now apply nondecreasing_keep.
Qed.
Lemma frames_fst {F} (t : tfield F) : length (tft t) = length (tff t) -> map fst (frames t) = tft t.
Proof. intro L. unfold frames. now apply map_fst_combine'. Qed.
Lemma wanted_sel {F} (t : tfield F) wt masked Q : length (tft t) = length (tff t) ->
  (forall k s, nth_error (frames t) k = Some s -> negb (nth k masked false || out_window wt (nths (tft t) k)) = Q s) ->
  Forall2 (fun k s => nth_error (frames t) k = Some s) (wanted_inds wt (tft t) masked) (filter Q (frames t)) /\
  map (fun k => nths (tft t) k) (wanted_inds wt (tft t) masked) = map fst (filter Q (frames t)).
Proof.
  intros L H. assert (FF : Forall2 (fun k s => nth_error (frames t) k = Some s) (wanted_inds wt (tft t) masked) (filter Q (frames t))).
  { unfold wanted_inds. apply Forall2_filter; [|exact H]. assert (LL : length (tft t) = length (frames t)) by (unfold frames; rewrite combine_length; lia). rewrite LL. apply Forall2_nth_seq. }
  split; [exact FF|]. induction FF as [|k [x f] l l' R FF IH]; [reflexivity|]. cbn [map fst]. f_equal; [|exact IH]. apply frames_nth in R. apply nth_error_nths. apply R.
Qed.
Lemma tf_time_profile_lemma {F} (ops : fops F) comp u t x y wt : tf_ok t -> grid_sorted (tfg t) -> on_axis (ax (tfg t)) x -> on_axis (ay (tfg t)) y ->
  match wt with Some (a, b) => (a < b)%num | None => True end ->
  exists i j p, nearest_node (ax (tfg t)) x i /\ nearest_node (ay (tfg t)) y j /\
    tf_time_profile ops comp u t x y wt = Ok p /\ pux p = tfu t /\ puy p = u /\
    samples p = map (time_sample ops comp i j) (in_time wt t).
Proof.
  intros O G HX HY HW. destruct (nearest_cell_lemma (tfg t) x y G HX HY) as (i & j & E & Ni & Nj). pose proof O as [L S0].
  destruct (wanted_sel t wt (repeat false (length (tft t))) (fun s => in_ivt wt (fst s)) L) as [FF EM].
  { intros k [tm f] Hk. apply frames_nth in Hk. destruct Hk as [Hk _]. apply nth_error_nths in Hk. rewrite Hk. cbn [fst]. rewrite <- out_in_ivt. f_equal.
    assert (nth k (repeat false (length (tft t))) false = false) as ->; [|reflexivity]. destruct (Nat.lt_ge_cases k (length (tft t))); [now rewrite nth_repeat|apply nth_overflow; now rewrite repeat_length]. }
  assert (LL : length (wanted_inds wt (tft t) (repeat false (length (tft t)))) <= length (repeat (i, j) (length (tft t)))).
  { rewrite repeat_length. unfold wanted_inds. etransitivity; [apply filter_length_le'|]. now rewrite seq_length. }
  destruct (prof_samples ops comp (filter (fun s => in_ivt wt (fst s)) (frames t)) (repeat (i, j) (length (tft t))) (tfu t) u) as (p & Ep & Up & Wp & Sp).
  - rewrite <- (Forall2_len _ _ _ FF). exact LL.
  - apply nondecreasing_filter_fst. now rewrite frames_fst.
  - exists i, j, p. split; [exact Ni|]. split; [exact Nj|]. split.
    + unfold tf_time_profile. rewrite E. cbn [bind].
      assert (bad_window wt = false) as -> by (destruct wt as [[a b]|]; [apply qleb_gt; exact HW|reflexivity]). cbn [guard].
      rewrite (time_samples_lemma ops comp t _ _ _ FF LL). cbn [bind]. rewrite EM. exact Ep.
    + split; [exact Up|]. split; [exact Wp|]. rewrite Sp. unfold in_time.
      assert (LS : length (filter (fun s => in_ivt wt (fst s)) (frames t)) <= length (tft t)) by (rewrite <- (Forall2_len _ _ _ FF); rewrite repeat_length in LL; exact LL).
      revert LS. generalize (length (tft t)). generalize (filter (fun s => in_ivt wt (fst s)) (frames t)). induction l as [|s l IH]; intros n Ln; [reflexivity|]. cbn in Ln. destruct n as [|n]; [lia|]. cbn [repeat combine map fst snd]. f_equal. apply IH. lia.
Qed.
(** along dated points, without window *)
Lemma increasing_same a b : increasing a -> increasing b -> (forall x, In x a <-> In x b) -> a = b.
Proof.
  revert b. induction a as [|x a IH]; intros b Ia Ib E.
  - destruct b as [|y b]; [reflexivity|]. destruct (proj2 (E y) (or_introl eq_refl)).
  - destruct b as [|y b]; [destruct (proj1 (E x) (or_introl eq_refl))|].
    assert (Hd : forall z l w, increasing (z :: l) -> In w l -> (z < w)%num).
    { intros z l w H Hw. apply In_nth_error in Hw. destruct Hw as (k & Hk). pose proof (nth_error_Some_lt _ _ _ Hk). apply nth_error_nths in Hk. specialize (H 0 (S k)). cbn in H. rewrite Hk in H. apply H; [lia|lia]. }
    assert (x = y).
    { destruct (proj1 (E x) (or_introl eq_refl)) as [H|H]; [now symmetry|]. destruct (proj2 (E y) (or_introl eq_refl)) as [H'|H']; [exact H'|].
      exfalso. pose proof (Hd y b x Ib H). pose proof (Hd x a y Ia H'). qlra. }
    subst y. f_equal. apply IH.
    + intros i j Hij Hj. apply (Ia (S i) (S j)); cbn; lia.
    + intros i j Hij Hj. apply (Ib (S i) (S j)); cbn; lia.
    + intro z. split; intro Hz.
      * destruct (proj1 (E z) (or_intror Hz)) as [<-|H]; [|exact H]. exfalso. pose proof (Hd x a x Ia Hz). qlra.
      * destruct (proj2 (E z) (or_intror Hz)) as [<-|H]; [|exact H]. exfalso. pose proof (Hd x b x Ib Hz). qlra.
Qed.
Lemma increasing_filter_fst {A} (P : num * A -> bool) (l : list (num * A)) : increasing (map fst l) -> increasing (map fst (filter P l)).
Proof.
  induction l as [|[x a] l IH]; intro I; [exact I|]. cbn [filter map fst] in *.
  assert (I' : increasing (map fst l)) by (intros i j Hij Hj; apply (I (S i) (S j)); cbn; lia). specialize (IH I').
  destruct (P (x, a)); [|exact IH]. cbn [map fst]. intros i j Hij Hj. cbn [length] in Hj. destruct j as [|j]; [lia|]. destruct i as [|i]; [|cbn; apply IH; lia].
  cbn. assert (Hin : In (nths (map fst (filter P l)) j) (map fst (filter P l))) by (apply nth_In; lia).
  apply in_map_iff in Hin. destruct Hin as ([z b] & <- & Hz). apply filter_In in Hz. destruct Hz as [Hz _]. cbn [fst].
  apply In_nth_error in Hz. destruct Hz as (k & Hk). specialize (I 0 (S k)). cbn in I.
  assert (Ek : nths (map fst l) k = z) by (apply nth_error_nths; rewrite nth_error_map, Hk; reflexivity). rewrite Ek in I. apply I; [lia|]. rewrite map_length. pose proof (nth_error_Some_lt _ _ _ Hk). lia.
Qed.
Lemma tf_time_profile_along_lemma {F} (ops : fops F) comp u t p : tf_ok t -> increasing (tft t) -> grid_sorted (tfg t) -> length (pv p) = length (xy p) -> increasing (pv p) ->
  (forall time, In time (pv p) -> In time (tft t)) ->
  (forall x y, In (x, y) (xy p) -> on_axis (ax (tfg t)) x /\ on_axis (ay (tfg t)) y) ->
  exists r, tf_time_profile_along ops comp u t p None = Ok r /\ pux r = tfu t /\ puy r = u /\
    Forall2 (fun q s => exists f i j, In (snd q, f) (frames t) /\ nearest_node (ax (tfg t)) (fst (fst q)) i /\ nearest_node (ay (tfg t)) (snd (fst q)) j /\
                        s = time_sample ops comp i j (snd q, f)) (combine (xy p) (pv p)) (samples r).
Proof.
  intros O I G LP IP Sub HB. pose proof O as [L S0]. set (masked := map (fun time => negb (memq time (pv p))) (tft t)).
  assert (HC : exists cells, Forall2 (fun q c => nearest_cell (tfg t) (fst q) (snd q) = Ok c /\ nearest_node (ax (tfg t)) (fst q) (fst c) /\ nearest_node (ay (tfg t)) (snd q) (snd c)) (xy p) cells).
  { clear -HB G. induction (xy p) as [|[x y] l IH]; [exists []; constructor|]. destruct IH as (cells & H); [intros; apply HB; now right|].
    destruct (HB x y (or_introl eq_refl)) as [H1 H2]. destruct (nearest_cell_lemma (tfg t) x y G H1 H2) as (i & j & E & Ni & Nj). exists ((i, j) :: cells). constructor; [cbn; auto|exact H]. }
  destruct HC as (cells & FC). pose proof (Forall2_len _ _ _ FC) as LC.
  set (Q := fun s : num * F => memq (fst s) (pv p)).
  destruct (wanted_sel t None masked Q L) as [FF EM].
  { intros k [tm f] Hk. apply frames_nth in Hk. destruct Hk as [Hk _]. unfold masked, Q. cbn [fst out_window]. rewrite orb_false_r.
    assert (E : nth_error (map (fun time => negb (memq time (pv p))) (tft t)) k = Some (negb (memq tm (pv p)))) by (now rewrite nth_error_map, Hk).
    rewrite (nth_error_nth _ _ _ E). now rewrite negb_involutive. }
  assert (ES : map fst (filter Q (frames t)) = pv p).
  { apply increasing_same; [apply increasing_filter_fst; now rewrite frames_fst|exact IP|]. intro z. split; intro Hz.
    - apply in_map_iff in Hz. destruct Hz as ([x f] & <- & Hz). apply filter_In in Hz. destruct Hz as [_ Hz]. unfold Q, memq in Hz. cbn [fst] in *. apply existsb_exists in Hz. destruct Hz as (w & Iw & Ew). apply qeqb_eq in Ew. subst w. exact Iw.
    - pose proof (Sub z Hz) as Ht. rewrite <- (frames_fst t L) in Ht. apply in_map_iff in Ht. destruct Ht as (s & <- & Hs). apply in_map. apply filter_In. split; [exact Hs|].
      unfold Q, memq. apply existsb_exists. exists (fst s). split; [exact Hz|apply qeqb_refl]. }
  assert (LS : length (filter Q (frames t)) = length cells) by (rewrite <- (map_length fst), ES; lia).
  destruct (prof_samples ops comp (filter Q (frames t)) cells (tfu t) u) as (r & Er & Ur & Wr & Sr); [lia|rewrite ES; now apply increasing_nondecreasing|].
  exists r. split.
  - unfold tf_time_profile_along. fold masked.
    assert (MC : mapM (fun q => nearest_cell (tfg t) (fst q) (snd q)) (xy p) = Ok cells) by (apply mapM_forall2; eapply Forall2_impl'; [|exact FC]; cbn; intros ? ? _ H; apply H).
    rewrite MC. cbn [bind bad_window guard]. rewrite (time_samples_lemma ops comp t _ _ _ FF) by (rewrite (Forall2_len _ _ _ FF); lia). cbn [bind]. rewrite EM. exact Er.
  - split; [exact Ur|]. split; [exact Wr|]. rewrite Sr.
    assert (IS : forall s, In s (filter Q (frames t)) -> In s (frames t)) by (intros s Hs; apply filter_In in Hs; apply Hs).
    rewrite <- ES. clear -FC LS IS. revert LS IS. generalize (filter Q (frames t)). induction FC as [|q c l cells (_ & H1 & H2) FC IH]; intros sel LS IS; [destruct sel; constructor|].
    destruct sel as [|[tm f] sel]; [discriminate LS|]. cbn [map combine fst snd]. constructor.
    + exists f, (fst c), (snd c). cbn [fst snd]. repeat split; auto; [apply IS; now left|apply H1|apply H1|apply H1|apply H2|apply H2|apply H2].
    + apply IH; [now injection LS|]. intros s Hs. apply IS. now right.
Qed.
