(** * TurbProofs6: the stresses form a non-negative tensor, whatever the units of the frames *)
From Coq Require Import Permutation Lia.
From Verif Require Import Num Res ListLib SortLib Arr FieldModel ScalarFieldModel VectorFieldModel FieldSpec FieldProofs FieldProofs2 SeqSpec PointsModel PointsSpec
  TemporalModel TemporalSpec TemporalSpec2 TemporalProofs2 TemporalProofs5 TemporalProofs6 TemporalProofs10 TemporalProofs14 GradProofs2 TurbModel TurbSpec TurbProofs TurbProofs2 TurbProofs3 TurbProofs4.

Definition raw_of (c : vfield -> arr onum) (f : vfield) (i j : nat) : option num := if at_ (vmsk f) i j then None else at_ (c f) i j.
Lemma raw_fold c d es i j : (forall e, In e es -> at_ (vmsk e) i j = false -> exists x y, at_ (c e) i j = Some x /\ at_ (d e) i j = Some y) ->
  let l := known2 Qcmult (fun e => raw_of c e i j) (fun e => raw_of d e i j) es in forall s n,
  fold_left (fun (a : onum * nat) f => if at_ (vmsk f) i j then a else (oadd (fst a) (omul (at_ (c f) i j) (at_ (d f) i j)), S (snd a))) es (Some s, n) = (Some (s + total l)%num, n + length l) /\ rs_count es i j = length l.
Proof.
  unfold rs_count, known2, raw_of. cbv zeta. induction es as [|e es IH]; intros H s n; [cbn; unfold total; cbn; split; [repeat f_equal; [qring|lia]|reflexivity]|].
  cbn [fold_left flat_map filter]. assert (IH' := IH (fun e' I => H e' (or_intror I))). clear IH. destruct (at_ (vmsk e) i j) eqn:E; cbn [negb app].
  - apply IH'.
  - destruct (H e (or_introl eq_refl) E) as (x & y & -> & ->). cbn [fst snd omul lift2 oadd app length]. destruct (IH' (s + x * y)%num (S n)) as (-> & ->). split; [|reflexivity]. rewrite total_cons. f_equal; [f_equal; qring|lia].
Qed.
Lemma raw_field c d es g nmin v : grid_ok2 g -> (0 <= nmin)%Z ->
  (forall i j, i < length (ax g) -> j < length (ay g) -> forall e, In e es -> at_ (vmsk e) i j = false -> exists x y, at_ (c e) i j = Some x /\ at_ (d e) i j = Some y) ->
  exists r, sf_import (ax g) (ay g) (mkarr (length (ax g)) (length (ay g)) (rs_cell c d es nmin))
      (Some (mkarr (length (ax g)) (length (ay g)) (fun i j => (Z.of_nat (rs_count es i j) <=? nmin)%Z))) (ux g) (uy g) v = Ok r /\ uv r = v /\
    forall i j, i < length (ax g) -> j < length (ay g) -> let l := known2 Qcmult (fun e => raw_of c e i j) (fun e => raw_of d e i j) es in
      at_ (msk r) i j = (Z.of_nat (length l) <=? nmin)%Z /\ (at_ (msk r) i j = false -> exists x, at_ (values r) i j = Some x /\ (qn (length l) * x = total l)%num /\ (0 < qn (length l))%num).
Proof.
  intros ((IX & IY) & LX & LY) NM H. eexists. split; [apply sf_import_plain; auto|]. split; [reflexivity|]. intros i j Hi Hj l. cbn [msk amap2 amap at_ raw values].
  destruct (raw_fold c d es i j (H i j Hi Hj) 0%num 0) as (E & Hc). fold l in E, Hc. unfold rs_cell. rewrite E, Hc. cbn [Nat.add].
  destruct (Z.leb_spec (Z.of_nat (length l)) nmin) as [A|A]; [split; [reflexivity|discriminate]|]. destruct (Z.ltb_spec nmin (Z.of_nat (length l))) as [B|B]; [|lia]. cbn [option_map isnan orb]. split; [reflexivity|]. intros _.
  assert (P : (0 < qn (length l))%num) by (apply qn_pos; lia). eexists. split; [reflexivity|]. split; [|exact P]. rewrite Qcmult_comm, qdiv_mul by (now apply qgt_neq). qring.
Qed.

Lemma stress_tensor asort t nmin : is_argsort asort -> vf_series_ok t -> tf_ok t -> increasing (tft t) -> good_unit (tfu t) -> tff t <> [] -> (0 <= nmin)%Z ->
  exists xx yy xy, reynolds asort t nmin = Ok (xx, yy, xy) /\ uv yy = uv xx /\ uv xy = uv xx /\
    forall i j, i < length (ax (tfg t)) -> j < length (ay (tfg t)) ->
      at_ (msk yy) i j = at_ (msk xx) i j /\ at_ (msk xy) i j = at_ (msk xx) i j /\
      (at_ (msk xx) i j = false -> exists a b c, at_ (values xx) i j = Some a /\ at_ (values yy) i j = Some b /\ at_ (values xy) i j = Some c /\
         (0 <= a)%num /\ (0 <= b)%num /\ (c * c <= a * b)%num).
Proof.
  intros AS SO O I GU NE NM. destruct (tf_fluct_vf asort t 1 AS SO O I GU NE) as (m & t' & Em & Et & O' & G' & _ & EF & _); [lia|]. destruct SO as (GO & OG & FO & _).
  assert (FF : Forall2 (fun f e => vminus_mean f m e) (tff t) (tff t')) by (apply (forall2_frames (fun f e => vminus_mean f m e) (tft t) (tff t) (tft t') (tff t')); [symmetry; apply O|symmetry; apply O'|exact EF]).
  unfold reynolds. rewrite Et. cbn [bind].
  assert (SH : existsb (fun f => negb (shape_is (cx f) (tfg t') && shape_is (cy f) (tfg t'))) (tff t') = false).
  { apply not_true_is_false. intro X. apply existsb_exists in X. destruct X as (e & Ie & X). apply negb_true_iff in X. destruct (Forall2_in_r _ _ _ _ FF Ie) as (f & If & Gd & _ & ((W1 & W2) & (W3 & W4) & _) & _).
    assert (Ge : vg e = tfg t') by (rewrite Gd, G'; now apply OG). rewrite Ge in *. rewrite !shape_is_iff in X by assumption. discriminate. }
  rewrite SH. cbn [guard]. destruct (tff t) as [|f0 r] eqn:E0; [congruence|]. rewrite <- E0 in FF. clear E0.
  assert (K : forall (c : vfield -> arr onum), c = cx \/ c = cy -> forall i j, i < length (ax (tfg t)) -> j < length (ay (tfg t)) -> forall e, In e (tff t') -> at_ (vmsk e) i j = false -> exists x, at_ (c e) i j = Some x).
  { intros c Hc i j Hi Hj e Ie M. destruct (Forall2_in_r _ _ _ _ FF Ie) as (f & If & Gd & _ & _ & V). pose proof (OG f If) as Gf. cbn in Gf. rewrite Gf in V. destruct (V i j Hi Hj) as (_ & V'). destruct (V' M) as ((x & mx & z & X) & (y & my & w & Y)).
    destruct Hc as [-> | ->]; [exists z|exists w]; tauto. }
  assert (K2 : forall c d : vfield -> arr onum, c = cx \/ c = cy -> d = cx \/ d = cy -> forall i j, i < length (ax (tfg t)) -> j < length (ay (tfg t)) -> forall e, In e (tff t') -> at_ (vmsk e) i j = false -> exists x y, at_ (c e) i j = Some x /\ at_ (d e) i j = Some y).
  { intros c d Hc Hd i j Hi Hj e Ie M. destruct (K c Hc i j Hi Hj e Ie M) as (x & Hx). destruct (K d Hd i j Hi Hj e Ie M) as (y & Hy). exists x, y. auto. }
  destruct (raw_field cx cx (tff t') (tfg t) nmin (unit_mul (vuv f0) (vuv f0)) GO NM) as (xx & Ex & Ux & Hx); [apply K2; auto|].
  destruct (raw_field cy cy (tff t') (tfg t) nmin (unit_mul (vuv f0) (vuv f0)) GO NM) as (yy & Ey & Uy & Hy); [apply K2; auto|].
  destruct (raw_field cx cy (tff t') (tfg t) nmin (unit_mul (vuv f0) (vuv f0)) GO NM) as (xy & Exy & Uxy & Hxy); [apply K2; auto|].
  exists xx, yy, xy. rewrite Ex. cbn [bind]. rewrite Ey. cbn [bind]. rewrite Exy. cbn [bind]. split; [reflexivity|]. split; [congruence|]. split; [congruence|]. intros i j Hi Hj.
  destruct (Hx i j Hi Hj) as (Mx & Ax). destruct (Hy i j Hi Hj) as (My & Ay). destruct (Hxy i j Hi Hj) as (Mxy & Axy). clear Hx Hy Hxy.
  assert (SM : forall e, In e (tff t') -> (raw_of cx e i j = None <-> raw_of cy e i j = None)).
  { intros e Ie. unfold raw_of. destruct (at_ (vmsk e) i j) eqn:EM; [tauto|]. destruct (K2 cx cy (or_introl eq_refl) (or_intror eq_refl) i j Hi Hj e Ie EM) as (x & y & -> & ->). split; discriminate. }
  set (P := pairs (fun f => raw_of cx f i j) (fun f => raw_of cy f i j) (tff t')) in *.
  rewrite (known2_l _ _ (fun e => raw_of cy e i j)) in Mx, Ax by exact SM. rewrite (known2_r _ (fun e => raw_of cx e i j)) in My, Ay by exact SM. rewrite known2_pairs in Mxy, Axy. fold P in Mx, Ax, My, Ay, Mxy, Axy.
  rewrite map_length in *. clearbody P. split; [congruence|]. split; [congruence|]. intro M. destruct (Ax M) as (a & Ea & Ta & Kp). destruct (Ay ltac:(congruence)) as (b & Eb & Tb & _). destruct (Axy ltac:(congruence)) as (c & Ec & Tc & _).
  exists a, b, c. split; [exact Ea|]. split; [exact Eb|]. split; [exact Ec|]. set (k := qn (length P)) in *. clearbody k.
  assert (CAN : forall z z', (k * z <= k * z')%num -> (z <= z')%num).
  { intros z z' H. destruct (qleb_spec z z') as [L|L]; [exact L|]. exfalso. pose proof (qmul_lt_l _ _ _ Kp L). qlra. }
  pose proof (total_sq_nonneg fst P) as PA. pose proof (total_sq_nonneg snd P) as PB. pose proof (cauchy_schwarz fst snd P) as CS. cbv zeta in CS. rewrite <- Ta in *. rewrite <- Tb in *. rewrite <- Tc in *.
  split; [apply CAN; replace (k * 0)%num with 0%num by qring; exact PA|]. split; [apply CAN; replace (k * 0)%num with 0%num by qring; exact PB|].
  apply CAN, CAN. replace (k * (k * (c * c)))%num with (k * c * (k * c))%num by qring. replace (k * (k * (a * b)))%num with (k * a * (k * b))%num by qring. exact CS.
Qed.
