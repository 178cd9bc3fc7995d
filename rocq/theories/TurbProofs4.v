(** * TurbProofs4: splitting of the kinetic energy, Cauchy-Schwarz for the Reynolds stresses, auto-correlation *)
From Coq Require Import Permutation Lia.
From Verif Require Import Num Res ListLib SortLib Arr FieldModel ScalarFieldModel VectorFieldModel FieldSpec FieldProofs FieldProofs2 SeqSpec PointsModel PointsSpec
  TemporalModel TemporalSpec TemporalSpec2 TemporalProofs2 TemporalProofs5 TemporalProofs6 TemporalProofs10 TemporalProofs14 GradProofs2 TurbModel TurbSpec TurbProofs TurbProofs2 TurbProofs3
  ProfileModel ProfileSpec ProfileProofs.

(** ** the pairs of values known in a cell *)
Definition pairs (a b : vfield -> option num) (l : list vfield) : list (num * num) :=
  flat_map (fun f => match a f, b f with Some x, Some y => [(x, y)] | _, _ => [] end) l.
Lemma known2_pairs h a b l : known2 h a b l = map (fun p => h (fst p) (snd p)) (pairs a b l).
Proof. unfold known2, pairs. induction l as [|f l IH]; [reflexivity|]. cbn [flat_map]. rewrite map_app, IH. destruct (a f), (b f); reflexivity. Qed.
Lemma total_cons x l : total (x :: l) = (x + total l)%num.
Proof. reflexivity. Qed.
Lemma qn_succ n : qn (S n) = (qn n + 1)%num.
Proof. unfold qn. rewrite Nat2Z.inj_succ. unfold Z.succ. now rewrite qz_add. Qed.

(** ** Cauchy-Schwarz *)
Lemma total_sq_nonneg (g : num * num -> num) l : (0 <= total (map (fun p => (g p * g p)%num) l))%num.
Proof. induction l as [|p l IH]; [apply Qcle_refl|]. cbn [map]. rewrite total_cons. pose proof (qsq_nonneg (g p)). qlra. Qed.
Lemma total_sq_zero (g h : num * num -> num) l : total (map (fun p => (g p * g p)%num) l) = 0%num -> total (map (fun p => (g p * h p)%num) l) = 0%num.
Proof.
  induction l as [|p l IH]; [reflexivity|]. cbn [map]. rewrite !total_cons. intro H. pose proof (qsq_nonneg (g p)) as A. pose proof (total_sq_nonneg g l) as B.
  assert (E1 : (g p * g p = 0)%num) by qlra. assert (E2 : total (map (fun p => (g p * g p)%num) l) = 0%num) by qlra. rewrite (IH E2).
  destruct (Qcmult_integral _ _ E1) as [-> | ->]; qring.
Qed.
Lemma total_expand (g h : num * num -> num) s t l :
  total (map (fun p => ((s * h p - t * g p) * (s * h p - t * g p))%num) l) =
  (s * s * total (map (fun p => (h p * h p)%num) l) - 2 * (s * t) * total (map (fun p => (g p * h p)%num) l) + t * t * total (map (fun p => (g p * g p)%num) l))%num.
Proof. induction l as [|p l IH]; [unfold total; cbn; qring|]. cbn [map]. rewrite !total_cons, IH. qring. Qed.
Lemma cauchy_schwarz (g h : num * num -> num) l : let A := total (map (fun p => (g p * g p)%num) l) in let B := total (map (fun p => (g p * h p)%num) l) in let C := total (map (fun p => (h p * h p)%num) l) in
  (B * B <= A * C)%num.
Proof.
  intros A B C. pose proof (total_sq_nonneg g l) as PA. fold A in PA. destruct (qeqb_spec A 0%num) as [E|NA].
  - assert (EB : B = 0%num) by (apply total_sq_zero; exact E). rewrite E, EB. replace (0 * 0)%num with 0%num by qring. replace (0 * C)%num with 0%num by qring. apply Qcle_refl.
  - assert (P : (0 < A)%num) by (destruct (Qcle_lt_or_eq _ _ PA) as [K|K]; [exact K|congruence]).
    pose proof (total_sq_nonneg (fun p => (A * h p - B * g p)%num) l) as N. cbv beta in N. rewrite (total_expand g h A B l) in N. fold A B C in N.
    replace (A * A * C - 2 * (A * B) * B + B * B * A)%num with (A * (A * C - B * B))%num in N by qring.
    assert (K : (0 <= A * C - B * B)%num).
    { destruct (qleb_spec 0%num (A * C - B * B)%num) as [L|L]; [exact L|]. exfalso. assert (X : (A * (A * C - B * B) < A * 0)%num) by (now apply qmul_lt_l). replace (A * 0)%num with 0%num in X by qring. qlra. }
    qlra.
Qed.

(** ** one cell *)
Lemma known2_l h (a b : vfield -> option num) l : (forall f, In f l -> (a f = None <-> b f = None)) -> known2 h a a l = map (fun p => h (fst p) (fst p)) (pairs a b l).
Proof.
  unfold known2, pairs. induction l as [|f l IH]; intro H; [reflexivity|]. cbn [flat_map]. rewrite map_app, IH by (intros; apply H; now right). f_equal.
  destruct (H f (or_introl eq_refl)) as (H1 & H2). destruct (a f), (b f); try reflexivity; [discriminate (H2 eq_refl)].
Qed.
Lemma known2_r h (a b : vfield -> option num) l : (forall f, In f l -> (a f = None <-> b f = None)) -> known2 h b b l = map (fun p => h (snd p) (snd p)) (pairs a b l).
Proof.
  unfold known2, pairs. induction l as [|f l IH]; intro H; [reflexivity|]. cbn [flat_map]. rewrite map_app, IH by (intros; apply H; now right). f_equal.
  destruct (H f (or_introl eq_refl)) as (H1 & H2). destruct (a f), (b f); try reflexivity; [discriminate (H1 eq_refl)].
Qed.
Lemma dev_same m f i j : vcells f -> vcells m -> vg m = vg f -> i < length (ax (vg f)) -> j < length (ay (vg f)) -> (dev cx m f i j = None <-> dev cy m f i j = None).
Proof. intros. rewrite !dev_masked by (auto; (now left) || (now right)). reflexivity. Qed.

Lemma stress_bounds asort t nmin u : is_argsort asort -> vf_series_ok t -> tf_ok t -> increasing (tft t) -> good_unit (tfu t) -> tff t <> [] -> (0 <= nmin)%Z -> one_unit_for t u ->
  exists xx yy xy, reynolds asort t nmin = Ok (xx, yy, xy) /\ uv yy = uv xx /\ uv xy = uv xx /\
    forall i j, i < length (ax (tfg t)) -> j < length (ay (tfg t)) ->
      at_ (msk yy) i j = at_ (msk xx) i j /\ at_ (msk xy) i j = at_ (msk xx) i j /\
      (at_ (msk xx) i j = false -> exists a b c, at_ (values xx) i j = Some a /\ at_ (values yy) i j = Some b /\ at_ (values xy) i j = Some c /\
         (0 <= a)%num /\ (0 <= b)%num /\ (c * c <= a * b)%num).
Proof.
  intros AS SO O I GU NE NM OU. destruct (reynolds_lemma asort t nmin u AS SO O I GU NE NM OU) as (m & xx & yy & xy & Em & Er & Ux & Uy & Uxy & (_ & _ & Hx) & (_ & _ & Hy) & (_ & _ & Hxy)).
  destruct (mean_vcells t 1 SO NE ltac:(lia) m Em) as (Vm & Gm & _). destruct SO as (GO & OG & FO & DM).
  exists xx, yy, xy. split; [exact Er|]. split; [congruence|]. split; [congruence|]. intros i j Hi Hj.
  destruct (Hx i j Hi Hj) as (Mx & Ax). destruct (Hy i j Hi Hj) as (My & Ay). destruct (Hxy i j Hi Hj) as (Mxy & Axy). clear Hx Hy Hxy.
  assert (SM : forall f, In f (tff t) -> (dev cx m f i j = None <-> dev cy m f i j = None)).
  { intros f If. pose proof (OG f If) as Gf. cbn in Gf. apply dev_same; try (rewrite Gf; assumption); try assumption; try congruence. apply vclean_vcells. now apply FO. }
  set (P := pairs (fun f => dev cx m f i j) (fun f => dev cy m f i j) (tff t)).
  assert (LX : dev_products cx cx m (tff t) i j = map (fun p => (fst p * fst p)%num) P) by (apply known2_l; exact SM).
  assert (LY : dev_products cy cy m (tff t) i j = map (fun p => (snd p * snd p)%num) P) by (apply (known2_r Qcmult (fun f => dev cx m f i j)); exact SM).
  assert (LXY : dev_products cx cy m (tff t) i j = map (fun p => (fst p * snd p)%num) P) by (apply known2_pairs).
  rewrite LX in *. rewrite LY in *. rewrite LXY in *. rewrite map_length in *.
  assert (B : forall a b : bool, (a = true <-> b = true) -> a = b) by (intros [] []; intuition congruence).
  assert (E1 : at_ (msk yy) i j = at_ (msk xx) i j) by (apply B; rewrite Mx, My; reflexivity). assert (E2 : at_ (msk xy) i j = at_ (msk xx) i j) by (apply B; rewrite Mx, Mxy; reflexivity).
  split; [exact E1|]. split; [exact E2|]. intro M. rewrite E1 in Ay. rewrite E2 in Axy. destruct (Ax M) as (a & Ea & Ta). destruct (Ay M) as (b & Eb & Tb). destruct (Axy M) as (c & Ec & Tc).
  exists a, b, c. split; [exact Ea|]. split; [exact Eb|]. split; [exact Ec|]. rewrite map_length in *. rewrite Ux in Ta. rewrite Uy in Tb. rewrite Uxy in Tc. clear - Ta Tb Tc M Mx NE OU FO NM.
  assert (K : (0 < sc (unit_mul u u) * qn (length P))%num).
  { unfold one_unit_for in OU. change (sc (unit_mul u u)) with (sc u * sc u)%num. clearbody P. destruct (tff t) as [|f r]; [congruence|]. assert (good_unit u) by (rewrite <- (OU f (or_introl eq_refl)); apply FO; now left). apply qmul_pos; [now apply qmul_pos|]. apply qn_pos.
    destruct (length P); [|lia]. destruct Mx as (_ & Mx). rewrite Mx in M by exact NM. discriminate. }
  set (k := (sc (unit_mul u u) * qn (length P))%num) in *.
  replace (a * sc (unit_mul u u) * qn (length P))%num with (k * a)%num in Ta by (unfold k; qring). replace (b * sc (unit_mul u u) * qn (length P))%num with (k * b)%num in Tb by (unfold k; qring).
  replace (c * sc (unit_mul u u) * qn (length P))%num with (k * c)%num in Tc by (unfold k; qring). clearbody k.
  assert (CAN : forall z z', (k * z <= k * z')%num -> (z <= z')%num).
  { intros z z' H. destruct (qleb_spec z z') as [L|L]; [exact L|]. exfalso. pose proof (qmul_lt_l _ _ _ K L). qlra. }
  pose proof (total_sq_nonneg fst P) as PA. pose proof (total_sq_nonneg snd P) as PB. pose proof (cauchy_schwarz fst snd P) as CS. cbv zeta in CS. rewrite <- Ta in *. rewrite <- Tb in *. rewrite <- Tc in *.
  split; [apply CAN; replace (k * 0)%num with 0%num by qring; exact PA|]. split; [apply CAN; replace (k * 0)%num with 0%num by qring; exact PB|].
  apply CAN, CAN. replace (k * (k * (c * c)))%num with (k * c * (k * c))%num by qring. replace (k * (k * (a * b)))%num with (k * a * (k * b))%num by qring. exact CS.
Qed.

(** ** splitting of the energy *)
Lemma pairs_dev m i j a b l : phys cx m i j = Some a -> phys cy m i j = Some b ->
  pairs (fun f => dev cx m f i j) (fun f => dev cy m f i j) l = map (fun p => (fst p - a, snd p - b)%num) (pairs (fun f => phys cx f i j) (fun f => phys cy f i j) l).
Proof.
  intros Ea Eb. unfold pairs. induction l as [|f l IH]; [reflexivity|]. cbn [flat_map]. rewrite map_app, IH. f_equal. unfold dev. rewrite Ea, Eb. destruct (phys cx f i j), (phys cy f i j); reflexivity.
Qed.
Lemma vavail_phys c l i j : vavailables c l i j = flat_map (fun f => match phys c f i j with Some x => [x] | None => [] end) l.
Proof. unfold vavailables. apply flat_map_ext. intro f. unfold vavail, phys. destruct (at_ (vmsk f) i j); [reflexivity|]. destruct (at_ (c f) i j); reflexivity. Qed.
Lemma vavail_pairs l i j : (forall f, In f l -> (phys cx f i j = None <-> phys cy f i j = None)) ->
  vavailables cx l i j = map fst (pairs (fun f => phys cx f i j) (fun f => phys cy f i j) l) /\ vavailables cy l i j = map snd (pairs (fun f => phys cx f i j) (fun f => phys cy f i j) l).
Proof.
  intro H. rewrite !vavail_phys. unfold pairs. induction l as [|f l IH]; [auto|]. destruct IH as (I1 & I2); [intros; apply H; now right|]. cbn [flat_map]. rewrite !map_app, I1, I2.
  destruct (H f (or_introl eq_refl)) as (H1 & H2). destruct (phys cx f i j), (phys cy f i j); auto; [discriminate (H2 eq_refl)|discriminate (H1 eq_refl)].
Qed.
Lemma split_total a b P : (a * qn (length P) = total (map fst P))%num -> (b * qn (length P) = total (map snd P))%num ->
  total (map (fun p => energy (fst p) (snd p)) P) = (energy a b * qn (length P) + total (map (fun p => energy (fst p - a) (snd p - b)) P))%num.
Proof.
  intros Ha Hb.
  assert (G : total (map (fun p => energy (fst p) (snd p)) P) = (energy a b * qn (length P) + total (map (fun p => energy (fst p - a) (snd p - b)) P) + a * (total (map fst P) - a * qn (length P)) + b * (total (map snd P) - b * qn (length P)))%num).
  { clear Ha Hb. assert (T2 : (2 <> 0)%num) by (now apply qgt_neq). induction P as [|p P IH].
    - cbn [map length]. change (total []) with 0%num. change (qn 0) with 0%num. unfold energy, Qcdiv. qring.
    - cbn [map length]. rewrite !total_cons, IH, qn_succ. unfold energy. qfield. exact T2. }
  rewrite G, <- Ha, <- Hb. qring.
Qed.

Lemma split_lemma asort t : is_argsort asort -> vf_series_ok t -> tf_ok t -> increasing (tft t) -> good_unit (tfu t) -> tff t <> [] ->
  exists k r, mean_kinetic_energy t = Ok k /\ mean_tke asort t = Ok r /\ sg k = tfg t /\ sg r = tfg t /\
    forall i j, i < length (ax (tfg t)) -> j < length (ay (tfg t)) ->
      (at_ (msk k) i j = true <-> length (energies (tff t) i j) <= 1) /\ at_ (msk r) i j = at_ (msk k) i j /\
      (at_ (msk k) i j = false -> exists a b, at_ (values k) i j = Some a /\ at_ (values r) i j = Some b /\
         ((a * sc (uv k) + b * sc (uv r)) * qn (length (energies (tff t) i j)) = total (energies (tff t) i j))%num).
Proof.
  intros AS SO O I GU NE. destruct (mean_tke_lemma asort t AS SO O I GU NE) as (m & r & Em & Er & (Gr & Wr & Hr) & _).
  destruct (mean_vcells t 1 SO NE ltac:(lia) m Em) as (Vm & Gm & Wm & Um & _ & Hm). destruct SO as (GO & OG & FO & DM).
  destruct (mean_energy_lemma m) as (k & Ek & Uk & (Gk & Wk & Hk)); [now rewrite Gm|assumption..|]. exists k, r. split; [unfold mean_kinetic_energy; rewrite Em; exact Ek|]. split; [exact Er|]. split; [congruence|]. split; [exact Gr|].
  rewrite Gm in Hk. intros i j Hi Hj. destruct (Hr i j Hi Hj) as (Mr & Ar). destruct (Hm i j Hi Hj) as (Mm & Am). destruct (Hk i j Hi Hj) as (Mk & Ak).
  assert (SP : forall f, In f (tff t) -> (phys cx f i j = None <-> phys cy f i j = None)).
  { intros f If. pose proof (OG f If) as Gf. cbn in Gf. rewrite !phys_masked; try (rewrite Gf; assumption); try (now left); try (now right); try reflexivity; apply vclean_vcells; now apply FO. }
  destruct (vavail_pairs (tff t) i j SP) as (LX & LY). set (P := pairs (fun f => phys cx f i j) (fun f => phys cy f i j) (tff t)) in *.
  assert (LE : energies (tff t) i j = map (fun p => energy (fst p) (snd p)) P) by apply known2_pairs. rewrite LE, map_length. rewrite LX, LY in *. rewrite !map_length in *.
  assert (PX : phys cx m i j = None <-> at_ (vmsk m) i j = true) by (apply phys_masked; rewrite ?Gm; auto; now left).
  assert (PY : phys cy m i j = None <-> at_ (vmsk m) i j = true) by (apply phys_masked; rewrite ?Gm; auto; now right).
  assert (MK : at_ (msk k) i j = true <-> at_ (vmsk m) i j = true).
  { rewrite Mk. unfold both_energy. destruct (phys cx m i j), (phys cy m i j); intuition discriminate. }
  assert (B : forall a b : bool, (a = true <-> b = true) -> a = b) by (intros [] []; intuition congruence).
  split; [rewrite MK, Mm; lia|].
  assert (MR : at_ (msk r) i j = at_ (msk k) i j).
  { apply B. rewrite Mr, MK. destruct (at_ (vmsk m) i j) eqn:EM.
    - split; [reflexivity|]. intros _. unfold dev_energies. destruct PX as (_ & PX). specialize (PX eq_refl). assert (Z : known2 energy (fun f => dev cx m f i j) (fun f => dev cy m f i j) (tff t) = []).
      { unfold known2. clear -PX. induction (tff t) as [|f l IH]; [reflexivity|]. cbn [flat_map]. rewrite IH. unfold dev at 1. rewrite PX. destruct (phys cx f i j); reflexivity. }
      rewrite Z. cbn. lia.
    - split; [|discriminate]. intro H. apply Mm. destruct (phys cx m i j) as [a|] eqn:Ea; [|destruct PX as (PX & _); discriminate (PX eq_refl)]. destruct (phys cy m i j) as [b|] eqn:Eb; [|destruct PY as (PY & _); discriminate (PY eq_refl)].
      unfold dev_energies in H. rewrite known2_pairs, (pairs_dev m i j a b _ Ea Eb), !map_length in H. exact H. }
  split; [exact MR|]. intro M. rewrite MR in Ar. assert (EM : at_ (vmsk m) i j = false) by (destruct (at_ (vmsk m) i j); [|reflexivity]; destruct MK as (_ & MK); rewrite MK in M by reflexivity; discriminate).
  destruct (Am EM) as ((x & Ex & Tx) & (y & Ey & Ty)). assert (Ea : phys cx m i j = Some (x * sc (vuv m))%num) by (unfold phys; now rewrite EM, Ex). assert (Eb : phys cy m i j = Some (y * sc (vuv m))%num) by (unfold phys; now rewrite EM, Ey).
  destruct (Ak _ ltac:(rewrite Ea, Eb; reflexivity)) as (a & Ka & Ta). destruct (Ar M) as (b & Kb & Tb). exists a, b. split; [exact Ka|]. split; [exact Kb|]. rewrite !map_length in *.
  assert (LD : dev_energies m (tff t) i j = map (fun p => energy (fst p - x * sc (vuv m)) (snd p - y * sc (vuv m))) P).
  { unfold dev_energies. rewrite known2_pairs, (pairs_dev m i j _ _ _ Ea Eb), map_map. reflexivity. }
  rewrite LD in Tb. rewrite map_length in Tb. rewrite (split_total _ _ P Tx Ty). rewrite Ta, <- Tb. qring.
Qed.

(** the turbulent kinetic energy is half the trace of the stresses *)
Lemma tke_trace asort t u : is_argsort asort -> vf_series_ok t -> tf_ok t -> increasing (tft t) -> good_unit (tfu t) -> tff t <> [] -> one_unit_for t u ->
  exists r xx yy xy, mean_tke asort t = Ok r /\ reynolds asort t 1 = Ok (xx, yy, xy) /\ uv r = uv xx /\ uv r = uv yy /\
    forall i j, i < length (ax (tfg t)) -> j < length (ay (tfg t)) -> at_ (msk r) i j = at_ (msk xx) i j /\ at_ (msk r) i j = at_ (msk yy) i j /\
      (at_ (msk r) i j = false -> exists a b, at_ (values xx) i j = Some a /\ at_ (values yy) i j = Some b /\ at_ (values r) i j = Some ((a + b) / 2)%num).
Proof.
  intros AS SO O I GU NE OU. destruct (mean_tke_lemma asort t AS SO O I GU NE) as (m & r & Em & Er & (Gr & Wr & Hr) & f0 & l0 & E0 & Ur).
  destruct (reynolds_lemma asort t 1 u AS SO O I GU NE ltac:(lia) OU) as (m' & xx & yy & xy & Em' & Ey & Ux & Uy & _ & (_ & _ & Hx) & (_ & _ & Hy) & _). rewrite Em in Em'. injection Em' as <-.
  destruct (mean_vcells t 1 SO NE ltac:(lia) m Em) as (Vm & Gm & Wm & Um & _ & _). destruct SO as (GO & OG & FO & DM).
  assert (U0 : vuv f0 = u) by (apply OU; rewrite E0; now left). rewrite U0 in Ur. assert (GUu : good_unit u) by (rewrite <- U0; apply FO; rewrite E0; now left).
  exists r, xx, yy, xy. split; [exact Er|]. split; [exact Ey|]. split; [congruence|]. split; [congruence|]. intros i j Hi Hj.
  destruct (Hr i j Hi Hj) as (Mr & Ar). destruct (Hx i j Hi Hj) as (Mx & Ax). destruct (Hy i j Hi Hj) as (My & Ay).
  assert (SM : forall f, In f (tff t) -> (dev cx m f i j = None <-> dev cy m f i j = None)).
  { intros f If. pose proof (OG f If) as Gf. cbn in Gf. apply dev_same; try (rewrite Gf; assumption); try assumption; try congruence. apply vclean_vcells. now apply FO. }
  set (P := pairs (fun f => dev cx m f i j) (fun f => dev cy m f i j) (tff t)) in *.
  assert (LX : dev_products cx cx m (tff t) i j = map (fun p => (fst p * fst p)%num) P) by (apply known2_l; exact SM).
  assert (LY : dev_products cy cy m (tff t) i j = map (fun p => (snd p * snd p)%num) P) by (apply (known2_r Qcmult (fun f => dev cx m f i j)); exact SM).
  assert (LR : dev_energies m (tff t) i j = map (fun p => energy (fst p) (snd p)) P) by (apply known2_pairs).
  rewrite LX in *. rewrite LY in *. rewrite LR in *. rewrite map_length in *.
  assert (B : forall a b : bool, (a = true <-> b = true) -> a = b) by (intros [] []; intuition congruence).
  assert (E1 : at_ (msk r) i j = at_ (msk xx) i j) by (apply B; rewrite Mx, Mr; reflexivity). assert (E2 : at_ (msk r) i j = at_ (msk yy) i j) by (apply B; rewrite Mr, My; reflexivity).
  split; [exact E1|]. split; [exact E2|]. intro M. rewrite <- E1 in Ax. rewrite <- E2 in Ay. destruct (Ax M) as (a & Ea & Ta). destruct (Ay M) as (b & Eb & Tb). destruct (Ar M) as (c & Ec & Tc).
  exists a, b. split; [exact Ea|]. split; [exact Eb|]. rewrite Ec. f_equal. rewrite map_length in *. rewrite Ux in Ta. rewrite Uy in Tb. rewrite Ur in Tc.
  assert (T : total (map (fun p => energy (fst p) (snd p)) P) = ((total (map (fun p => (fst p * fst p)%num) P) + total (map (fun p => (snd p * snd p)%num) P)) / 2)%num).
  { clear. assert (T2 : (2 <> 0)%num) by (now apply qgt_neq). induction P as [|p P IH]; [cbn [map]; change (total []) with 0%num; unfold Qcdiv; qring|]. cbn [map]. rewrite !total_cons, IH. unfold energy, Qcdiv. qring. }
  rewrite T, <- Ta, <- Tb in Tc.
  assert (K : (0 < sc (unit_mul u u) * qn (length P))%num).
  { change (sc (unit_mul u u)) with (sc u * sc u)%num. clearbody P. apply qmul_pos; [now apply qmul_pos|]. apply qn_pos. destruct (length P); [|lia]. destruct Mr as (_ & Mr). rewrite Mr in M by (cbn; lia). discriminate. }
  apply (qmul_inj_r _ _ (sc (unit_mul u u) * qn (length P))%num); [now apply qgt_neq|]. transitivity (c * sc (unit_mul u u) * qn (length P))%num; [qring|]. rewrite Tc. unfold Qcdiv. qring.
Qed.
