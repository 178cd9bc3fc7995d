(** * PodProofs4: energy of the modes *)
From Coq Require Import Sorted Permutation Lia.
From Verif Require Import Num Res ListLib SortLib Arr FieldModel ScalarFieldModel VectorFieldModel ProfileModel FieldSpec SeqSpec
  ProfileSpec ProfileProofs ProfileProofs2 PointsModel PointsSpec FieldProofs FieldProofs2 TemporalModel TemporalSpec TemporalProofs2 TemporalProofs10 GradModel GradSpec GradProofs5 PodModel PodSpec PodProofs PodProofs2 PodProofs3.

Lemma some_list (l : list onum) : (forall a, In a l -> a <> None) -> exists v, l = map Some v.
Proof.
  induction l as [|[a|] l IH]; intro H; [exists []; reflexivity| |exfalso; apply (H None); [now left|reflexivity]].
  destruct IH as (v & ->); [intros; apply H; now right|]. now exists (a :: v).
Qed.
Lemma flatten_some (a : arr onum) : (forall i j, i < d0 a -> j < d1 a -> at_ a i j <> None) -> exists v, flatten a = map Some v /\ length v = d0 a * d1 a.
Proof.
  intro H. destruct (some_list (flatten a)) as (v & E).
  - intros x Hx. unfold flatten in Hx. apply in_map_iff in Hx. destruct Hx as ([i j] & <- & I). apply in_aidx in I. cbn. now apply H.
  - exists v. split; [exact E|]. rewrite <- (map_length Some v), <- E. unfold flatten. rewrite map_length. unfold aidx.
    assert (G : forall n m, length (flat_map (fun i => map (fun j => (i, j)) (seq 0 m)) (seq 0 n)) = n * m); [|apply G].
    clear. intros n m. generalize 0 at 2 as s. induction n as [|n IH]; intro s; [reflexivity|]. cbn [seq flat_map]. rewrite app_length, map_length, seq_length, IH. lia.
Qed.
Lemma qsum_total l : PointsModel.qsum l = total l. Proof. reflexivity. Qed.
Lemma omean_some (l : list num) : l <> [] -> omean (map Some l) = Some (total l / qn (length l))%num.
Proof. intro NE. unfold omean. rewrite osum_some, map_length. destruct l; [congruence|]. reflexivity. Qed.
Lemma total_scale c l : total (map (fun x => x * c)%num l) = (total l * c)%num.
Proof. unfold total. induction l as [|a l IH]; cbn [map fold_right]; [qring|]. rewrite IH. qring. Qed.
Lemma total_nonneg l : (forall a, In a l -> (0 <= a)%num) -> (0 <= total l)%num.
Proof. unfold total. induction l as [|a l IH]; intro H; cbn [fold_right]; [qlra|]. specialize (IH (fun b Hb => H b (or_intror Hb))). specialize (H a (or_introl eq_refl)). qlra. Qed.
Lemma total_sq_nonneg l : (0 <= total (map (fun x => x * x)%num l))%num.
Proof. apply total_nonneg. intros a Ha. apply in_map_iff in Ha. destruct Ha as (x & <- & _). apply qsq_nonneg. Qed.
Lemma qn_pos n : 0 < n -> (0 < qn n)%num.
Proof. intro H. unfold qn. replace 0%num with (qz 0) by reflexivity. apply qz_lt. lia. Qed.
Lemma energy_value (S N C T e : num) : (0 < N)%num -> (0 < T)%num -> e = (S * qq 1 2 / N * (C / T))%num -> (e * (2 * N) * T = S * C)%num.
Proof.
  intros HN HT ->. assert (N <> 0%num) by (now apply qgt_neq). assert (T <> 0%num) by (now apply qgt_neq).
  replace (qq 1 2) with (1 / 2)%num by reflexivity. qfield; repeat split; auto; discriminate.
Qed.
Lemma energy_nonneg (S N C T e : num) : (0 < N)%num -> (0 < T)%num -> (0 <= S)%num -> (0 <= C)%num -> (e * (2 * N) * T = S * C)%num -> (0 <= e)%num.
Proof.
  intros HN HT HS HC E. destruct (qltb_spec e 0) as [Q|Q]; [|exact Q]. exfalso.
  pose proof (qmul_nonneg S C HS HC) as H. pose proof (qmul_pos N T HN HT) as P. set (NT := (N * T)%num) in *.
  assert (E' : (S * C = 2 * (e * NT))%num) by (rewrite <- E; unfold NT; qring). clearbody NT. assert ((e * NT < 0)%num) by qnra. qlra.
Qed.
Lemma sf_energy_lemma f p : sf_full f -> sf_wf f -> ax (sg f) <> [] -> ay (sg f) <> [] -> (forall c, In c (yv p) -> c <> None) -> yv p <> [] ->
  exists e, mode_energy sf_mops f p = Some e /\ sf_energy f p e /\ (0 <= e)%num.
Proof.
  intros FU ((W0 & W1) & _) NX NY FE NE. destruct (flatten_some (values f)) as (v & Ev & Lv).
  { cbn. intros i j Hi Hj. destruct (FU i j) as (-> & (x & ->)); [congruence|congruence|discriminate]. }
  destruct (some_list _ FE) as (c & Ec).
  assert (LV : 0 < length v). { rewrite Lv. cbn. rewrite W0, W1. destruct (ax (sg f)); [congruence|]. destruct (ay (sg f)); [congruence|]. cbn. lia. }
  assert (LC : 0 < length c). { destruct c; [|cbn; lia]. rewrite Ec in NE. now destruct NE. }
  exists (total (map (fun x => x * x)%num v) * qq 1 2 / qn (length v) * (total (map (fun x => x * x)%num c) / qn (length c)))%num.
  assert (E : mode_energy sf_mops f p = Some (total (map (fun x => x * x)%num v) * qq 1 2 / qn (length v) * (total (map (fun x => x * x)%num c) / qn (length c)))%num).
  { unfold mode_energy, mode_magnitude. cbn [m_comps sf_mops fold_left]. rewrite Ev, Ec, !map_map.
    assert (G : forall l, map (fun x => oscale (qq 1 2) (osq (Some x))) l = map Some (map (fun x => x * qq 1 2)%num (map (fun x => x * x)%num l))) by (intro l; rewrite !map_map; reflexivity).
    assert (G' : forall l, map (fun x => osq (Some x)) l = map Some (map (fun x => x * x)%num l)) by (intro l; rewrite map_map; reflexivity).
    rewrite G, G', !omean_some, !map_length, total_scale; [reflexivity| |]; intro Hn; apply (f_equal (@length _)) in Hn; rewrite !map_length in Hn; cbn in Hn; lia. }
  split; [exact E|].
  assert (V : forall e, e = (total (map (fun x => x * x)%num v) * qq 1 2 / qn (length v) * (total (map (fun x => x * x)%num c) / qn (length c)))%num -> (e * (2 * qn (length v)) * qn (length c) = total (map (fun x => x * x) v) * total (map (fun x => x * x) c))%num).
  { intros e ->. eapply energy_value; [now apply qn_pos|now apply qn_pos|reflexivity]. }
  specialize (V _ eq_refl). split; [exists v, c; auto|].
  eapply energy_nonneg; [| | | |exact V]; auto using qn_pos, total_sq_nonneg.
Qed.
Lemma combine_sq x y : length x = length y -> map (fun p : onum * onum => oadd (fst p) (osq (snd p))) (combine (map osq (map Some x)) (map Some y)) = map Some (map (fun p => fst p * fst p + snd p * snd p)%num (combine x y)).
Proof. revert y. induction x as [|a x IH]; intros [|b y] L; try discriminate L; [reflexivity|]. cbn [map combine fst snd]. f_equal. apply IH. now injection L. Qed.
Lemma total_pair x y : length x = length y -> total (map (fun p => fst p * fst p + snd p * snd p)%num (combine x y)) = (total (map (fun a => a * a) x) + total (map (fun a => a * a) y))%num.
Proof. unfold total. revert y. induction x as [|a x IH]; intros [|b y] L; try discriminate L; cbn [map combine fold_right fst snd]; [qring|]. rewrite IH by now injection L. qring. Qed.
Lemma vf_energy_lemma f p : vf_full f -> vf_wf f -> ax (vg f) <> [] -> ay (vg f) <> [] -> (forall c, In c (yv p) -> c <> None) -> yv p <> [] ->
  exists e, mode_energy vf_mops f p = Some e /\ vf_energy f p e /\ (0 <= e)%num.
Proof.
  intros FU ((X0 & X1) & (Y0 & Y1) & _) NX NY FE NE. destruct (flatten_some (cx f)) as (x & Ex & Lx).
  { intros i j Hi Hj. destruct (FU i j) as (_ & (u & v & -> & _)); [congruence|congruence|discriminate]. }
  destruct (flatten_some (cy f)) as (y & Ey & Ly).
  { intros i j Hi Hj. destruct (FU i j) as (_ & (u & v & _ & ->)); [congruence|congruence|discriminate]. }
  destruct (some_list _ FE) as (c & Ec). assert (LL : length x = length y) by (rewrite Lx, Ly; congruence).
  assert (LV : 0 < length x). { rewrite Lx, X0, X1. destruct (ax (vg f)); [congruence|]. destruct (ay (vg f)); [congruence|]. cbn. lia. }
  assert (LC : 0 < length c). { destruct c; [|cbn; lia]. rewrite Ec in NE. now destruct NE. }
  set (S := (total (map (fun a => a * a) x) + total (map (fun a => a * a) y))%num). set (C := total (map (fun a => a * a) c)%num).
  exists (S * qq 1 2 / qn (length x) * (C / qn (length c)))%num.
  assert (E : mode_energy vf_mops f p = Some (S * qq 1 2 / qn (length x) * (C / qn (length c)))%num).
  { unfold mode_energy, mode_magnitude. cbn [m_comps vf_mops fold_left]. rewrite Ex, Ey, Ec, combine_sq by exact LL.
    assert (G : forall l, map (oscale (qq 1 2)) (map Some l) = map Some (map (fun x => x * qq 1 2)%num l)) by (intro l; rewrite !map_map; reflexivity).
    assert (G' : forall l, map osq (map Some l) = map Some (map (fun x => x * x)%num l)) by (intro l; rewrite !map_map; reflexivity).
    rewrite G, G', !omean_some, !map_length, total_scale, total_pair, combine_length, LL, Nat.min_id by (first [exact LL|intro Hn; apply (f_equal (@length _)) in Hn; rewrite ?map_length, ?combine_length in Hn; cbn in Hn; lia]). reflexivity. }
  split; [exact E|].
  assert (V : forall e, e = (S * qq 1 2 / qn (length x) * (C / qn (length c)))%num -> (e * (2 * qn (length x)) * qn (length c) = S * C)%num).
  { intros e ->. eapply energy_value; [now apply qn_pos|now apply qn_pos|reflexivity]. }
  specialize (V _ eq_refl). split; [exists x, y, c; auto|].
  assert (HS : (0 <= S)%num).
  { unfold S. clear. pose proof (total_sq_nonneg x) as A. pose proof (total_sq_nonneg y) as B. revert A B. generalize (total (map (fun a => a * a)%num x)), (total (map (fun a => a * a)%num y)). intros. qlra. }
  assert (HC : (0 <= C)%num) by (apply total_sq_nonneg).
  exact (energy_nonneg S (qn (length x)) C (qn (length c)) _ (qn_pos _ LV) (qn_pos _ LC) HS HC V).
Qed.
Lemma ocumsum_some a l : exists cs, ocumsum (Some a) (map Some l) = map Some cs /\ length cs = length l /\ forall k, k < length l -> nth_error cs k = Some (a + total (firstn (S k) l))%num.
Proof.
  revert a. induction l as [|b l IH]; intro a; [exists []; repeat split; cbn; lia|]. cbn [map ocumsum oadd]. change (oadd (Some a) (Some b)) with (Some (a + b)%num).
  destruct (IH (a + b)%num) as (cs & E & L & N). exists ((a + b)%num :: cs). cbn zeta. rewrite E. split; [reflexivity|]. split; [cbn; congruence|].
  intros [|k] Hk; cbn [nth_error firstn].
  - f_equal. unfold total. cbn [firstn fold_right]. qring.
  - cbn in Hk. rewrite N by lia. f_equal. unfold total. cbn [firstn fold_right]. qring.
Qed.
Lemma energies_gen {F} (M : mops F) (mf : mfield F) (P : F -> profile -> num -> Prop) : length (mf_evo mf) = length (mf_modes mf) ->
  (forall p, In p (mf_evo mf) -> prof_ok p) ->
  (forall f p, In f (mf_modes mf) -> In p (mf_evo mf) -> exists e, mode_energy M f p = Some e /\ P f p e /\ (0 <= e)%num) ->
  exists es cs, modes_energy M mf false = Ok (map Some es) /\ modes_energy M mf true = Ok (map Some cs) /\
    length es = length (mf_modes mf) /\ length cs = length (mf_modes mf) /\
    (forall n f p e, nth_error (mf_modes mf) n = Some f -> nth_error (mf_evo mf) n = Some p -> nth_error es n = Some e -> P f p e /\ (0 <= e)%num) /\
    (forall n, n < length (mf_modes mf) -> nth_error cs n = Some (total (firstn (S n) es))) /\ nondecreasing cs.
Proof.
  intros L OK H. unfold modes_energy.
  set (g := fun n => let* m := py_get (mf_modes mf) n in let* p := py_get (mf_evo mf) n in guard (negb (aligned p)) IndexErr (Ok (mode_energy M m p))).
  assert (G : forall n a, a + n = length (mf_modes mf) -> exists es, mapM g (map Z.of_nat (seq a n)) = Ok (map Some es) /\ length es = n /\
     forall k f p e, nth_error (mf_modes mf) (a + k) = Some f -> nth_error (mf_evo mf) (a + k) = Some p -> nth_error es k = Some e -> P f p e /\ (0 <= e)%num).
  { induction n as [|n IH]; intros a La; [exists []; repeat split; destruct k; discriminate|].
    destruct (IH (S a) ltac:(lia)) as (es & E & Le & N).
    destruct (py_get_ok (mf_modes mf) (Z.of_nat a) a) as (f & Ef & Gf); [split; [lia|now left]|].
    destruct (py_get_ok (mf_evo mf) (Z.of_nat a) a) as (p & Ep & Gp); [split; [lia|now left]|].
    destruct (H f p (nth_error_In _ _ Ef) (nth_error_In _ _ Ep)) as (e & Ee & Pe & Ne).
    exists (e :: es). cbn [seq map mapM]. unfold g at 1. rewrite Gf. cbn [bind]. rewrite Gp. cbn [bind]. rewrite (aligned_ok p (OK p (nth_error_In _ _ Ep))). cbn [negb guard].
    rewrite Ee. cbn [bind]. rewrite E. split; [reflexivity|]. split; [cbn; congruence|].
    intros [|k] f' p' e' Ef' Ep' Ee'; cbn in Ee'.
    - rewrite Nat.add_0_r in *. rewrite Ef in Ef'. rewrite Ep in Ep'. injection Ef' as <-. injection Ep' as <-. injection Ee' as <-. auto.
    - rewrite <- plus_n_Sm in *. eapply N; eauto. }
  destruct (G (length (mf_modes mf)) 0 eq_refl) as (es & E & Le & N).
  destruct (ocumsum_some 0%num es) as (cs & Ec & Lc & Nc).
  assert (EA : mapM g (arange0 (Z.of_nat (length (mf_modes mf)))) = Ok (map Some es)) by (unfold arange0; now rewrite Nat2Z.id).
  exists es, cs. rewrite EA. cbn [bind]. rewrite Ec. split; [reflexivity|]. split; [reflexivity|]. split; [exact Le|]. split; [congruence|]. split; [intros n f p e; apply (N n)|].
  assert (Nc' : forall n, n < length (mf_modes mf) -> nth_error cs n = Some (total (firstn (S n) es))).
  { intros n Hn. rewrite Nc by lia. f_equal. qring. }
  split; [exact Nc'|]. intros i j Hij Hj. rewrite (nth_error_nths _ _ _ (Nc' i ltac:(lia))), (nth_error_nths _ _ _ (Nc' j ltac:(lia))).
  assert (PO : forall e, In e es -> (0 <= e)%num).
  { intros e Ie. apply In_nth_error in Ie. destruct Ie as (n & En). pose proof (nth_error_Some_lt _ _ _ En) as Ln.
    destruct (nth_error_ex (mf_modes mf) n ltac:(lia)) as (f & Ef). destruct (nth_error_ex (mf_evo mf) n ltac:(lia)) as (p & Ep). now destruct (N n f p e Ef Ep En). }
  replace (S j) with (S i + (j - i)) by lia. assert (FA : forall a b (l : list num), firstn (a + b) l = firstn a l ++ firstn b (skipn a l)).
  { clear. induction a as [|a IH]; intros b l; [reflexivity|]. destruct l as [|x l]; [cbn; now rewrite firstn_nil|]. cbn [Nat.add firstn skipn app]. now rewrite IH. }
  rewrite FA, total_app'. assert ((0 <= total (firstn (j - i) (skipn (S i) es)))%num); [|qlra].
  apply total_nonneg. intros e Ie. apply PO. rewrite <- (firstn_skipn (S i) es). apply in_or_app. right. rewrite <- (firstn_skipn (j - i) (skipn (S i) es)). apply in_or_app. now left.
Qed.
Lemma sf_energies_lemma (mf : mfield sfield) : base_core mf -> sf_base_ok mf -> evo_full mf -> (forall f, In f (mf_modes mf) -> sf_full f) ->
  exists es cs, modes_energy sf_mops mf false = Ok (map Some es) /\ modes_energy sf_mops mf true = Ok (map Some cs) /\
    length es = length (mf_modes mf) /\ length cs = length (mf_modes mf) /\
    (forall n f p e, nth_error (mf_modes mf) n = Some f -> nth_error (mf_evo mf) n = Some p -> nth_error es n = Some e -> sf_energy f p e /\ (0 <= e)%num) /\
    (forall n, n < length (mf_modes mf) -> nth_error cs n = Some (total (firstn (S n) es))) /\ nondecreasing cs.
Proof.
  intros (_ & _ & _ & L2 & _ & NT & PO) (((_ & _) & X2 & Y2) & _ & _ & _ & MO & _) EF FU. apply energies_gen; [exact L2|intros; now apply PO|].
  intros f p If Ip. destruct (MO f If) as (G & W). apply sf_energy_lemma; auto.
  - rewrite G. destruct (ax (mf_g mf)); [cbn in X2; lia|discriminate].
  - rewrite G. destruct (ay (mf_g mf)); [cbn in Y2; lia|discriminate].
  - now apply EF.
  - destruct (PO p Ip) as (OK & Xp). intro Hn. destruct (ok_lengths p OK) as (LY & _). rewrite Hn, Xp in LY. destruct (mf_times mf); [congruence|discriminate].
Qed.
Lemma vf_energies_lemma (mf : mfield vfield) : base_core mf -> vf_base_ok mf -> evo_full mf -> (forall f, In f (mf_modes mf) -> vf_full f) ->
  exists es cs, modes_energy vf_mops mf false = Ok (map Some es) /\ modes_energy vf_mops mf true = Ok (map Some cs) /\
    length es = length (mf_modes mf) /\ length cs = length (mf_modes mf) /\
    (forall n f p e, nth_error (mf_modes mf) n = Some f -> nth_error (mf_evo mf) n = Some p -> nth_error es n = Some e -> vf_energy f p e /\ (0 <= e)%num) /\
    (forall n, n < length (mf_modes mf) -> nth_error cs n = Some (total (firstn (S n) es))) /\ nondecreasing cs.
Proof.
  intros (_ & _ & _ & L2 & _ & NT & PO) (((_ & _) & X2 & Y2) & _ & _ & _ & MO & _) EF FU. apply energies_gen; [exact L2|intros; now apply PO|].
  intros f p If Ip. destruct (MO f If) as (G & W). apply vf_energy_lemma; auto.
  - rewrite G. destruct (ax (mf_g mf)); [cbn in X2; lia|discriminate].
  - rewrite G. destruct (ay (mf_g mf)); [cbn in Y2; lia|discriminate].
  - now apply EF.
  - destruct (PO p Ip) as (OK & Xp). intro Hn. destruct (ok_lengths p OK) as (LY & _). rewrite Hn, Xp in LY. destruct (mf_times mf); [congruence|discriminate].
Qed.
