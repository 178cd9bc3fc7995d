(** * CriterionProofs4: gamma in a rotation and in a uniform flow *)
From Coq Require Import Reals Lra Qreals Permutation.
From Verif Require Import Num Res ListLib Arr FieldModel ScalarFieldModel VectorFieldModel PointsModel FieldSpec FieldProofs
  GradModel GradSpec GradProofs GradProofs2 GradProofs3 GradProofs5 CriterionModel CriterionSpec CriterionProofs CriterionProofs2.
#[local] Open Scope R_scope.

(** ** the neighbours of a cell are symmetric around it *)
Definition reflected (i j : nat) (c : nat * nat) : nat * nat := (2 * i - fst c, 2 * j - snd c)%nat.
Lemma reflected_perm n m mask r i j l : neighbours r i j l -> ~ spoiled n m mask r i j -> Permutation l (map (reflected i j) l) /\
  forall c, In c l -> (fst c <= 2 * i)%nat /\ (snd c <= 2 * j)%nat /\ (fst c < n)%nat /\ (snd c < m)%nat /\ (2 * i - fst c < n)%nat /\ (2 * j - snd c < m)%nat /\
    mask (fst c) (snd c) = false.
Proof.
  intros [N S] Ns. pose proof (not_spoiled _ _ _ _ _ _ Ns) as P.
  assert (forall p q, In (p, q) l -> disc r (Z.of_nat i) (Z.of_nat j) (2 * Z.of_nat i - Z.of_nat p) (2 * Z.of_nat j - Z.of_nat q)) as D.
  { intros p q H. apply S in H. destruct H as [_ D]. unfold disc in *.
    replace (2 * Z.of_nat i - Z.of_nat p - Z.of_nat i)%Z with (- (Z.of_nat p - Z.of_nat i))%Z by lia.
    replace (2 * Z.of_nat j - Z.of_nat q - Z.of_nat j)%Z with (- (Z.of_nat q - Z.of_nat j))%Z by lia. rewrite !qz_opp.
    revert D. generalize (qz (Z.of_nat p - Z.of_nat i)) (qz (Z.of_nat q - Z.of_nat j)). intros u v D.
    replace (- u * - u + - v * - v)%num with (u * u + v * v)%num by qring. exact D. }
  assert (forall c, In c l -> (fst c <= 2 * i)%nat /\ (snd c <= 2 * j)%nat /\ (fst c < n)%nat /\ (snd c < m)%nat /\ (2 * i - fst c < n)%nat /\ (2 * j - snd c < m)%nat /\
    mask (fst c) (snd c) = false) as B.
  { intros [p q] H. pose proof (P _ _ (D p q H)) as (B1 & B2 & _). pose proof (proj1 (S p q) H) as [_ D']. pose proof (P _ _ D') as (B3 & B4 & M).
    rewrite !Nat2Z.id in M. cbn [fst snd]. repeat split; first [lia|exact M]. }
  split; [|exact B]. apply NoDup_Permutation; [exact N| |].
  - apply NoDup_map_inj_in; [exact N|]. intros [p q] [p' q'] H1 H2 E. pose proof (B _ H1). pose proof (B _ H2). unfold reflected in E. cbn [fst snd] in *.
    injection E as E1 E2. f_equal; lia.
  - intros [p q]. rewrite in_map_iff. split.
    + intro H. exists (reflected i j (p, q)). pose proof (B _ H) as (B1 & B2 & _). cbn [fst snd] in *. unfold reflected. cbn [fst snd]. split; [f_equal; lia|].
      apply S. split. { apply S in H. destruct H as [H _]. intro K. apply H. injection K as K1 K2. f_equal; lia. }
      pose proof (D p q H) as D'. unfold disc in *. match goal with |- context[(Z.of_nat ?u - Z.of_nat i)%Z] => replace (Z.of_nat u) with (2 * Z.of_nat i - Z.of_nat p)%Z by lia end. match goal with |- context[(Z.of_nat ?u - Z.of_nat j)%Z] => replace (Z.of_nat u) with (2 * Z.of_nat j - Z.of_nat q)%Z by lia end. exact D'.
    + intros ([p' q'] & E & H). pose proof (B _ H) as (B1 & B2 & _). cbn [fst snd] in *. unfold reflected in E. cbn [fst snd] in E. injection E as <- <-.
      apply S. split. { apply S in H. destruct H as [H _]. intro K. apply H. injection K as K1 K2. f_equal; lia. }
      pose proof (D p' q' H) as D'. unfold disc in *. match goal with |- context[(Z.of_nat ?u - Z.of_nat i)%Z] => replace (Z.of_nat u) with (2 * Z.of_nat i - Z.of_nat p')%Z by lia end. match goal with |- context[(Z.of_nat ?u - Z.of_nat j)%Z] => replace (Z.of_nat u) with (2 * Z.of_nat j - Z.of_nat q')%Z by lia end. exact D'.
Qed.
Lemma rsum_perm l l' : Permutation l l' -> rsum l = rsum l'.
Proof. induction 1; cbn; lra. Qed.
Definition arm_to (f : vfield) (i j : nat) (c : nat * nat) : vec := vsub (cell_pos f c) (cell_pos f (i, j)).
Lemma arm_reflected f hx hy i j c : evenly (ax (vg f)) hx -> evenly (ay (vg f)) hy ->
  (i < length (ax (vg f)))%nat -> (j < length (ay (vg f)))%nat ->
  (fst c <= 2 * i)%nat /\ (snd c <= 2 * j)%nat /\ (fst c < length (ax (vg f)))%nat /\ (snd c < length (ay (vg f)))%nat /\
  (2 * i - fst c < length (ax (vg f)))%nat /\ (2 * j - snd c < length (ay (vg f)))%nat ->
  arm_to f i j (reflected i j c) = (- fst (arm_to f i j c), - snd (arm_to f i j c)).
Proof.
  intros (_ & _ & Ex) (_ & _ & Ey) Hi Hj (H1 & H2 & H3 & H4 & H5 & H6). unfold arm_to, vsub, cell_pos, reflected. cbn [fst snd].
  rewrite (Ex i Hi), (Ey j Hj), (Ex _ H3), (Ey _ H4), (Ex _ H5), (Ey _ H6). rewrite !toR_add, !toR_mul. unfold qn. rewrite !toR_qz.
  rewrite !Nat2Z.inj_sub, !Nat2Z.inj_mul, !minus_IZR, !mult_IZR by lia. cbn [Z.of_nat Pos.of_succ_nat Pos.succ]. f_equal; ring.
Qed.
(** the sum over the neighbours of an odd function of the arms *)
Lemma odd_sum f hx hy r user i j l (F : vec -> R) : evenly (ax (vg f)) hx -> evenly (ay (vg f)) hy ->
  (i < length (ax (vg f)))%nat -> (j < length (ay (vg f)))%nat -> neighbours r i j l ->
  ~ spoiled (length (ax (vg f))) (length (ay (vg f))) (both_masks f user) r i j ->
  (forall a, F (- fst a, - snd a) = - F a) -> rsum (map (fun c => F (arm_to f i j c)) l) = 0.
Proof.
  intros Ex Ey Hi Hj Nb Ns Odd. destruct (reflected_perm _ _ _ _ _ _ _ Nb Ns) as [Pm B].
  assert (rsum (map (fun c => F (arm_to f i j c)) l) = - rsum (map (fun c => F (arm_to f i j c)) l)) as K; [|lra].
  rewrite (rsum_perm _ _ (Permutation_map (fun c => F (arm_to f i j c)) Pm)) at 1. rewrite map_map.
  replace (- rsum (map (fun c => F (arm_to f i j c)) l)) with (-1 * rsum (map (fun c => F (arm_to f i j c)) l)) by ring.
  assert (forall c, In c l -> F (arm_to f i j (reflected i j c)) = -1 * F (arm_to f i j c)) as E.
  { intros c Hc. rewrite (arm_reflected f hx hy i j c Ex Ey Hi Hj) by (destruct (B c Hc) as (? & ? & ? & ? & ? & ? & _); tauto).
    rewrite Odd. ring. }
  clear - E. induction l as [|c l IH]; [cbn; ring|]. cbn [map rsum]. rewrite (E c (or_introl eq_refl)), IH by (intros; apply E; now right). ring.
Qed.
Lemma toR_neq a b : a <> b -> toR a <> toR b.
Proof. intros H K. apply H. now apply toR_inj. Qed.
Lemma arm_nonzero f hx hy i j c : evenly (ax (vg f)) hx -> evenly (ay (vg f)) hy ->
  (i < length (ax (vg f)))%nat -> (j < length (ay (vg f)))%nat -> (fst c < length (ax (vg f)))%nat -> (snd c < length (ay (vg f)))%nat ->
  c <> (i, j) -> dot (arm_to f i j c) (arm_to f i j c) <> 0.
Proof.
  intros Ex Ey Hi Hj Hp Hq Ne. pose proof (evenly_increasing _ _ Ex) as Ix. pose proof (evenly_increasing _ _ Ey) as Iy.
  destruct c as [p q]. cbn [fst snd] in *. unfold arm_to, vsub, cell_pos, dot. cbn [fst snd]. intro K.
  assert (forall l a b, increasing l -> (a < length l)%nat -> (b < length l)%nat -> toR (nths l a) - toR (nths l b) = 0 -> a = b) as Inj.
  { intros l a b Il Ha Hb E. destruct (lt_eq_lt_dec a b) as [[L|L]|L]; [|exact L|].
    - pose proof (proj1 (toR_lt _ _) (Il a b L Hb)). lra.
    - pose proof (proj1 (toR_lt _ _) (Il b a L Ha)). lra. }
  apply Rplus_sqr_eq_0 in K. destruct K as [K1 K2].
  apply Ne. f_equal; [now apply (Inj _ p i Ix Hp Hi)|now apply (Inj _ q j Iy Hq Hj)].
Qed.

(** ** the fields *)
Lemma linear_velocity f a0 a1 a2 b0 b1 b2 c v : vf_is f (fun x y => a0 + a1 * x + a2 * y)%num (fun x y => b0 + b1 * x + b2 * y)%num ->
  (fst c < length (ax (vg f)))%nat -> (snd c < length (ay (vg f)))%nat -> has_velocity f c v ->
  v = (toR a0 + toR a1 * fst (cell_pos f c) + toR a2 * snd (cell_pos f c), toR b0 + toR b1 * fst (cell_pos f c) + toR b2 * snd (cell_pos f c)).
Proof.
  intros F Hp Hq (x & y & Ex & Ey & ->). destruct (proj1 (vf_is_idx f _ _) F _ _ Hp Hq) as (E1 & E2 & _).
  rewrite E1 in Ex. rewrite E2 in Ey. injection Ex as <-. injection Ey as <-. unfold cell_pos. cbn [fst snd]. now rewrite !toR_add, !toR_mul.
Qed.
Lemma shows_map f l vel g : shows_velocities f l vel -> (forall c v, In c l -> has_velocity f c v -> v = g c) -> vel = map g l.
Proof.
  induction 1 as [|c v l vel H _ IH]; intro K; [reflexivity|]. cbn. rewrite (K c v (or_introl eq_refl) H). f_equal. apply IH.
  intros; apply K; auto; now right.
Qed.
Lemma mean_sine_map (f : vfield) (l : list (nat * nat)) (arm vel : nat * nat -> vec) w g (s : nat * nat -> R) :
  mean_sine (map arm l) (map vel l) w g -> (forall c, In c l -> sine (arm c) (vsub (vel c) w) (s c)) ->
  INR (length l) * g = rsum (map s l).
Proof.
  intros (ss & L & M & F) H. rewrite map_length in L. unfold mean_is in M. rewrite L in M. rewrite M. clear M.
  assert (ss = map s l) as ->; [|clear; induction l as [|c l IH]; [reflexivity|]; cbn; now rewrite IH].
  clear L. revert ss F. induction l as [|c l IH]; intros ss F; cbn in F; inversion F; subst; [reflexivity|].
  cbn. f_equal; [|apply IH; auto]. { eapply sine_unique; [eassumption|]. cbn. apply H. now left. } intros; apply H. now right.
Qed.
Lemma neighbours_nonempty r i j l : (1 <= r)%num -> neighbours r i j l -> l <> [].
Proof.
  intros Hr [_ S] E. assert (In (Datatypes.S i, j) l) as H.
  { apply S. split; [intro K; injection K as K; lia|]. unfold disc. replace (Z.of_nat (Datatypes.S i) - Z.of_nat i)%Z with 1%Z by lia.
    replace (Z.of_nat j - Z.of_nat j)%Z with 0%Z by lia. change (qz 1) with 1%num. change (qz 0) with 0%num.
    pose proof (qmul_le_l 1%num r r ltac:(qlra) Hr). qlra. }
  subst l. contradiction.
Qed.
Lemma const_sum {A} (k : R) (l : list A) : rsum (map (fun _ => k) l) = INR (length l) * k.
Proof. induction l as [|a l IH]; [cbn; ring|]. cbn [map rsum length]. rewrite IH, S_INR. ring. Qed.
Definition quarter (a : vec) : vec := (- snd a, fst a).
Lemma sine_rotation a k : k <> 0 -> dot a a <> 0 -> sine a (k * - snd a, k * fst a) (k / Rabs k).
Proof.
  intros Hk Ha. pose proof (Rabs_pos_lt k Hk) as Hb.
  assert (len (k * - snd a, k * fst a) = Rabs k * len a) as E.
  { unfold len, dot. cbn [fst snd]. replace (k * - snd a * (k * - snd a) + k * fst a * (k * fst a)) with (Rsqr k * (fst a * fst a + snd a * snd a)) by (unfold Rsqr; ring).
    rewrite sqrt_mult by (try apply Rle_0_sqr; nra). now rewrite sqrt_Rsqr_abs. }
  pose proof (len_sq a) as Q. split.
  - rewrite E. replace (k / Rabs k * (len a * (Rabs k * len a))) with (k * (len a * len a)) by (field; lra). rewrite Q. unfold cross, dot. cbn. ring.
  - rewrite E. intro K. exfalso. apply Ha. rewrite <- Q. apply Rmult_integral in K. destruct K as [K|K]; [rewrite K; ring|].
    apply Rmult_integral in K. destruct K as [K|K]; [lra|]. rewrite K. ring.
Qed.
Lemma mean_unique l v v' : l <> [] -> mean_is l v -> mean_is l v' -> v = v'.
Proof.
  unfold mean_is. intros N H H'. apply (Rmult_eq_reg_l (INR (length l))); [congruence|]. apply not_0_INR. destruct l; [congruence|discriminate].
Qed.

(** ** rotation of rate w (and any uniform velocity): gamma2 is 1 or -1 at every cell, gamma1 is at the centre *)
Lemma gamma_rotation_lemma f user r hx hy kind a0 b0 w : vf_wf f -> user_fits f user -> evenly (ax (vg f)) hx -> evenly (ay (vg f)) hy -> (1 <= r)%num ->
  vf_is f (fun x y => a0 + 0 * x + - w * y)%num (fun x y => b0 + w * x + 0 * y)%num -> w <> 0%num ->
  exists v m, get_gamma f user r true kind = Ok (v, m) /\
    forall i j, (i < length (ax (vg f)))%nat -> (j < length (ay (vg f)))%nat -> at_ m i j = false ->
      kind = Gamma2 \/ (kind = Gamma1 /\ at_ (cx f) i j = Some 0%num /\ at_ (cy f) i j = Some 0%num) ->
      ((0 < w)%num -> at_ v i j = Some 1) /\ ((w < 0)%num -> at_ v i j = Some (-1)).
Proof.
  intros W U Ex Ey Hr F Hw. pose proof (full_clean _ (vf_is_full _ _ _ F)) as C.
  assert (0 < r)%num as Hr0 by qlra.
  destruct (gamma_lemma f user r hx hy kind W C U Ex Ey Hr0) as (v & m & E & _ & _ & P). exists v, m. split; [exact E|].
  intros i j Hi Hj M K. destruct (P i j Hi Hj) as [Ms Pv]. destruct (Pv M) as (l & vel & g & Nb & Sh & -> & G).
  assert (~ spoiled (length (ax (vg f))) (length (ay (vg f))) (both_masks f user) r i j) as Ns by (intro Q; apply Ms in Q; congruence).
  destruct (reflected_perm _ _ _ _ _ _ _ Nb Ns) as [_ B]. pose proof (neighbours_nonempty r i j l Hr Nb) as Ne.
  set (k := toR w). assert (k <> 0) as Hk. { intro Z. apply Hw. apply toR_inj. change 0%num with (qz 0). now rewrite toR_qz. }
  set (v0 := (toR a0 - k * snd (cell_pos f (i, j)), toR b0 + k * fst (cell_pos f (i, j))) : vec).
  set (vl := fun c => (fst v0 + k * - snd (arm_to f i j c), snd v0 + k * fst (arm_to f i j c)) : vec).
  assert (vel = map vl l) as Ev.
  { apply (shows_map f); [exact Sh|]. intros c x Hc Hx. destruct (B c Hc) as (_ & _ & B3 & B4 & _).
    rewrite (linear_velocity f a0 0%num (- w)%num b0 w 0%num c x F B3 B4 Hx). unfold vl, v0, arm_to, vsub, k. cbn [fst snd].
    change 0%num with (qz 0). rewrite toR_opp, toR_qz. f_equal; ring. }
  fold (arm_to f i j) in G. change (fun c => vsub (cell_pos f c) (cell_pos f (i, j))) with (arm_to f i j) in G. rewrite Ev in G.
  assert (mean_sine (map (arm_to f i j) l) (map vl l) v0 g) as Q.
  { destruct K as [-> | (-> & K1 & K2)].
    - destruct G as (w0 & [Mx My] & G). replace v0 with w0; [exact G|]. rewrite map_map in Mx, My.
      assert (mean_is (map (fun c => fst (vl c)) l) (fst v0)) as Mx'.
      { unfold mean_is. rewrite map_length. change (fold_right Rplus 0 (map (fun c => fst (vl c)) l)) with (rsum (map (fun c => fst (vl c)) l)).
        pose proof (odd_sum f hx hy r user i j l (fun a => k * - snd a) Ex Ey Hi Hj Nb Ns ltac:(intro a; cbn; ring)) as O.
        rewrite (map_ext _ (fun c => k * - snd (arm_to f i j c) + fst v0)) by (intro c; unfold vl; cbn; ring).
        assert (forall l', rsum (map (fun c => k * - snd (arm_to f i j c) + fst v0) l') = rsum (map (fun c => k * - snd (arm_to f i j c)) l') + INR (length l') * fst v0) as A.
        { induction l' as [|c l' IH]; [cbn; ring|]. cbn [map rsum length]. rewrite IH, S_INR. ring. }
        rewrite A, O. ring. }
      assert (mean_is (map (fun c => snd (vl c)) l) (snd v0)) as My'.
      { unfold mean_is. rewrite map_length. change (fold_right Rplus 0 (map (fun c => snd (vl c)) l)) with (rsum (map (fun c => snd (vl c)) l)).
        pose proof (odd_sum f hx hy r user i j l (fun a => k * fst a) Ex Ey Hi Hj Nb Ns ltac:(intro a; cbn; ring)) as O.
        rewrite (map_ext _ (fun c => k * fst (arm_to f i j c) + snd v0)) by (intro c; unfold vl; cbn; ring).
        assert (forall l', rsum (map (fun c => k * fst (arm_to f i j c) + snd v0) l') = rsum (map (fun c => k * fst (arm_to f i j c)) l') + INR (length l') * snd v0) as A.
        { induction l' as [|c l' IH]; [cbn; ring|]. cbn [map rsum length]. rewrite IH, S_INR. ring. }
        rewrite A, O. ring. }
      rewrite (surjective_pairing w0), (surjective_pairing v0). f_equal; (eapply mean_unique; [|eassumption|eassumption]); destruct l; congruence || discriminate.
    - assert (v0 = (0, 0)) as ->; [|exact G].
      assert (has_velocity f (i, j) (0, 0)) as H0. { exists 0%num, 0%num. change 0%num with (qz 0). rewrite toR_qz. auto. }
      pose proof (linear_velocity f a0 0%num (- w)%num b0 w 0%num (i, j) _ F Hi Hj H0) as L. unfold v0, k. rewrite L.
      change 0%num with (qz 0). rewrite toR_opp, toR_qz. f_equal; ring. }
  assert (INR (length l) * g = rsum (map (fun _ : nat * nat => k / Rabs k) l)) as Sum.
  { apply (mean_sine_map f l (arm_to f i j) vl v0 g (fun _ => k / Rabs k) Q). intros c Hc. destruct (B c Hc) as (_ & _ & B3 & B4 & _).
    replace (vsub (vl c) v0) with (k * - snd (arm_to f i j c), k * fst (arm_to f i j c)) by (unfold vl, vsub; cbn [fst snd]; f_equal; ring).
    apply sine_rotation; [exact Hk|]. apply (arm_nonzero f hx hy); try assumption.
    destruct Nb as [_ Nb]. destruct c as [p q]. now apply Nb in Hc. }
  rewrite const_sum in Sum. assert (g = k / Rabs k) as ->.
  { apply (Rmult_eq_reg_l (INR (length l))); [exact Sum|]. apply not_0_INR. destruct l; [congruence|discriminate]. }
  assert (0 = toR 0%num) as Z0 by (change 0%num with (qz 0); now rewrite toR_qz).
  split; intro S; apply toR_lt in S; rewrite <- Z0 in S; fold k in S; f_equal.
  - rewrite Rabs_right by lra. field. lra.
  - rewrite Rabs_left by lra. field. lra.
Qed.
(** ** a uniform flow: gamma1 and gamma2 are 0 *)
Lemma gamma_uniform_lemma f user r hx hy kind a0 b0 : vf_wf f -> user_fits f user -> evenly (ax (vg f)) hx -> evenly (ay (vg f)) hy -> (1 <= r)%num ->
  vf_is f (fun x y => a0 + 0 * x + 0 * y)%num (fun x y => b0 + 0 * x + 0 * y)%num ->
  exists v m, get_gamma f user r true kind = Ok (v, m) /\
    forall i j, (i < length (ax (vg f)))%nat -> (j < length (ay (vg f)))%nat -> at_ m i j = false ->
      kind = Gamma1 \/ kind = Gamma2 -> at_ v i j = Some 0.
Proof.
  intros W U Ex Ey Hr F. pose proof (full_clean _ (vf_is_full _ _ _ F)) as C.
  assert (0 < r)%num as Hr0 by qlra.
  destruct (gamma_lemma f user r hx hy kind W C U Ex Ey Hr0) as (v & m & E & _ & _ & P). exists v, m. split; [exact E|].
  intros i j Hi Hj M K. destruct (P i j Hi Hj) as [Ms Pv]. destruct (Pv M) as (l & vel & g & Nb & Sh & -> & G).
  assert (~ spoiled (length (ax (vg f))) (length (ay (vg f))) (both_masks f user) r i j) as Ns by (intro Q; apply Ms in Q; congruence).
  destruct (reflected_perm _ _ _ _ _ _ _ Nb Ns) as [_ B]. pose proof (neighbours_nonempty r i j l Hr Nb) as Ne.
  set (v0 := (toR a0, toR b0) : vec).
  assert (vel = map (fun _ => v0) l) as Ev.
  { apply (shows_map f); [exact Sh|]. intros c x Hc Hx. destruct (B c Hc) as (_ & _ & B3 & B4 & _).
    rewrite (linear_velocity f a0 0%num 0%num b0 0%num 0%num c x F B3 B4 Hx). unfold v0. change 0%num with (qz 0). rewrite toR_qz. f_equal; ring. }
  change (fun c => vsub (cell_pos f c) (cell_pos f (i, j))) with (arm_to f i j) in G. rewrite Ev in G.
  assert (exists w0, mean_sine (map (arm_to f i j) l) (map (fun _ => v0) l) w0 g) as [w0 Q].
  { destruct K as [-> | ->]; [eauto|]. destruct G as (w0 & _ & G). eauto. }
  assert (INR (length l) * g = rsum (map (fun c => cross_term (arm_to f i j c) (vsub v0 w0)) l)) as Sum.
  { apply (mean_sine_map f l (arm_to f i j) (fun _ => v0) w0 g _ Q). intros c Hc. apply cross_term_sine. }
  rewrite (odd_sum f hx hy r user i j l (fun a => cross_term a (vsub v0 w0)) Ex Ey Hi Hj Nb Ns) in Sum.
  - f_equal. apply Rmult_integral in Sum. destruct Sum as [Sum|Sum]; [|exact Sum]. exfalso. revert Sum. apply not_0_INR. destruct l; [congruence|discriminate].
  - intro a. apply (sine_unique (- fst a, - snd a) (vsub v0 w0)); [apply cross_term_sine|].
    destruct (cross_term_sine a (vsub v0 w0)) as [E1 E2]. assert (len (- fst a, - snd a) = len a) as L. { unfold len, dot. cbn [fst snd]. f_equal. ring. }
    split; rewrite L; [|intro Z; rewrite (E2 Z); ring]. rewrite Ropp_mult_distr_l_reverse, E1. unfold cross. cbn [fst snd]. ring.
Qed.
