(** * WallProofs: the extrapolation of scalar fields until a wall *)
From Coq Require Import Lia.
From Verif Require Import Num Res ListLib Arr FieldModel ScalarFieldModel VectorFieldModel FieldSpec FieldProofs2 FieldProofs3
  GradModel GradSpec GradProofs GradProofs2 PodModel WallModel WallSpec.

Lemma step_pos l : increasing l -> 2 <= length l -> (0 < first_step l)%num.
Proof. intros I L. unfold first_step. pose proof (I 0 1 ltac:(lia) ltac:(lia)). qlra. Qed.
Lemma qtrunc_pos a : (0 <= a)%num -> qtrunc a = qfloor a.
Proof. intro H. unfold qtrunc. assert ((0 <=? a)%num = true) as -> by now apply qleb_le. reflexivity. Qed.
Lemma qfloor_pos a : (0 <= a)%num -> (0 <= qfloor a)%Z.
Proof. intro H. apply qfloor_iff. exact H. Qed.
Lemma quot_floor a h : (0 < h)%num -> (0 <= a)%num -> exists n, qfloor (a / h)%num = Z.of_nat n /\ (qn n * h <= a)%num /\ (a < (qn n + 1) * h)%num.
Proof.
  intros H A. assert (N : h <> 0%num) by now apply qgt_neq. assert (B : (0 <= a / h)%num) by (apply qdiv_nonneg; assumption).
  exists (Z.to_nat (qfloor (a / h)%num)). pose proof (qfloor_pos _ B) as P. rewrite Z2Nat.id by exact P. split; [reflexivity|]. unfold qn. rewrite Z2Nat.id by exact P.
  pose proof (qfloor_le (a / h)%num) as F1. pose proof (qfloor_lt (a / h)%num) as F2. rewrite qz_add in F2.
  assert (E : a = (a / h * h)%num) by (qfield; exact N). set (q := (a / h)%num) in *. set (z := qz (qfloor q)) in *. split; [rewrite E; qnra|rewrite E; qnra].
Qed.
Lemma same_nths {A} (l m : list A) : (forall i, nth_error l i = nth_error m i) -> l = m.
Proof. revert m. induction l as [|a l IH]; intros [|b m] H; [reflexivity|discriminate (H 0)|discriminate (H 0)|]. pose proof (H 0) as E. cbn in E. injection E as ->. f_equal. apply IH. intro i. exact (H (S i)). Qed.
Lemma axis_same l l' : axis_extends l l' 0 0 -> l' = l.
Proof. intros (L & _ & _ & H & _). cbn in L. rewrite Nat.add_0_r in L. apply same_nths. intro i. destruct (Nat.lt_ge_cases i (length l)) as [Hi|Hi]; [exact (H i Hi)|]. rewrite !(proj2 (nth_error_None _ _)) by lia. reflexivity. Qed.
Lemma checks_run g d pos kind low n : grid_sorted g -> 2 <= length (ax g) -> 2 <= length (ay g) -> is_dir d -> is_kind kind ->
  (low = true /\ (pos < first_of (waxis d g))%num /\ n = qfloor ((first_of (waxis d g) - pos) / first_step (waxis d g))%num \/
   low = false /\ (last_of (waxis d g) <= pos)%num /\ n = qfloor ((pos - nths (waxis d g) 1) / first_step (waxis d g))%num) ->
  wall_checks g d pos kind = Ok (low, n).
Proof.
  intros (SX & SY) LX LY D K H. unfold wall_checks.
  assert (Nat.ltb (length (ax g)) 2 = false) as -> by (apply Nat.ltb_ge; exact LX). assert (Nat.ltb (length (ay g)) 2 = false) as -> by (apply Nat.ltb_ge; exact LY). cbn [orb guard].
  assert (I : increasing (waxis d g)) by (destruct D as [-> | ->]; assumption). assert (L : 2 <= length (waxis d g)) by (destruct D as [-> | ->]; assumption).
  assert (C : wall_inside (waxis d g) pos = false /\ wall_count (waxis d g) pos = Ok (low, n)).
  { revert I L H. generalize (waxis d g). clear. intros l I L H. pose proof (step_pos l I L) as P. unfold first_step, first_of, last_of in *.
    assert (M : (nths l 0 < nths l 1)%num) by (apply I; lia).
    assert (N : (nths l 1 <= nths l (length l - 1))%num) by (apply (increasing_nondecreasing l I); lia).
    unfold wall_inside, wall_count. assert (qeqb (nths l 1 - nths l 0)%num 0%num = false) as -> by (apply qeqb_neq; now apply qgt_neq). cbn [guard].
    destruct H as [(-> & Q & ->)|(-> & Q & ->)].
    - assert (qltb (nths l 0) pos = false) as -> by (apply qltb_ge; qlra). assert ((pos <? nths l 0)%num = true) as -> by (apply qltb_lt; exact Q). rewrite andb_false_r. split; [reflexivity|].
      rewrite qtrunc_pos; [reflexivity|]. apply qdiv_nonneg; [qlra|exact P].
    - assert (qltb pos (nths l (length l - 1)) = false) as -> by (apply qltb_ge; exact Q). assert ((pos <? nths l 0)%num = false) as -> by (apply qltb_ge; qlra). split; [reflexivity|].
      rewrite qtrunc_pos; [reflexivity|]. apply qdiv_nonneg; [qlra|exact P]. }
  destruct C as (C1 & C2). destruct D as [-> | ->]; cbn [guard]; rewrite C1; cbn [guard]; destruct K as [-> | ->]; exact C2.
Qed.
Lemma nth_error_ends l i x : increasing l -> nth_error l i = Some x -> (x = nths l 0 <-> i = 0) /\ (x = nths l (length l - 1) <-> S i = length l).
Proof.
  intros I E. pose proof (nth_error_Some_lt _ _ _ E) as L. apply nth_error_nths in E. subst x. split; split; intro H.
  - apply increasing_inj in H; auto; lia.
  - subst i. reflexivity.
  - apply increasing_inj in H; auto; lia.
  - f_equal. lia.
Qed.
Lemma on_wall_coord d low g i j x y : grid_sorted g -> is_dir d -> nth_error (ax g) i = Some x -> nth_error (ay g) j = Some y ->
  (on_wall d low (length (ax g)) (length (ay g)) i j = true <-> across d x y = end_of low (waxis d g)).
Proof.
  intros (SX & SY) D EX EY. destruct (nth_error_ends _ _ _ SX EX) as (A & B). destruct (nth_error_ends _ _ _ SY EY) as (A' & B').
  destruct D as [-> | ->], low; cbn [on_wall across end_of waxis]; unfold first_of, last_of; rewrite Nat.eqb_eq; tauto.
Qed.
Lemma sf_fill_in_run nearest w c h : sf_wf h -> sf_clean h -> exists f', sf_fill_in nearest w c h = Ok f' /\ sf_wf f' /\ uv f' = uv h /\ sf_filled nearest w h f'.
Proof.
  intros W C. pose proof W as ((W0 & W1) & (M0 & M1)). rewrite sf_clean_idx in C. unfold sf_fill_in. cbn zeta.
  set (v' := if negb (any_masked h) then values h else _).
  assert (S : d0 v' = length (ax (sg h)) /\ d1 v' = length (ay (sg h))) by (unfold v'; destruct (negb (any_masked h)); split; assumption).
  destruct S as (S0 & S1). unfold set_values, set_mask_bool, set_mask, shape_is. rewrite S0, S1, !Nat.eqb_refl. cbn [andb bind sg afull d0 d1 raw uv]. rewrite !Nat.eqb_refl. cbn [andb].
  eexists. split; [reflexivity|]. split; [split; split; try assumption; reflexivity|]. split; [reflexivity|]. split; [reflexivity|].
  intros i j Hi Hj. cbn [msk afull at_]. split; [reflexivity|]. change (at_ v' i j = if at_ (msk h) i j then or_else (w h i j) (nearest h i j) else at_ (values h) i j). unfold v'. destruct (any_masked h) eqn:A; cbn [negb at_].
  - destruct (at_ (msk h) i j) eqn:M; [unfold or_else; now destruct (w h i j)|]. destruct (at_ (values h) i j) eqn:V; [reflexivity|]. apply (C i j Hi Hj) in V. congruence.
  - rewrite (proj1 (any_masked_false h) A) by lia. reflexivity.
Qed.
Lemma shows_unique f x y v m v' m' : grid_sorted (sg f) -> sf_shows f x y v m -> sf_shows f x y v' m' -> v = v' /\ m = m'.
Proof.
  intros (SX & SY) (i & j & A & B & C & D) (i' & j' & A' & B' & C' & D'). pose proof (nth_error_Some_lt _ _ _ A). pose proof (nth_error_Some_lt _ _ _ B). pose proof (nth_error_Some_lt _ _ _ A'). pose proof (nth_error_Some_lt _ _ _ B').
  apply nth_error_nths in A, A', B, B'. assert (i = i') by (apply (increasing_inj _ _ _ SX); auto; congruence). assert (j = j') by (apply (increasing_inj _ _ _ SY); auto; congruence). subst. auto.
Qed.
(** the whole run, on the side and with the number of lines that the checks give *)
Lemma sf_wall_run nearest linear cubic f d pos kind low n : sf_wf f -> sf_clean f -> grid_sorted (sg f) -> 2 <= length (ax (sg f)) -> 2 <= length (ay (sg f)) ->
  is_dir d -> wall_checks (sg f) d pos kind = Ok (low, Z.of_nat n) ->
  exists h f', sf_until_wall nearest linear cubic f d pos kind = Ok f' /\ sf_wf f' /\ grid_sorted (sg f') /\ grown d low n (sg f) (sg f') /\ uv f' = uv f /\
    sf_wf h /\ sf_walled d (end_of low (waxis d (sg f'))) f h /\ sf_filled nearest (wall_interp linear cubic kind) h f' /\ sf_clean h.
Proof.
  intros W C S LX LY D E. unfold sf_until_wall. rewrite E. cbn [bind]. assert ((Z.of_nat n <? 0)%Z = false) as -> by (apply Z.ltb_ge; lia). cbn [guard]. rewrite Nat2Z.id.
  assert (X : exists nl nr nu nd, wall_sides d low n = (nl, nr, nu, nd) /\
     (d = WX -> nl = (if low then n else 0) /\ nr = (if low then 0 else n) /\ nu = 0 /\ nd = 0) /\ (d = WY -> nd = (if low then n else 0) /\ nu = (if low then 0 else n) /\ nl = 0 /\ nr = 0)).
  { destruct D as [-> | ->], low; cbn; do 4 eexists; (split; [reflexivity|]); split; intro; try discriminate; auto. }
  destruct X as (nl & nr & nu & nd & -> & DX & DY).
  destruct (sf_extend_full f nl nr nu nd None W C S LX LY) as (f1 & -> & W1 & S1 & AX & AY & K & Fr & U1 & U2 & U3). cbn [bind].
  pose proof W1 as ((A0 & A1) & (B0 & B1)).
  set (h := mksf (sg f1) _ _ _).
  assert (Wh : sf_wf h) by (split; split; assumption).
  assert (Vh : forall i j, i < length (ax (sg f1)) -> j < length (ay (sg f1)) -> at_ (values h) i j = (if on_wall d low (length (ax (sg f1))) (length (ay (sg f1))) i j then Some 0%num else at_ (values f1) i j)
     /\ at_ (msk h) i j = (if on_wall d low (length (ax (sg f1))) (length (ay (sg f1))) i j then false else at_ (msk f1) i j)).
  { intros i j Hi Hj. unfold h. cbn [values raw msk at_ wall_set d0 d1]. rewrite A0, A1, B0, B1. destruct (on_wall _ _ _ _ i j); split; try reflexivity. cbn. now destruct (at_ (msk f1) i j). }
  assert (Wd : sf_walled d (end_of low (waxis d (sg f1))) f h).
  { intros x y v m (i & j & Ei & Ej & Ev & Em). pose proof (nth_error_Some_lt _ _ _ Ei) as Li. pose proof (nth_error_Some_lt _ _ _ Ej) as Lj.
    destruct (Vh i j Li Lj) as (V1 & M1). rewrite V1 in Ev. rewrite M1 in Em. pose proof (on_wall_coord d low (sg f1) i j x y S1 D Ei Ej) as O.
    destruct (on_wall _ _ _ _ i j).
    - assert (Q : across d x y = end_of low (waxis d (sg f1))) by now apply O. subst v m. split; [intros _; split; reflexivity|]. split; intro Z; contradiction.
    - assert (Q : across d x y <> end_of low (waxis d (sg f1))) by (intro Z; apply O in Z; discriminate Z). split; [intro Z; contradiction|].
      assert (Sh : sf_shows f1 x y v m) by (exists i, j; auto). split; [intros _ Ix Iy; apply (K x y v m Ix Iy); exact Sh|]. intros _ N. destruct (Fr x y v m Sh N). auto. }
  assert (Ch : sf_clean h).
  { intros x y v m Sh. destruct (Wd x y v m Sh) as (P1 & P2 & P3). destruct (Qc_eq_dec (across d x y) (end_of low (waxis d (sg f1)))) as [Q|Q].
    - destruct (P1 Q) as (-> & ->). split; discriminate.
    - destruct (in_dec Qc_eq_dec x (ax (sg f))) as [Ix|Ix]; [destruct (in_dec Qc_eq_dec y (ay (sg f))) as [Iy|Iy]|].
      + exact (C x y v m (P2 Q Ix Iy)).
      + destruct (P3 Q) as (-> & ->); [tauto|]. tauto.
      + destruct (P3 Q) as (-> & ->); [tauto|]. tauto. }
  destruct (sf_fill_in_run nearest (wall_interp linear cubic kind) cubic h Wh Ch) as (f' & -> & W' & U' & Fl).
  pose proof Fl as (Sg & _). change (sg h) with (sg f1) in Sg. exists h, f'. split; [reflexivity|]. split; [exact W'|]. rewrite Sg. split; [exact S1|]. split.
  { split; [|split; [|split; assumption]].
    - destruct D as [-> | ->]; [destruct (DX eq_refl) as (<- & <- & _)|destruct (DY eq_refl) as (<- & <- & _)]; assumption.
    - destruct D as [-> | ->]; cbn [along_axis]; [destruct (DX eq_refl) as (_ & _ & -> & ->); apply axis_same; exact AY|destruct (DY eq_refl) as (_ & _ & -> & ->); apply axis_same; exact AX]. }
  split; [rewrite U'; exact U3|]. split; [exact Wh|]. split; [exact Wd|]. split; [exact Fl|exact Ch].
Qed.
