(** * VpropProofs4: the rule of integration behind the vortex properties. *)
From Coq Require Import Lia.
From Verif Require Import Num Res ListLib SortLib Arr FieldModel ScalarFieldModel FieldProofs FieldProofs2 AsciiProofs2 VpropModel VpropSpec.

Definition fsum (n : nat) (g : nat -> num) : num := Num.qsum (map g (seq 0 n)).
Lemma qsum_app' (l k : list num) : Num.qsum (l ++ k) = (Num.qsum l + Num.qsum k)%num.
Proof. induction l as [|a l IH]; [cbn [app]; change (Num.qsum []) with (qz 0); qring|]. cbn [app]. rewrite !qsum_cons, IH. qring. Qed.
Lemma fsum_S n g : fsum (S n) g = (fsum n g + g n)%num.
Proof. unfold fsum. rewrite seq_S, map_app, qsum_app'. cbn [map Nat.add]. rewrite qsum_cons. change (Num.qsum []) with (qz 0). qring. Qed.
Lemma fsum_first n g : fsum (S n) g = (g O + fsum n (fun i => g (S i)))%num.
Proof. unfold fsum. cbn [seq map]. rewrite qsum_cons, <- seq_shift, map_map. reflexivity. Qed.
Lemma fsum_add n g h : fsum n (fun i => (g i + h i)%num) = (fsum n g + fsum n h)%num.
Proof. induction n as [|n IH]; [unfold fsum; cbn [seq map]; change (Num.qsum []) with (qz 0); qring|]. rewrite !fsum_S, IH. qring. Qed.
Lemma fsum_scale n g k : fsum n (fun i => (k * g i)%num) = (k * fsum n g)%num.
Proof. induction n as [|n IH]; [unfold fsum; cbn [seq map]; change (Num.qsum []) with (qz 0); qring|]. rewrite !fsum_S, IH. qring. Qed.
Lemma fsum_ext n g h : (forall i, i < n -> g i = h i) -> fsum n g = fsum n h.
Proof. intro H. unfold fsum. f_equal. apply map_ext_in. intros i I. apply H. apply in_seq in I. lia. Qed.
Lemma fsum_zero n g : (forall i, i < n -> g i = qz 0) -> fsum n g = qz 0.
Proof. induction n as [|n IH]; intro H; [reflexivity|]. rewrite fsum_S, IH by auto. rewrite H by lia. qring. Qed.
Lemma fsum_init n g h : (forall i, i < n -> g i = h i) -> g n = qz 0 -> fsum (S n) g = fsum n h.
Proof. intros H Z. rewrite fsum_S, Z, (fsum_ext n g h H). qring. Qed.

Lemma simpson_eq h a b c t : simpson h (a :: b :: c :: t) = oadd (oscale (h / qz 3)%num (oadd (oadd a (oscale (qz 4) b)) c)) (simpson h (c :: t)).
Proof. reflexivity. Qed.
Lemma simpson_weights k : exists w : nat -> num, fsum (S (2 * k)) w = qn (2 * k) /\ (forall i, i < S (2 * k) -> (0 <= w i)%num) /\ (1 <= k -> forall i, i < S (2 * k) -> (0 < w i)%num) /\
  forall h f, simpson h (map (fun i => Some (f i)) (seq 0 (S (2 * k)))) = Some (h * fsum (S (2 * k)) (fun i => w i * f i))%num.
Proof.
  induction k as [|k (w & S0 & P0 & P1 & E)].
  - exists (fun _ => qz 0). split; [reflexivity|]. split; [intros; apply qle_refl|]. split; [lia|]. intros h f. cbn. f_equal. unfold fsum, Num.qsum; cbn. qring.
  - replace (2 * S k) with (S (S (2 * k))) by lia.
    exists (fun i => match i with O => qq 1 3 | 1 => qq 4 3 | S (S O) => (w O + qq 1 3)%num | S (S i') => w i' end).
    assert (R : forall f, fsum (S (S (S (2 * k)))) (fun i => (match i with O => qq 1 3 | 1 => qq 4 3 | S (S O) => (w O + qq 1 3)%num | S (S i') => w i' end * f i)%num)
      = (qq 1 3 * f O + qq 4 3 * f 1%nat + qq 1 3 * f 2%nat + fsum (S (2 * k)) (fun i => w i * f (S (S i))))%num).
    { intro f. rewrite 3!fsum_first, (fsum_first (2 * k)). cbn beta iota. qring. }
    split.
    { rewrite (fsum_ext _ _ (fun i => (match i with O => qq 1 3 | 1 => qq 4 3 | S (S O) => (w O + qq 1 3)%num | S (S i') => w i' end * (fun _ => qz 1) i)%num)) by (intros; qring).
      rewrite R. rewrite (fsum_ext _ _ w) by (intros; qring). rewrite S0, !qn_S. assert (X : (qq 1 3 * qz 1 + qq 4 3 * qz 1 + qq 1 3 * qz 1 = qz 2)%num) by (apply Qc_is_canon; reflexivity). rewrite X. change (qz 2) with (qz 1 + qz 1)%num || (replace (qz 2) with (qz 1 + qz 1)%num by (apply Qc_is_canon; reflexivity)). qring. }
    assert (PP : forall i, i < S (S (S (2 * k))) -> (0 < match i with O => qq 1 3 | 1 => qq 4 3 | S (S O) => (w O + qq 1 3)%num | S (S i') => w i' end)%num).
    { assert (T : (0 < qq 1 3)%num) by reflexivity. intros [|[|[|i]]] L; [reflexivity|reflexivity| |].
      - assert (X := P0 O ltac:(lia)). qlra.
      - destruct k as [|k]; [lia|]. apply P1; lia. }
    split; [intros i L; specialize (PP i L); qlra|]. split; [auto|].
    intros h f. rewrite R.
    assert (Q : map (fun i => Some (f i)) (seq 2 (S (2 * k))) = map (fun i => Some (f (S (S i)))) (seq 0 (S (2 * k)))) by (now rewrite <- !seq_shift, !map_map).
    change (seq 0 (S (S (S (2 * k))))) with (0 :: 1 :: seq 2 (S (2 * k))). cbn [map]. rewrite Q.
    change (map (fun i => Some (f (S (S i)))) (seq 0 (S (2 * k)))) with (Some (f 2%nat) :: map (fun i => Some (f (S (S i)))) (seq 1 (2 * k))). rewrite simpson_eq.
    change (Some (f 2%nat) :: map (fun i => Some (f (S (S i)))) (seq 1 (2 * k))) with (map (fun i => Some (f (S (S i)))) (seq 0 (S (2 * k)))).
    rewrite (E h (fun i => f (S (S i)))). unfold oadd, oscale. cbn [lift2 option_map].
    assert (X : (h / qz 3 = h * qq 1 3)%num) by (unfold Qcdiv; f_equal; apply Qc_is_canon; reflexivity). rewrite X.
    f_equal. replace (qq 4 3) with (qz 4 * qq 1 3)%num by (apply Qc_is_canon; reflexivity). qring.
Qed.

Lemma simps_weights n : 2 <= n -> exists w, weights n w /\ forall h f, simps h (map (fun i => Some (f i)) (seq 0 n)) = Some (h * fsum n (fun i => w i * f i))%num.
Proof.
  intro L. unfold simps. destruct (Nat.odd n) eqn:Od.
  - apply Nat.odd_spec in Od. destruct Od as [k ->]. replace (2 * k + 1) with (S (2 * k)) in * by lia. destruct (simpson_weights k) as (w & S0 & _ & P & E). exists w.
    split; [|intros; rewrite map_length, seq_length, (proj2 (Nat.odd_spec _)) by (exists k; lia); apply E]. split; [apply P; lia|]. unfold fsum in S0. rewrite S0. f_equal. lia.
  - assert (Ev : Nat.even n = true) by (rewrite <- Nat.negb_odd, Od; reflexivity). apply Nat.even_spec in Ev. destruct Ev as [[|k] ->]; [lia|]. replace (2 * S k) with (S (S (2 * k))) in * by lia.
    destruct (simpson_weights k) as (w & S0 & P0 & P1 & E).
    set (A := fun i => if Nat.ltb i (S (2 * k)) then w i else qz 0). set (B := fun i => match i with O => qz 0 | S i' => w i' end).
    set (C := fun i => if Nat.leb i 1 then qq 1 2 else qz 0). set (D := fun i => if Nat.leb (2 * k) i then qq 1 2 else qz 0).
    exists (fun i => qq 1 2 * (A i + B i + C i + D i))%num.
    assert (HA : forall f, fsum (S (S (2 * k))) (fun i => A i * f i)%num = fsum (S (2 * k)) (fun i => w i * f i)%num).
    { intro f. apply fsum_init; unfold A; [|rewrite Nat.ltb_irrefl; qring]. intros i Li. now rewrite (proj2 (Nat.ltb_lt _ _) Li). }
    assert (HB : forall f, fsum (S (S (2 * k))) (fun i => B i * f i)%num = fsum (S (2 * k)) (fun i => w i * f (S i))%num).
    { intro f. rewrite fsum_first. change (fun i => (B (S i) * f (S i))%num) with (fun i => (w i * f (S i))%num). change (B O) with (qz 0). qring. }
    assert (HC : forall f, fsum (S (S (2 * k))) (fun i => C i * f i)%num = (qq 1 2 * (f O + f 1%nat))%num).
    { intro f. rewrite !fsum_first. rewrite fsum_zero; [cbn; qring|]. intros i _. cbn. qring. }
    assert (HD : forall f, fsum (S (S (2 * k))) (fun i => D i * f i)%num = (qq 1 2 * (f (2 * k)%nat + f (S (2 * k))))%num).
    { intro f. rewrite !fsum_S. rewrite fsum_zero; [unfold D; rewrite Nat.leb_refl, (proj2 (Nat.leb_le _ _)) by lia; qring|]. intros i Li. unfold D. rewrite (proj2 (Nat.leb_gt _ _)) by lia. qring. }
    assert (HH : forall f, fsum (S (S (2 * k))) (fun i => qq 1 2 * (A i + B i + C i + D i) * f i)%num =
      (qq 1 2 * (fsum (S (2 * k)) (fun i => w i * f i) + fsum (S (2 * k)) (fun i => w i * f (S i)) + qq 1 2 * (f O + f 1%nat) + qq 1 2 * (f (2 * k)%nat + f (S (2 * k)))))%num).
    { intro f. rewrite (fsum_ext _ _ (fun i => qq 1 2 * ((A i * f i + B i * f i) + C i * f i + D i * f i))%num) by (intros; qring).
      rewrite (fsum_scale _ (fun i => (A i * f i + B i * f i) + C i * f i + D i * f i)%num), (fsum_add _ (fun i => (A i * f i + B i * f i) + C i * f i)%num (fun i => D i * f i)%num), (fsum_add _ (fun i => (A i * f i + B i * f i))%num (fun i => C i * f i)%num), (fsum_add _ (fun i => A i * f i)%num (fun i => B i * f i)%num), HA, HB, HC, HD. reflexivity. }
    split.
    + split.
      * intros i Li. assert (T : (0 < qq 1 2)%num) by reflexivity. apply qmul_pos; [exact T|].
        assert (NA : (0 <= A i)%num) by (unfold A; destruct (Nat.ltb_spec i (S (2 * k))); [now apply P0|apply qle_refl]).
        assert (NB : (0 <= B i)%num) by (destruct i; cbn; [apply qle_refl|apply P0; lia]).
        assert (NC : (0 <= C i)%num) by (unfold C; destruct (Nat.leb i 1); [qlra|apply qle_refl]).
        assert (ND : (0 <= D i)%num) by (unfold D; destruct (Nat.leb (2 * k) i); [qlra|apply qle_refl]).
        destruct (Nat.leb_spec i 1) as [Q|Q].
        -- assert (X : C i = qq 1 2) by (unfold C; now rewrite (proj2 (Nat.leb_le _ _) Q)). rewrite X. qlra.
        -- assert (X : (0 < B i)%num) by (destruct i; [lia|]; cbn; apply P1; lia). qlra.
      * change (fsum (S (S (2 * k))) (fun i => qq 1 2 * (A i + B i + C i + D i))%num = qn (S (S (2 * k)) - 1)).
        rewrite (fsum_ext _ _ (fun i => qq 1 2 * (A i + B i + C i + D i) * (fun _ => qz 1) i)%num) by (intros; qring). rewrite HH.
        rewrite (fsum_ext _ _ w) by (intros; qring). rewrite S0. replace (S (S (2 * k)) - 1) with (S (2 * k)) by lia. rewrite qn_S. set (q := qn (2 * k)).
        replace (qq 1 2 * (q + q + qq 1 2 * (qz 1 + qz 1) + qq 1 2 * (qz 1 + qz 1)))%num with ((qq 1 2 + qq 1 2) * q + (qq 1 2 * qq 1 2 + qq 1 2 * qq 1 2 + qq 1 2 * qq 1 2 + qq 1 2 * qq 1 2) * qz 1)%num by qring.
        replace (qq 1 2 + qq 1 2)%num with (qz 1) by (apply Qc_is_canon; reflexivity).
        replace (qq 1 2 * qq 1 2 + qq 1 2 * qq 1 2 + qq 1 2 * qq 1 2 + qq 1 2 * qq 1 2)%num with (qz 1) by (apply Qc_is_canon; reflexivity). qring.
    + intros h f. rewrite map_length, seq_length, Od. rewrite HH.
      assert (RL : removelast (map (fun i => Some (f i)) (seq 0 (S (S (2 * k))))) = map (fun i => Some (f i)) (seq 0 (S (2 * k)))) by (rewrite (seq_S (S (2 * k))), map_app; cbn [map]; now rewrite removelast_last).
      assert (RV : rev (map (fun i => Some (f i)) (seq 0 (S (S (2 * k))))) = Some (f (S (2 * k))) :: Some (f (2 * k)%nat) :: rev (map (fun i => Some (f i)) (seq 0 (2 * k)))) by (rewrite (seq_S (S (2 * k))), (seq_S (2 * k)), !map_app, !rev_app_distr; reflexivity).
      assert (TL : map (fun i => Some (f i)) (seq 1 (S (2 * k))) = map (fun i => Some (f (S i))) (seq 0 (S (2 * k)))) by (now rewrite <- seq_shift, map_map).
      destruct (map (fun i => Some (f i)) (seq 0 (S (S (2 * k))))) as [|a t] eqn:EL; [discriminate|].
      assert (Ea : a = Some (f O)) by (cbn in EL; congruence). assert (Et : t = map (fun i => Some (f i)) (seq 1 (S (2 * k)))) by (cbn in EL; cbn; congruence).
      rewrite RL, RV, E. rewrite Et, Ea. cbn [seq map]. 
      change (Some (f 1%nat) :: map (fun i => Some (f i)) (seq 2 (2 * k))) with (map (fun i => Some (f i)) (seq 1 (S (2 * k)))). rewrite TL, (E h (fun i => f (S i))).
      unfold trapeze. unfold oadd, oscale. cbn [lift2 option_map]. assert (X : (h / qz 2 = h * qq 1 2)%num) by (unfold Qcdiv; f_equal; apply Qc_is_canon; reflexivity). rewrite X. f_equal. qring.
Qed.
