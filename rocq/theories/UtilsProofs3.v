(** * UtilsProofs3: the progress counter and the printed durations. *)
From Verif Require Import Num Res ListLib UtilsModel UtilsSpec.

Lemma qfloor_unique x z : (qz z <= x)%num -> (x < qz (z + 1))%num -> qfloor x = z.
Proof.
  intros A B. pose proof (proj2 (qfloor_iff x z) A). pose proof (qfloor_le x) as C.
  pose proof (qle_lt_trans _ _ _ C B) as D. apply (proj1 (qz_lt _ _)) in D. lia.
Qed.
Lemma qfloor_qz z : qfloor (qz z) = z.
Proof. apply qfloor_unique; [qlra|]. apply (proj2 (qz_lt _ _)). lia. Qed.
Lemma qtrunc_nonneg x : (0 <= x)%num -> qtrunc x = qfloor x.
Proof. intro H. unfold qtrunc. destruct (qleb_spec 0%num x); [reflexivity|qlra]. Qed.
Lemma qround_near x : (qz (qround x) - x <= qq 1 2)%num /\ (x - qz (qround x) <= qq 1 2)%num.
Proof.
  pose proof (qfloor_le x) as A. pose proof (qfloor_lt x) as B. unfold qround. cbv zeta. rewrite qz_add in B.
  destruct (qltb_spec (x - qz (qfloor x))%num (qq 1 2)); [split; qlra|].
  destruct (qltb_spec (qq 1 2) (x - qz (qfloor x))%num).
  - rewrite qz_add. split; qlra.
  - destruct (Z.even (qfloor x)); [split; qlra|]. rewrite qz_add. split; qlra.
Qed.
Lemma qround_qz z : qround (qz z) = z.
Proof.
  destruct (qround_near (qz z)) as [A B]. rewrite <- qz_sub in A, B.
  assert (C : (qz (qround (qz z) - z) < qz 1)%num) by qlra. assert (D : (qz (z - qround (qz z)) < qz 1)%num) by qlra.
  apply (proj1 (qz_lt _ _)) in C. apply (proj1 (qz_lt _ _)) in D. lia.
Qed.
Lemma qround_range x a b : (qz a <= x)%num -> (x <= qz b)%num -> (a <= qround x <= b)%Z.
Proof.
  intros H1 H2. destruct (qround_near x) as [A B]. split.
  - assert (C : (qz (a - 1) < qz (qround x))%num) by (rewrite qz_sub; qlra). apply (proj1 (qz_lt _ _)) in C. lia.
  - assert (C : (qz (qround x) < qz (b + 1))%num) by (rewrite qz_add; qlra). apply (proj1 (qz_lt _ _)) in C. lia.
Qed.

Definition pc_line (n d i : Z) : pcout :=
  let perc := qround (qz i / qz n * qz 100)%num in let nb := qtrunc (qz perc / qz 100 * qz 15)%num in
  {| po_problem := Z.eqb i (n + 1);
     po_line := if (Z.eqb (i mod d) 0 || Z.eqb i n)%bool then Some (perc, nb, 15 - nb, i)%Z else None; po_end := Z.eqb i n |}.
Lemma pc_run_nth n d k : forall cur i, n <> 0%Z -> i < k ->
  nth_error (pc_run {| pc_max := n; pc_cur := cur; pc_interv := d |} k) i = Some (Ok (pc_line n d (cur + Z.of_nat i))).
Proof.
  induction k as [|k IH]; intros cur i N L; [lia|]. cbn [pc_run]. unfold pc_step. cbn [pc_max pc_cur pc_interv].
  destruct (Z.eqb_spec n 0) as [E|_]; [contradiction|]. rewrite Bool.andb_false_r. destruct i as [|i].
  - cbn [nth_error]. rewrite Z.add_0_r. reflexivity.
  - cbn [nth_error]. rewrite IH by (auto; lia). do 3 f_equal. lia.
Qed.
Lemma ratio_range i n : (0 < i <= n)%Z -> (qz 0 <= qz i / qz n * qz 100)%num /\ (qz i / qz n * qz 100 <= qz 100)%num.
Proof.
  intro H. assert (P : (0 < qz n)%num) by (apply (proj2 (qz_lt _ _)); lia). assert (Q : (0 <= qz i)%num) by (apply (proj2 (qz_le _ _)); lia).
  assert (R : (qz i <= qz n)%num) by (apply (proj2 (qz_le _ _)); lia). pose proof (qdiv_nonneg _ _ Q P) as A.
  assert (B : (qz i / qz n <= qz 1)%num) by (apply qdiv_le; [exact P|]; qlra). split; qlra.
Qed.
Lemma progress_lemma n perc i : (0 < n)%Z -> (0 < i <= n)%Z ->
  exists o, nth_error (pc_run (pc_new n perc) (Z.to_nat n)) (Z.to_nat (i - 1)) = Some (Ok o) /\
    po_problem o = false /\ (po_end o = true <-> i = n) /\
    (i = n -> po_line o = Some (100, 15, 0, n)%Z) /\
    (forall p h d it, po_line o = Some (p, h, d, it) ->
       it = i /\ (0 <= p <= 100)%Z /\ (0 <= h)%Z /\ (0 <= d)%Z /\ (h + d = 15)%Z /\
       (qabs (qz p - qz i / qz n * qz 100) <= qq 1 2)%num).
Proof.
  intros N I. unfold pc_new. cbv zeta. rewrite pc_run_nth by lia. eexists; split; [reflexivity|].
  replace (1 + Z.of_nat (Z.to_nat (i - 1)))%Z with i by lia. unfold pc_line. cbv zeta. cbn [po_problem po_end po_line].
  destruct (ratio_range i n I) as [R1 R2]. pose proof (qround_range _ _ _ R1 R2) as RR. pose proof (qround_near (qz i / qz n * qz 100)%num) as RN.
  split; [apply Z.eqb_neq; lia|]. split; [apply Z.eqb_eq|]. split.
  - intros ->. rewrite Z.eqb_refl, Bool.orb_true_r.
    assert (E : (qz n / qz n * qz 100)%num = qz 100).
    { assert (NZ : qz n <> 0%num) by (apply qgt_neq, qz_lt; lia). qfield. intro X. apply NZ. rewrite X. reflexivity. }
    rewrite E, qround_qz. reflexivity.
  - intros p' h d it H. set (p := qround (qz i / qz n * qz 100)%num) in *. clearbody p.
    remember (qtrunc (qz p / qz 100 * qz 15)%num) as nb eqn:NB. remember (15 - nb)%Z as nd eqn:ND. destruct (_ || _)%bool; [|discriminate].
    injection H as <- <- <- <-. split; [reflexivity|]. split; [exact RR|]. subst nd nb.
    assert (P0 : (qz 0 <= qz p)%num) by (apply (proj2 (qz_le _ _)); lia). assert (P1 : (qz p <= qz 100)%num) by (apply (proj2 (qz_le _ _)); lia).
    assert (X0 : (0 <= qz p / qz 100 * qz 15)%num) by (assert (0 <= qz p / qz 100)%num by (apply qdiv_nonneg; [qlra|apply (proj2 (qz_lt _ _)); lia]); qlra).
    assert (X1 : (qz p / qz 100 * qz 15 <= qz 15)%num) by (assert (qz p / qz 100 <= 1)%num by (apply qdiv_le; [apply (proj2 (qz_lt _ _)); lia|qlra]); qlra).
    rewrite qtrunc_nonneg by exact X0. set (x := (qz p / qz 100 * qz 15)%num) in *. clearbody x.
    assert (F0 : (0 <= qfloor x)%Z) by (apply qfloor_iff; exact X0).
    assert (F1 : (qfloor x <= 15)%Z) by (pose proof (qfloor_le x); apply (proj1 (qz_le _ _)); qlra).
    split; [exact F0|]. split; [lia|]. split; [lia|]. destruct (qabs_spec (qz p - qz i / qz n * qz 100)%num) as [[_ ->]|[_ ->]]; destruct RN; qlra.
Qed.
(** the items whose line is printed *)
Lemma progress_interval n perc i : (0 < n)%Z -> (0 <= perc)%num -> (0 < i <= n)%Z ->
  exists o, nth_error (pc_run (pc_new n perc) (Z.to_nat n)) (Z.to_nat (i - 1)) = Some (Ok o) /\
    (po_line o <> None <-> (Z.max 1 (qfloor (qz n * perc / qz 100)%num) | i)%Z \/ i = n).
Proof.
  intros N P I. unfold pc_new. cbv zeta. rewrite pc_run_nth by lia. eexists; split; [reflexivity|].
  replace (1 + Z.of_nat (Z.to_nat (i - 1)))%Z with i by lia. unfold pc_line. cbv zeta. cbn [po_line].
  assert (X : (0 <= qz n * perc / qz 100)%num) by (apply qdiv_nonneg; [apply qmul_nonneg; [apply (proj2 (qz_le _ _)); lia|exact P]|apply (proj2 (qz_lt _ _)); lia]).
  rewrite qtrunc_nonneg by exact X. set (f := qfloor (qz n * perc / qz 100)%num).
  assert (F : (0 <= f)%Z) by (apply qfloor_iff; exact X). clearbody f.
  set (d := if Z.eqb f 0 then 1%Z else f). assert (D : d = Z.max 1 f) by (unfold d; destruct (Z.eqb_spec f 0); lia). rewrite <- D.
  assert (D1 : (0 < d)%Z) by lia. clearbody d.
  destruct (Z.eqb_spec (i mod d) 0) as [E|E]; cbn [orb].
  - split; [intros _; left; apply Z.mod_divide; lia|discriminate].
  - destruct (Z.eqb_spec i n) as [E2|E2]; [split; [auto|discriminate]|]. split; [congruence|]. intros [H|H]; [|contradiction].
    exfalso. apply E. apply Z.mod_divide in H; lia.
Qed.
Lemma pc_run_length c k : length (pc_run c k) = k.
Proof. revert c; induction k as [|k IH]; intro c; [reflexivity|]. cbn [pc_run]. destruct (pc_step c). cbn. f_equal. apply IH. Qed.
(** calls after the last item complain or print again *)
Lemma progress_after n perc : (0 < n)%Z ->
  exists o, nth_error (pc_run (pc_new n perc) (Z.to_nat n + 1)) (Z.to_nat n) = Some (Ok o) /\ po_problem o = true /\ po_end o = false.
Proof.
  intro N. unfold pc_new. cbv zeta. rewrite pc_run_nth by lia. eexists; split; [reflexivity|].
  unfold pc_line. cbv zeta. cbn [po_problem po_end]. split; [apply Z.eqb_eq; lia|apply Z.eqb_neq; lia].
Qed.

(** ** printed durations *)
Lemma format_short s : (0 <= s)%num -> (s < qz 86400)%num ->
  ((1 <= s)%num -> printed_seconds (format_time s) = qz (qfloor s)) /\
  ((s < 1)%num -> format_time s = [(qfloor (s * qz 1000)%num, Ms)]) /\
  Forall (fun e => match snd e with Ms => 0 <= fst e < 1000 | Sec | Mn => 0 <= fst e < 60 | Hour => 0 <= fst e < 24 | Day => False end)%Z (format_time s).
Proof.
  intros S0 S1. pose proof (qfloor_le s) as FL. pose proof (qfloor_lt s) as FU. rewrite qz_add in FU.
  unfold format_time. cbv zeta. rewrite (qtrunc_nonneg s S0).
  assert (X0 : (0 <= (s - qz (qfloor s)) * qz 1000)%num) by (assert (0 <= s - qz (qfloor s))%num by qlra; qlra).
  rewrite (qtrunc_nonneg _ X0).
  assert (M : (0 <= qfloor ((s - qz (qfloor s)) * qz 1000)%num < 1000)%Z).
  { split; [apply qfloor_iff; exact X0|]. apply (proj1 (qz_lt _ _)). pose proof (qfloor_le ((s - qz (qfloor s)) * qz 1000)%num) as A.
    assert ((s - qz (qfloor s)) * qz 1000 < qz 1000)%num by qlra. qlra. }
  assert (Z0 : (0 <= qfloor s)%Z) by (apply qfloor_iff; exact S0).
  assert (Z1 : (qfloor s < 86400)%Z) by (apply (proj1 (qz_lt _ _)); qlra).
  set (z := qfloor s) in *.
  assert (J : (z / 60 / 60 / 24 = 0)%Z) by (rewrite !Z.div_div by lia; apply Z.div_small; lia).
  rewrite J. cbn [Z.eqb]. rewrite Bool.andb_true_r.
  pose proof (Z.mod_pos_bound z 60 ltac:(lia)) as B1. pose proof (Z.mod_pos_bound (z / 60) 60 ltac:(lia)) as B2. pose proof (Z.mod_pos_bound (z / 60 / 60) 24 ltac:(lia)) as B3.
  assert (H24 : ((z / 60 / 60) mod 24 = z / 60 / 60)%Z) by (apply Z.mod_small; rewrite Z.div_div by lia; split; [apply Z.div_pos; lia|apply Z.div_lt_upper_bound; lia]).
  pose proof (Z.div_mod z 60 ltac:(lia)) as D1. pose proof (Z.div_mod (z / 60) 60 ltac:(lia)) as D2.
  destruct (Z.eqb_spec (z mod 60) 0) as [E1|E1], (Z.eqb_spec ((z / 60) mod 60) 0) as [E2|E2], (Z.eqb_spec ((z / 60 / 60) mod 24) 0) as [E3|E3]; cbn [andb app].
  1: { assert (z = 0)%Z by lia. split; [|split].
       - intro. exfalso. assert (qz 0 < qz z)%num. { assert (1 <= z)%Z by (apply qfloor_iff; assumption). apply (proj2 (qz_lt _ _)); lia. } apply (proj1 (qz_lt _ _)) in H1. lia.
       - intros _. f_equal. f_equal. subst z. rewrite H. f_equal. qring.
       - constructor; [exact M|constructor]. }
  all: split; [intros _|split; [intro Hs; exfalso; assert (1 <= z)%Z by lia; assert (qz 1 <= qz z)%num by (apply (proj2 (qz_le _ _)); assumption); qlra|]].
  all: try (repeat constructor; cbn [snd fst]; lia).
  all: unfold printed_seconds; cbn [fold_right fst snd unit_seconds]; rewrite <- ?qz_mul; change (qz 0) with (qz 0); rewrite <- ?qz_add; f_equal; rewrite ?H24 in *; nia.
Qed.
Lemma format_days s : (qz 86400 <= s)%num ->
  exists r, format_time s = ((qfloor s / 60) mod 60, Day)%Z :: r.
Proof.
  intro S0. assert (P : (0 <= s)%num). { assert (0 <= qz 86400)%num by (apply (proj2 (qz_le _ _)); lia). qlra. }
  unfold format_time. cbv zeta. rewrite (qtrunc_nonneg s P). set (z := qfloor s).
  assert (Z0 : (86400 <= z)%Z) by (apply qfloor_iff; exact S0).
  assert (J : (1 <= z / 60 / 60 / 24)%Z) by (rewrite !Z.div_div by lia; apply Z.div_le_lower_bound; lia).
  destruct (Z.eqb_spec (z / 60 / 60 / 24) 0) as [E|E]; [lia|]. rewrite Bool.andb_false_r. cbn [app]. eexists. reflexivity.
Qed.
