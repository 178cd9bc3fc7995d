(** * Num: the numbers of the model.

    numpy float64 values are modelled by canonical rationals [Qc]: exact arithmetic,
    decidable order, Leibniz equality.  Every finite float is a rational number;
    rounding is not modelled.  NaN is modelled by [None] in [option num]. *)
From Coq Require Export QArith Qcanon Qround List Arith ZArith Lia Bool.
From Coq Require Import Lqa.
From Coq Require Export ZifyBool ZifyNat.
Export ListNotations.

Notation num := Qc.
Declare Scope num_scope.
Delimit Scope num_scope with num.
Bind Scope num_scope with Qc.
#[global] Arguments Qcplus (x y)%num_scope.
#[global] Arguments Qcminus (x y)%num_scope.
#[global] Arguments Qcmult (x y)%num_scope.
#[global] Arguments Qcdiv (x y)%num_scope.
#[global] Arguments Qcopp (x)%num_scope.
#[global] Arguments Qcinv (x)%num_scope.
#[global] Arguments Qcle (x y)%num_scope.
#[global] Arguments Qclt (x y)%num_scope.

Definition qz (z : Z) : num := Q2Qc (inject_Z z).
Definition qn (n : nat) : num := qz (Z.of_nat n).
Definition qq (n : Z) (d : positive) : num := Q2Qc (n # d).

Definition qleb (a b : num) : bool := Qle_bool (this a) (this b).
Definition qltb (a b : num) : bool := negb (qleb b a).
Definition qeqb (a b : num) : bool := Qeq_bool (this a) (this b).
Definition qabs (a : num) : num := if qleb (qz 0) a then a else Qcopp a.
Definition qmin (a b : num) : num := if qleb a b then a else b.
Definition qmax (a b : num) : num := if qleb a b then b else a.
Definition qfloor (a : num) : Z := Qfloor (this a).
Definition qceil (a : num) : Z := Qceiling (this a).
Definition qsum (l : list num) : num := fold_right Qcplus (qz 0) l.

Notation "a + b" := (Qcplus a b) : num_scope.
Notation "a - b" := (Qcminus a b) : num_scope.
Notation "a * b" := (Qcmult a b) : num_scope.
Notation "a / b" := (Qcdiv a b) : num_scope.
Notation "- a" := (Qcopp a) : num_scope.
Notation "a <= b" := (Qcle a b) : num_scope.
Notation "a < b" := (Qclt a b) : num_scope.
Notation "a <= b <= c" := (Qcle a b /\ Qcle b c) : num_scope.
Notation "a <= b < c" := (Qcle a b /\ Qclt b c) : num_scope.
Notation "a < b <= c" := (Qclt a b /\ Qcle b c) : num_scope.
Notation "a < b < c" := (Qclt a b /\ Qclt b c) : num_scope.
Notation "0" := (qz 0) : num_scope.
Notation "1" := (qz 1) : num_scope.
Notation "2" := (qz 2) : num_scope.
Notation "a <=? b" := (qleb a b) : num_scope.
Notation "a <? b" := (qltb a b) : num_scope.
Notation "a =? b" := (qeqb a b) : num_scope.

(** ** Passing from Qc to Q *)
Lemma this_add a b : (this (Qcplus a b) == this a + this b)%Q.
Proof. apply Qred_correct. Qed.
Lemma this_mul a b : (this (Qcmult a b) == this a * this b)%Q.
Proof. apply Qred_correct. Qed.
Lemma this_opp a : (this (Qcopp a) == - this a)%Q.
Proof. apply Qred_correct. Qed.
Lemma this_sub a b : (this (Qcminus a b) == this a - this b)%Q.
Proof. unfold Qcminus. rewrite this_add, this_opp. reflexivity. Qed.
Lemma this_inv a : (this (Qcinv a) == / this a)%Q.
Proof. apply Qred_correct. Qed.
Lemma this_div a b : (this (Qcdiv a b) == this a / this b)%Q.
Proof. unfold Qcdiv. rewrite this_mul, this_inv. reflexivity. Qed.
Lemma this_Q2Qc q : (this (Q2Qc q) == q)%Q.
Proof. apply Qred_correct. Qed.
Lemma this_qz z : (this (qz z) == inject_Z z)%Q.
Proof. apply Qred_correct. Qed.
Lemma this_qq n d : (this (qq n d) == n # d)%Q.
Proof. apply Qred_correct. Qed.
Lemma Qc_eq_Q (a b : Qc) : a = b -> (this a == this b)%Q.
Proof. intros ->. reflexivity. Qed.
Lemma Q_eq_Qc (a b : Qc) : (this a == this b)%Q -> a = b.
Proof. apply Qc_is_canon. Qed.

Lemma qz_0 : qz 0 = Q2Qc 0. Proof. reflexivity. Qed.
Lemma qz_1 : qz 1 = Q2Qc 1. Proof. reflexivity. Qed.

Ltac qc_to_q :=
  repeat match goal with
  | H : @eq Qc ?a ?b |- _ => apply Qc_eq_Q in H
  | H : Qcle ?a ?b |- _ => change (Qle (this a) (this b)) in H
  | H : Qclt ?a ?b |- _ => change (Qlt (this a) (this b)) in H
  | H : ~ Qcle ?a ?b |- _ => apply Qcnot_le_lt in H
  | H : ~ Qclt ?a ?b |- _ => apply Qcnot_lt_le in H
  | |- ~ Qcle _ _ => intro
  | |- ~ Qclt _ _ => intro
  | |- @eq Qc ?a ?b => apply Q_eq_Qc
  | |- Qcle ?a ?b => change (Qle (this a) (this b))
  | |- Qclt ?a ?b => change (Qlt (this a) (this b))
  end.

Ltac qc_rw t :=
  match t with
  | context [this (Qcplus ?a ?b)] => rewrite (this_add a b) in *
  end.

Ltac qc_push :=
  repeat match goal with
  | |- context [this (Qcplus ?a ?b)] => setoid_rewrite (this_add a b)
  | |- context [this (Qcminus ?a ?b)] => setoid_rewrite (this_sub a b)
  | |- context [this (Qcmult ?a ?b)] => setoid_rewrite (this_mul a b)
  | |- context [this (Qcopp ?a)] => setoid_rewrite (this_opp a)
  | |- context [this (qz ?a)] => setoid_rewrite (this_qz a)
  | |- context [this (qq ?a ?b)] => setoid_rewrite (this_qq a b)
  | |- context [this (Q2Qc ?a)] => setoid_rewrite (this_Q2Qc a)
  | H : context [this (Qcplus ?a ?b)] |- _ => setoid_rewrite (this_add a b) in H
  | H : context [this (Qcminus ?a ?b)] |- _ => setoid_rewrite (this_sub a b) in H
  | H : context [this (Qcmult ?a ?b)] |- _ => setoid_rewrite (this_mul a b) in H
  | H : context [this (Qcopp ?a)] |- _ => setoid_rewrite (this_opp a) in H
  | H : context [this (qz ?a)] |- _ => setoid_rewrite (this_qz a) in H
  | H : context [this (qq ?a ?b)] |- _ => setoid_rewrite (this_qq a b) in H
  | H : context [this (Q2Qc ?a)] |- _ => setoid_rewrite (this_Q2Qc a) in H
  end.

(** keep only the arithmetic hypotheses, so that rewriting is cheap *)
Ltac qc_clear :=
  repeat match goal with
  | H : ?T |- _ =>
    lazymatch T with
    | @eq Qc _ _ => fail
    | Qcle _ _ => fail
    | Qclt _ _ => fail
    | ~ Qcle _ _ => fail
    | ~ Qclt _ _ => fail
    | Qc => fail
    | _ => clear H
    end
  end.

Ltac qc_split :=
  repeat match goal with
  | H : _ /\ _ |- _ => destruct H
  | |- _ /\ _ => split
  end.

Ltac qlra := qc_split; (idtac + exfalso); solve [ qc_clear; qc_to_q; qc_push; cbv [inject_Z] in *; lra ].
Ltac qnra := qc_split; (idtac + exfalso); solve [ qc_clear; qc_to_q; qc_push; cbv [inject_Z] in *; nra ].

(** ** Boolean comparisons *)
Lemma qleb_le a b : qleb a b = true <-> (a <= b)%num.
Proof. apply Qle_bool_iff. Qed.
Lemma qleb_gt a b : qleb a b = false <-> (b < a)%num.
Proof.
  split; intro H.
  - apply Qcnot_le_lt. intro Hc. apply qleb_le in Hc. congruence.
  - destruct (qleb a b) eqn:E; [|reflexivity]. apply qleb_le in E. qlra.
Qed.
Lemma qltb_lt a b : qltb a b = true <-> (a < b)%num.
Proof. unfold qltb. rewrite negb_true_iff. apply qleb_gt. Qed.
Lemma qltb_ge a b : qltb a b = false <-> (b <= a)%num.
Proof. unfold qltb. rewrite negb_false_iff. apply qleb_le. Qed.
Lemma qeqb_eq a b : qeqb a b = true <-> a = b.
Proof. unfold qeqb. rewrite Qeq_bool_iff. split; [apply Q_eq_Qc | apply Qc_eq_Q]. Qed.
Lemma qeqb_neq a b : qeqb a b = false <-> a <> b.
Proof. rewrite <- qeqb_eq. destruct (qeqb a b); intuition congruence. Qed.
Lemma qeqb_refl a : qeqb a a = true.
Proof. now apply qeqb_eq. Qed.

Lemma qleb_spec a b : BoolSpec (a <= b)%num (b < a)%num (qleb a b).
Proof. destruct (qleb a b) eqn:E; constructor; [now apply qleb_le | now apply qleb_gt]. Qed.
Lemma qltb_spec a b : BoolSpec (a < b)%num (b <= a)%num (qltb a b).
Proof. destruct (qltb a b) eqn:E; constructor; [now apply qltb_lt | now apply qltb_ge]. Qed.
Lemma qeqb_spec a b : BoolSpec (a = b) (a <> b) (qeqb a b).
Proof. destruct (qeqb a b) eqn:E; constructor; [now apply qeqb_eq | now apply qeqb_neq]. Qed.

Lemma qneq_cases (a b : num) : a <> b -> (a < b)%num \/ (b < a)%num.
Proof.
  intro H. destruct (qleb_spec a b) as [Hl|Hl]; [|now right].
  left. apply Qcnot_le_lt. intro H2. apply H. qlra.
Qed.
Lemma qlt_neq (a b : num) : (a < b)%num -> a <> b.
Proof. intros H ->. qlra. Qed.
Lemma qgt_neq (a b : num) : (b < a)%num -> a <> b.
Proof. intros H ->. qlra. Qed.
Lemma qle_lt_or_eq (a b : num) : (a <= b)%num -> (a < b)%num \/ a = b.
Proof.
  intro H. destruct (qltb_spec a b) as [Hl|Hl]; [now left|right]. qlra.
Qed.
Lemma qle_refl (a : num) : (a <= a)%num. Proof. qlra. Qed.
Lemma qle_trans (a b c : num) : (a <= b)%num -> (b <= c)%num -> (a <= c)%num. Proof. intros; qlra. Qed.
Lemma qlt_trans (a b c : num) : (a < b)%num -> (b < c)%num -> (a < c)%num. Proof. intros; qlra. Qed.
Lemma qle_lt_trans (a b c : num) : (a <= b)%num -> (b < c)%num -> (a < c)%num. Proof. intros; qlra. Qed.
Lemma qlt_le_trans (a b c : num) : (a < b)%num -> (b <= c)%num -> (a < c)%num. Proof. intros; qlra. Qed.
Lemma qlt_irrefl (a : num) : ~ (a < a)%num. Proof. intro H; qlra. Qed.
Lemma qle_antisym (a b : num) : (a <= b)%num -> (b <= a)%num -> a = b. Proof. intros; qlra. Qed.
Lemma qlt_le (a b : num) : (a < b)%num -> (a <= b)%num. Proof. intros; qlra. Qed.

Lemma qabs_spec a : ((0 <= a)%num /\ qabs a = a) \/ ((a < 0)%num /\ qabs a = Qcopp a).
Proof. unfold qabs. destruct (qleb_spec (qz 0) a); auto. Qed.
Lemma qmin_spec a b : ((a <= b)%num /\ qmin a b = a) \/ ((b < a)%num /\ qmin a b = b).
Proof. unfold qmin. destruct (qleb_spec a b); auto. Qed.
Lemma qmax_spec a b : ((a <= b)%num /\ qmax a b = b) \/ ((b < a)%num /\ qmax a b = a).
Proof. unfold qmax. destruct (qleb_spec a b); auto. Qed.

Lemma qabs_nonneg a : (0 <= qabs a)%num.
Proof. destruct (qabs_spec a) as [[H ->]|[H ->]]; qlra. Qed.
Lemma qabs_opp a : qabs (- a)%num = qabs a.
Proof.
  destruct (qabs_spec a) as [[H ->]|[H ->]], (qabs_spec (- a)%num) as [[H2 ->]|[H2 ->]]; qlra.
Qed.
Lemma qabs_sub_sym a b : qabs (a - b)%num = qabs (b - a)%num.
Proof. rewrite <- qabs_opp. f_equal. qlra. Qed.
Lemma qabs_0 : qabs 0%num = 0%num.
Proof. reflexivity. Qed.

(** ** Multiplication and division *)
Lemma qmul_pos a b : (0 < a)%num -> (0 < b)%num -> (0 < a * b)%num.
Proof. intros; qnra. Qed.
Lemma qmul_nonneg a b : (0 <= a)%num -> (0 <= b)%num -> (0 <= a * b)%num.
Proof. intros; qnra. Qed.
Lemma qmul_le_l a b c : (0 <= c)%num -> (a <= b)%num -> (c * a <= c * b)%num.
Proof. intros; qnra. Qed.
Lemma qmul_le_r a b c : (0 <= c)%num -> (a <= b)%num -> (a * c <= b * c)%num.
Proof. intros; qnra. Qed.
Lemma qmul_lt_l a b c : (0 < c)%num -> (a < b)%num -> (c * a < c * b)%num.
Proof. intros; qnra. Qed.
Lemma qmul_lt_r a b c : (0 < c)%num -> (a < b)%num -> (a * c < b * c)%num.
Proof. intros; qnra. Qed.
Lemma qsq_nonneg a : (0 <= a * a)%num.
Proof. qnra. Qed.
Lemma qdiv_mul a b : b <> 0%num -> (a / b * b)%num = a.
Proof. intro H. unfold Qcdiv. rewrite <- Qcmult_assoc, (Qcmult_comm (/ b)), Qcmult_inv_r; [apply Qcmult_1_r | exact H]. Qed.
Lemma qmul_div a b : b <> 0%num -> (a * b / b)%num = a.
Proof. intro H. unfold Qcdiv. rewrite <- Qcmult_assoc, Qcmult_inv_r; [apply Qcmult_1_r | exact H]. Qed.
Lemma qdiv_pos a b : (0 < a)%num -> (0 < b)%num -> (0 < a / b)%num.
Proof.
  intros Ha Hb. destruct (qltb_spec (qz 0) (a / b)%num) as [H|H]; [exact H|].
  pose proof (qdiv_mul a b (qgt_neq _ _ Hb)) as E.
  assert (a / b * b <= 0 * b)%num by (apply qmul_le_r; qlra). qlra.
Qed.
Lemma qdiv_nonneg a b : (0 <= a)%num -> (0 < b)%num -> (0 <= a / b)%num.
Proof.
  intros Ha Hb. destruct (qleb_spec (qz 0) (a / b)%num) as [H|H]; [exact H|].
  pose proof (qdiv_mul a b (qgt_neq _ _ Hb)) as E.
  assert (a / b * b < 0 * b)%num by (apply qmul_lt_r; qlra). qlra.
Qed.
Lemma qdiv_le a b c : (0 < c)%num -> (a <= b * c)%num -> (a / c <= b)%num.
Proof.
  intros Hc H. destruct (qleb_spec (a / c)%num b) as [L|L]; [exact L|].
  pose proof (qdiv_mul a c (qgt_neq _ _ Hc)) as E.
  assert (b * c < a / c * c)%num by (apply qmul_lt_r; qlra). qlra.
Qed.
Lemma qle_div a b c : (0 < c)%num -> (a * c <= b)%num -> (a <= b / c)%num.
Proof.
  intros Hc H. destruct (qleb_spec a (b / c)%num) as [L|L]; [exact L|].
  pose proof (qdiv_mul b c (qgt_neq _ _ Hc)) as E.
  assert (b / c * c < a * c)%num by (apply qmul_lt_r; qlra). qlra.
Qed.

Lemma qz_add a b : qz (a + b) = (qz a + qz b)%num.
Proof. apply Q_eq_Qc. rewrite this_add, !this_qz. rewrite inject_Z_plus. reflexivity. Qed.
Lemma qz_mul a b : qz (a * b) = (qz a * qz b)%num.
Proof. apply Q_eq_Qc. rewrite this_mul, !this_qz. rewrite inject_Z_mult. reflexivity. Qed.
Lemma qz_opp a : qz (- a) = (- qz a)%num.
Proof. apply Q_eq_Qc. rewrite this_opp, !this_qz. rewrite inject_Z_opp. reflexivity. Qed.
Lemma qz_sub a b : qz (a - b) = (qz a - qz b)%num.
Proof. unfold Z.sub. rewrite qz_add, qz_opp. reflexivity. Qed.
Lemma qz_le a b : (qz a <= qz b)%num <-> (a <= b)%Z.
Proof.
  change ((this (qz a) <= this (qz b))%Q <-> (a <= b)%Z). rewrite !this_qz. rewrite <- Zle_Qle. tauto.
Qed.
Lemma qz_lt a b : (qz a < qz b)%num <-> (a < b)%Z.
Proof.
  change ((this (qz a) < this (qz b))%Q <-> (a < b)%Z). rewrite !this_qz. rewrite <- Zlt_Qlt. tauto.
Qed.
Lemma qz_inj a b : qz a = qz b -> a = b.
Proof.
  intro H. assert (qz a <= qz b /\ qz b <= qz a)%num as [H1 H2] by (rewrite H; split; qlra).
  rewrite qz_le in H1, H2. lia.
Qed.
Lemma qfloor_le a : (qz (qfloor a) <= a)%num.
Proof.
  change ((this (qz (qfloor a)) <= this a)%Q). rewrite this_qz. apply Qfloor_le.
Qed.
Lemma qfloor_lt a : (a < qz (qfloor a + 1))%num.
Proof.
  change ((this a < this (qz (qfloor a + 1)))%Q). rewrite this_qz. apply Qlt_floor.
Qed.
Lemma qfloor_iff a z : (z <= qfloor a)%Z <-> (qz z <= a)%num.
Proof.
  split; intro H.
  - rewrite <- qz_le in H. pose proof (qfloor_le a). qlra.
  - pose proof (qfloor_lt a) as H1. assert (qz z < qz (qfloor a + 1))%num as H2 by qlra.
    rewrite qz_lt in H2. lia.
Qed.
Lemma qceil_ge a : (a <= qz (qceil a))%num.
Proof.
  change ((this a <= this (qz (qceil a)))%Q). rewrite this_qz. apply Qle_ceiling.
Qed.
Lemma qceil_gt a : (qz (qceil a - 1) < a)%num.
Proof.
  change ((this (qz (qceil a - 1)) < this a)%Q). rewrite this_qz. apply Qceiling_lt.
Qed.
Lemma qceil_iff a z : (qceil a <= z)%Z <-> (a <= qz z)%num.
Proof.
  split; intro H.
  - rewrite <- qz_le in H. pose proof (qceil_ge a). qlra.
  - pose proof (qceil_gt a) as H1. assert (qz (qceil a - 1) < qz z)%num as H2 by qlra.
    rewrite qz_lt in H2. lia.
Qed.

(** [qfield]: equality of rational expressions *)
Lemma Qcft_qz : field_theory (qz 0) (qz 1) Qcplus Qcmult Qcminus Qcopp Qcdiv Qcinv (@eq Qc).
Proof. exact Qcft. Qed.
Lemma qz_2 : qz 2 = (Q2Qc 1 + Q2Qc 1)%num.
Proof. apply Q_eq_Qc. reflexivity. Qed.
Ltac qnorm := rewrite ?qz_2 in *; change (qz 0) with (Q2Qc 0) in *; change (qz 1) with (Q2Qc 1) in *.
Ltac qfield := qnorm; field.
Ltac qring := qnorm; ring.

Example qlra_test (a b : num) : (a < b)%num -> (a < (a + b) * qq 1 2)%num.
Proof. intros; qlra. Qed.
Example qfield_test (a b : num) : b <> 0%num -> (a / b + 2 = (a + 2 * b) / b)%num.
Proof. intros; qfield. assumption. Qed.

Global Close Scope Qc_scope.
Global Close Scope Q_scope.
Global Close Scope Z_scope.
Global Open Scope nat_scope.
