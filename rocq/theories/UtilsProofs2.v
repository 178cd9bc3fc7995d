(** * UtilsProofs2: the type checking decorators, the progress counter and the printed durations. *)
From Coq Require Import String.
From Verif Require Import Num Res ListLib UtilsModel UtilsSpec.

Section Types.
Context {T Val R : Type} (T_dec : forall a b : T, {a = b} + {a <> b}) (type_of : Val -> T).
Lemma accepts_spec w t : accepts T_dec w t = true <-> accepted w t.
Proof.
  destruct w as [t'|ts]; cbn; [destruct (T_dec t t'); intuition congruence|]. rewrite existsb_exists. split.
  - intros (x & I & H). destruct (T_dec t x); [subst; exact I|discriminate].
  - intro I. exists t. split; [exact I|]. destruct (T_dec t t); congruence.
Qed.
Lemma assoc_in {B} x (l : list (string * B)) b : assoc x l = Some b -> In (x, b) l.
Proof. induction l as [|[y c] l IH]; cbn; [discriminate|]. destruct (string_dec x y) as [->|]; [intro H; injection H as ->; now left|right; auto]. Qed.
Lemma assoc_none {B} x (l : list (string * B)) : assoc x l = None <-> forall b, ~ In (x, b) l.
Proof.
  induction l as [|[y c] l IH]; cbn; [split; [intros _ b []|reflexivity]|]. destruct (string_dec x y) as [->|N].
  - split; [discriminate|]. intro H. exfalso. apply (H c). now left.
  - rewrite IH. split; [intros H b [E|I]; [congruence|eapply H; exact I]|intros H b I; eapply H; right; exact I].
Qed.
Lemma assoc_nodup {B} x (l : list (string * B)) b : NoDup (map fst l) -> In (x, b) l -> assoc x l = Some b.
Proof.
  induction l as [|[y c] l IH]; cbn; intros N I; [destruct I|]. inversion N; subst. destruct (string_dec x y) as [->|D].
  - destruct I as [I|I]; [congruence|]. exfalso. apply H1, in_map_iff. exists (y, b). auto.
  - destruct I as [I|I]; [congruence|auto].
Qed.
(** the wanted type of a parameter *)
Lemma wanted_spec kw : NoDup (map fst kw) -> forall vars at_ x w, NoDup vars ->
  (assoc x (tt_wanted (T:=T) at_ kw vars) = Some w <-> In x vars /\ declared at_ kw vars x w).
Proof.
  intro NK. induction vars as [|y r IH]; intros at_ x w N.
  { cbn. split; [discriminate|intros [[] _]]. }
  inversion N; subst.
  assert (SH : x <> y -> (In x r /\ declared (tl at_) kw r x w <-> In x (y :: r) /\ declared at_ kw (y :: r) x w)).
  { intro D. unfold declared. cbn [In]. split.
    - intros [I [K|[K (i & A & B)]]]; split; auto. right. split; [exact K|]. exists (S i). destruct at_; cbn in *; [destruct i; discriminate|auto].
    - intros [[E|I] H]; [congruence|]. split; [exact I|]. destruct H as [K|[K (i & A & B)]]; [left; exact K|right]. split; [exact K|].
      destruct i; cbn in A; [congruence|]. exists i. destruct at_; cbn in *; [discriminate|auto]. }
  assert (EQ : tt_wanted at_ kw (y :: r) = match assoc y kw with Some w => (y, w) :: tt_wanted (tl at_) kw r
                 | None => match at_ with w :: _ => (y, w) :: tt_wanted (tl at_) kw r | [] => tt_wanted (tl at_) kw r end end).
  { cbn. destruct (assoc y kw), at_; reflexivity. }
  rewrite EQ. clear EQ. destruct (string_dec x y) as [->|D].
  - destruct (assoc y kw) as [wy|] eqn:Ek.
    + cbn [assoc]. destruct (string_dec y y); [|congruence]. apply assoc_in in Ek. split.
      * intro H; injection H as ->. split; [now left|left; exact Ek].
      * intros [_ [K|[K _]]]; [|exfalso; eapply K; exact Ek]. f_equal.
        apply assoc_nodup in Ek; [|exact NK]. apply assoc_nodup in K; [|exact NK]. congruence.
    + pose proof (proj1 (assoc_none y kw) Ek) as NI. destruct at_ as [|wy at_].
      * split.
        -- intro H. apply (IH (tl []) y w H2) in H. destruct H as [H _]. contradiction.
        -- intros [_ [K|[_ (i & _ & B)]]]; [exfalso; eapply NI; exact K|]. destruct i; discriminate.
      * cbn [assoc]. destruct (string_dec y y); [|congruence]. split.
        -- intro H; injection H as ->. split; [now left|]. right. split; [exact NI|]. exists 0. auto.
        -- intros [_ [K|[_ (i & A & B)]]]; [exfalso; eapply NI; exact K|]. destruct i; [cbn in B; congruence|].
           cbn in A. apply nth_error_In in A. contradiction.
  - assert (E2 : assoc x (match assoc y kw with Some w0 => (y, w0) :: tt_wanted (tl at_) kw r
                 | None => match at_ with w0 :: _ => (y, w0) :: tt_wanted (tl at_) kw r | [] => tt_wanted (tl at_) kw r end end) = assoc x (tt_wanted (tl at_) kw r)).
    { destruct (assoc y kw); [|destruct at_]; cbn [assoc]; try reflexivity; destruct (string_dec x y); try congruence; reflexivity. }
    rewrite E2, (IH (tl at_) x w H2). exact (SH D).
Qed.

Lemma map_fst_combine2 {B} (vars : list string) (args : list B) : map fst (combine vars args) = firstn (length args) vars.
Proof. revert args; induction vars as [|x v IH]; intros [|a l]; cbn; auto. f_equal; auto. Qed.
Lemma in_combine_nth {B} (vars : list string) (args : list B) x v : In (x, v) (combine vars args) <-> exists i, nth_error vars i = Some x /\ nth_error args i = Some v.
Proof.
  revert args; induction vars as [|y vars IH]; intros [|a args]; cbn.
  - split; [intros []|intros (i & H & _); destruct i; discriminate].
  - split; [intros []|intros (i & H & _); destruct i; discriminate].
  - split; [intros []|intros (i & _ & H); destruct i; discriminate].
  - split.
    + intros [E|I]; [injection E as -> ->; exists 0; auto|]. apply IH in I. destruct I as (i & A & B0). exists (S i). auto.
    + intros (i & A & B0). destruct i; cbn in *; [left; congruence|right]. apply IH. exists i. auto.
Qed.
Lemma combine_short {B} (ps extra : list string) : forall oa : list B, length oa <= length ps -> combine (ps ++ extra) oa = combine ps oa.
Proof.
  induction ps as [|p ps IH]; intros [|a oa] L; cbn in *; try lia; try reflexivity; [destruct extra; reflexivity|]. f_equal. apply IH. lia.
Qed.
Lemma NoDup_disj (ps extra : list string) x : NoDup (ps ++ extra) -> In x ps -> In x extra -> False.
Proof.
  induction ps as [|p ps IH]; cbn; [tauto|]. intros N [<-|I] J; inversion N; subst; [apply H1, in_app_iff; now right|eauto].
Qed.
Lemma vars_own (f : @pyfun Val R) : params f <> [] -> exists extra, tt_method f = Ok (is_meth f) /\ tt_varnames f (is_meth f) = own_params f ++ extra /\
  incl extra (locals f).
Proof.
  intro NE. unfold tt_method, tt_varnames, own_params, is_meth. destruct (params f) as [|x ps]; [congruence|]. cbn [app].
  destruct (string_dec x "self") as [->|N].
  - cbn [skipn tl length]. exists (firstn 1 (locals f)). split; [reflexivity|]. split.
    + rewrite firstn_app. rewrite firstn_all2 by lia. f_equal. f_equal. lia.
    + intros y I. destruct (locals f); [destruct I|]. cbn in I. destruct I as [<-|[]]. now left.
  - exists []. split; [reflexivity|]. split; [|intros y []]. rewrite app_nil_r. cbn [length]. change (x :: ps ++ locals f) with ((x :: ps) ++ locals f).
    rewrite firstn_app. cbn [length]. rewrite firstn_all2 by (cbn; lia). rewrite Nat.sub_diag. cbn. rewrite app_nil_r. reflexivity.
Qed.

Lemma typetest_lemma at_ kw (f : @pyfun Val R) args kwargs :
  params f <> [] -> NoDup (params f ++ locals f) -> NoDup (map fst kw) ->
  well_called (own_params f) (own_args f args) kwargs ->
  ((forall x v w, given (own_params f) (own_args f args) kwargs x v -> declared at_ kw (own_params f) x w -> accepted w (type_of v)) ->
     tt_call T_dec type_of at_ kw f args kwargs = Ok (true, call f args kwargs)) /\
  ((exists x v w, given (own_params f) (own_args f args) kwargs x v /\ declared at_ kw (own_params f) x w /\ ~ accepted w (type_of v)) ->
     tt_call T_dec type_of at_ kw f args kwargs = Ok (false, Err TypeErr)).
Proof.
  intros NE ND NK (WL & WK & WN). destruct (vars_own f NE) as (extra & EM & EV & EX).
  unfold tt_call. rewrite EM. cbn [bind]. cbv zeta. rewrite EV.
  replace (if is_meth f then skipn 1 args else args) with (own_args f args) by (unfold own_args; destruct (is_meth f), args; reflexivity).
  set (ps := own_params f) in *. set (oa := own_args f args) in *.
  assert (NV : NoDup (ps ++ extra)).
  { subst ps. revert EV. unfold tt_varnames. intro EV. rewrite <- EV.
    assert (N2 : NoDup (if is_meth f then skipn 1 (params f ++ locals f) else params f ++ locals f)).
    { destruct (is_meth f); [|exact ND]. destruct (params f ++ locals f); [constructor|]. inversion ND; assumption. }
    revert N2. generalize (if is_meth f then skipn 1 (params f ++ locals f) else params f ++ locals f). intro l. revert l.
    generalize (length (params f)). clear. induction n as [|n IH]; intros [|x l] N; cbn; try constructor.
    - inversion N; subst. intro I. apply H1. rewrite <- (firstn_skipn n l). apply in_app_iff. now left.
    - inversion N; subst. apply IH; assumption. }
  unfold tt_given. destruct (Nat.ltb_spec (length (ps ++ extra)) (length oa)) as [H|_]; [rewrite app_length in H; lia|].
  set (gv := map (fun e => (fst e, type_of (snd e))) kwargs ++ map (fun e => (fst e, type_of (snd e))) (combine (ps ++ extra) oa)).
  assert (CE : combine (ps ++ extra) oa = combine ps oa).
  { apply combine_short. exact WL. }
  assert (GN : NoDup (map fst gv)).
  { subst gv. rewrite CE, map_app, !map_map. cbn [fst]. rewrite map_fst_combine2. exact WN. }
  assert (GI : forall x t, In (x, t) gv <-> exists v, given ps oa kwargs x v /\ t = type_of v).
  { intros x t. subst gv. rewrite CE, in_app_iff, !in_map_iff. unfold given. split.
    - intros [([y v] & E & I)|([y v] & E & I)]; injection E as -> <-; exists v; split; auto. right. apply in_combine_nth; exact I.
    - intros (v & [I|I] & ->); [left|right]; exists (x, v); split; auto. apply in_combine_nth; exact I. }
  assert (CHK : tt_check T_dec (tt_wanted at_ kw (ps ++ extra)) gv = true <->
     (forall x v w, given ps oa kwargs x v -> declared at_ kw ps x w -> accepted w (type_of v))).
  { unfold tt_check. rewrite forallb_forall.
    assert (GP : forall x v, given ps oa kwargs x v -> In x ps).
    { intros x v [I|(i & A & _)]; [eapply WK; exact I|eapply nth_error_In; exact A]. }
    assert (DP : forall x w, In x ps -> (declared at_ kw (ps ++ extra) x w <-> declared at_ kw ps x w)).
    { intros x w I. unfold declared. split; (intros [K|[K (i & A & B)]]; [left; exact K|right; split; [exact K|exists i; split; [|exact B]]]).
      - destruct (Nat.lt_ge_cases i (length ps)) as [L|L]; [rewrite nth_error_app1 in A by exact L; exact A|].
        rewrite nth_error_app2 in A by exact L. apply nth_error_In in A. exfalso. eapply NoDup_disj; eauto.
      - rewrite nth_error_app1; [exact A|]. apply nth_error_Some. congruence. }
    split.
    - intros H x v w G D. pose proof (GP x v G) as IP.
      assert (IG : In (x, type_of v) gv) by (apply GI; exists v; auto).
      specialize (H x). rewrite (assoc_nodup x gv _ GN IG) in H.
      rewrite (proj2 (wanted_spec kw NK (ps ++ extra) at_ x w NV)) in H by (split; [apply in_app_iff; now left|apply DP; assumption]).
      apply accepts_spec. apply H. apply in_map_iff. exists (x, type_of v). auto.
    - intros H x I. apply in_map_iff in I. destruct I as ([y t] & E & I). cbn in E. subst y.
      pose proof I as I2. apply GI in I. destruct I as (v & G & ->).
      rewrite (assoc_nodup x gv _ GN I2). destruct (assoc x (tt_wanted at_ kw (ps ++ extra))) as [w|] eqn:W; [|reflexivity].
      apply (wanted_spec kw NK) in W; [|exact NV]. destruct W as [_ D]. apply accepts_spec. apply (H x v w G). apply DP; [eapply GP; exact G|exact D]. }
  split.
  - intro H. apply CHK in H. rewrite H. reflexivity.
  - intros (x & v & w & G & D & N). destruct (tt_check T_dec (tt_wanted at_ kw (ps ++ extra)) gv) eqn:E; [|reflexivity].
    exfalso. apply N. exact (proj1 CHK eq_refl x v w G D).
Qed.
(** too many positional arguments for a plain function: IndexError, whatever the function does with them *)
Lemma typetest_too_many at_ kw (f : @pyfun Val R) args kwargs : params f <> [] -> is_meth f = false ->
  length (params f) < length args -> tt_call T_dec type_of at_ kw f args kwargs = Ok (false, Err IndexErr).
Proof.
  intros NE M L. destruct (vars_own f NE) as (extra & EM & EV & EX). unfold tt_call. rewrite EM, M in *. cbn [bind]. cbv zeta.
  unfold tt_varnames. unfold tt_given. rewrite firstn_length. destruct (Nat.ltb_spec (Nat.min (length (params f)) (length (params f ++ locals f))) (length args)); [reflexivity|lia].
Qed.
Lemma returntest_lemma (rtype : R -> T) t (f : @pyfun Val R) args kwargs :
  rt_call T_dec rtype t f args kwargs = match call f args kwargs with Ok r => if T_dec (rtype r) t then Ok r else Err TypeErr | Err e => Err e end.
Proof. unfold rt_call, guard. destruct (call f args kwargs) as [r|e]; cbn; [|reflexivity]. destruct (T_dec (rtype r) t); reflexivity. Qed.
End Types.
