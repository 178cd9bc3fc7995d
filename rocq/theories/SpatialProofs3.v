(** * SpatialProofs3: values of a set (C156). *)
From Coq Require Import Lia Permutation.
From Verif Require Import Num Res ListLib Arr FieldModel ScalarFieldModel VectorFieldModel FieldSpec ScalarProofs ProfileModel AsciiProofs2
  TemporalModel TemporalProofs2 TurbProofs SpatialModel SpatialSpec.

Lemma sorted_between axe x : increasing axe -> strictly_inside axe x = true <-> between axe x.
Proof.
  intro I. unfold strictly_inside, between. rewrite andb_true_iff, !qltb_lt. split.
  - intros [A B]. destruct axe as [|a l]; [cbn in A, B; exfalso; apply (qlt_irrefl x); eapply qlt_trans; eauto|].
    exists a, (last (a :: l) (qz 0)). split; [now left|]. split; [|split; [exact A|exact B]].
    destruct (exists_last (l := a :: l)) as (l' & b & E); [discriminate|]. rewrite E, last_last. apply in_or_app. right. now left.
  - intros (p & q & P & Q & H1 & H2). apply In_nth_error in P, Q. destruct P as [i P], Q as [j Q].
    pose proof (nth_error_Some_lt _ _ _ P). pose proof (nth_error_Some_lt _ _ _ Q).
    apply nth_error_nths in P, Q. split.
    + apply (qle_lt_trans _ p); [|exact H1]. rewrite <- P. destruct i; [apply qle_refl|]. apply Qclt_le_weak, I; lia.
    + apply (qlt_le_trans _ q); [exact H2|]. rewrite <- Q. rewrite last_nths by (intros ->; cbn in *; lia).
      destruct (Nat.eq_dec j (length axe - 1)) as [-> |N]; [apply qle_refl|]. apply Qclt_le_weak, I; lia.
Qed.

Lemma sorted_covers g x y : grid_sorted g -> (strictly_inside (ax g) x && strictly_inside (ay g) y)%bool = true <-> covers g x y.
Proof. intros [A B]. rewrite andb_true_iff, !sorted_between by assumption. reflexivity. Qed.
Lemma partition_perm {A} (p : A -> bool) l : Permutation l (filter p l ++ filter (fun a => negb (p a)) l).
Proof.
  induction l as [|a l IH]; [apply perm_nil|]. cbn. destruct (p a); cbn; [now apply perm_skip|]. now apply Permutation_cons_app.
Qed.
Lemma inside_facts axe x : strictly_inside axe x = true -> (nths axe 0 < x)%num /\ (x < last axe (qz 0))%num /\ 2 <= length axe.
Proof.
  unfold strictly_inside. rewrite andb_true_iff, !qltb_lt. intros [A B]. split; [exact A|]. split; [exact B|].
  destruct axe as [|a [|b l]]; [| |cbn; lia]; exfalso; cbn in A, B; apply (qlt_irrefl x); eapply qlt_trans; eauto.
Qed.
Lemma get_value_total ci f x y : strictly_inside (ax (sg f)) x = true -> strictly_inside (ay (sg f)) y = true -> exists v, get_value ci f x y = Ok v.
Proof.
  intros X Y. apply inside_facts in X, Y. destruct X as (X1 & X2 & X3), Y as (Y1 & Y2 & Y3). unfold get_value.
  destruct (ax (sg f)) as [|a l] eqn:EX; [cbn in X3; lia|]. destruct (ay (sg f)) as [|b k] eqn:EY; [cbn in Y3; lia|]. cbn [orb guard].
  destruct (qltb_spec (last (a :: l) (qz 0)) x); [exfalso; qlra|]. destruct (qltb_spec (last (b :: k) (qz 0)) y); [exfalso; qlra|].
  destruct (qltb_spec x (nths (a :: l) 0)); [exfalso; qlra|]. destruct (qltb_spec y (nths (b :: k) 0)); [exfalso; qlra|]. cbn [orb guard].
  destruct (axis_bounds (a :: l) x) as [i0 i1], (axis_bounds (b :: k) y) as [j0 j1].
  destruct (at_ (msk f) i0 j0 || at_ (msk f) i1 j1)%bool; [eauto|]. destruct (Nat.eqb i0 i1 && Nat.eqb j0 j1)%bool; [eauto|].
  destruct (Nat.eqb i0 i1); [eauto|]. destruct (Nat.eqb j0 j1); eauto.
Qed.

(** ** means *)
Lemma oadd_fold_none vs : fold_left oadd vs None = None.
Proof. induction vs as [|[v|] vs IH]; cbn; auto. Qed.
Lemma oadd_fold_hit vs v : In None vs -> fold_left oadd vs v = None.
Proof.
  revert v; induction vs as [|a vs IH]; intros v []; cbn [fold_left].
  - subst a. destruct v; cbn; apply oadd_fold_none.
  - now apply IH.
Qed.
Lemma oadd_fold_some ws a : fold_left oadd (map Some ws) (Some a) = Some (a + Num.qsum ws)%num.
Proof.
  revert a; induction ws as [|w ws IH]; intro a; cbn [map fold_left]; [f_equal; cbn; qring|]. cbn [oadd lift2]. rewrite IH, qsum_cons. f_equal. qring.
Qed.
Lemma all_some (vs : list onum) : In None vs \/ exists ws, vs = map Some ws.
Proof.
  induction vs as [|[v|] vs [IH|(ws & ->)]]; [right; now exists []|left; now right|right; now exists (v :: ws)|left; now left|left; now left].
Qed.
Lemma qn_S_neq n : qn (S n) <> 0%num.
Proof. apply qgt_neq. unfold qn. change (qz 0 < qz (Z.of_nat (S n)))%num. apply qz_lt. lia. Qed.
Lemma fold_mean vs v : mean_is (v :: vs) (over (length (v :: vs)) (fold_left oadd vs v)).
Proof.
  destruct (all_some (v :: vs)) as [N|(ws & E)].
  - right. split; [exact N|]. unfold over. destruct N as [-> |N]; [now rewrite oadd_fold_none|now rewrite oadd_fold_hit].
  - left. exists ws. split; [exact E|]. destruct ws as [|w ws]; [discriminate|]. injection E as -> ->. rewrite oadd_fold_some. unfold over. cbn [option_map].
    eexists. split; [reflexivity|]. cbn [length]. rewrite map_length, qsum_cons. apply qdiv_mul, qn_S_neq.
Qed.
Lemma one_mean v : mean_is [v] v.
Proof.
  destruct v as [v|]; [left|right; split; [now left|reflexivity]]. exists [v]. split; [reflexivity|]. exists v. split; [reflexivity|]. rewrite qsum_cons. cbn [length].
  change (Num.qsum []) with (qz 0). change (qn 1) with (qz 1). qring.
Qed.
Lemma qsum_perm' l l' : Permutation l l' -> Num.qsum l = Num.qsum l'.
Proof. induction 1; rewrite ?qsum_cons; [reflexivity|now f_equal|qring|congruence]. Qed.
Lemma map_some_inj (a b : list num) : map Some a = map Some b -> a = b.
Proof. revert b; induction a as [|x a IH]; intros [|y b] H; try discriminate; [reflexivity|]. cbn in H. injection H as -> H. f_equal. auto. Qed.
Lemma mean_unique vs vs' r r' : Permutation vs vs' -> vs <> [] -> mean_is vs r -> mean_is vs' r' -> r = r'.
Proof.
  intros P NE M M'. destruct M as [(ws & E & m & -> & Q)|[N ->]], M' as [(ws' & E' & m' & -> & Q')|[N' ->]].
  - subst vs vs'. apply Permutation_map_inv in P. destruct P as (l & El & Pl). apply map_some_inj in El. subst l.
    assert (SS : Num.qsum ws = Num.qsum ws') by (first [exact (qsum_perm' _ _ Pl)|symmetry; exact (qsum_perm' _ _ Pl)]).
    assert (L : length ws = length ws') by (first [exact (Permutation_length Pl)|symmetry; exact (Permutation_length Pl)]).
    f_equal. rewrite L, SS, <- Q' in Q. destruct ws' as [|w ws']; [destruct ws; [contradiction|discriminate]|].
    apply (TurbProofs.qmul_inj_r _ _ (qn (S (length ws')))); [apply qn_S_neq|exact Q].
  - exfalso. subst vs. eapply Permutation_in in N'; [|apply Permutation_sym; exact P]. apply in_map_iff in N'. destruct N' as (? & ? & _). discriminate.
  - exfalso. subst vs'. eapply Permutation_in in N; [|exact P]. apply in_map_iff in N. destruct N as (? & ? & _). discriminate.
  - reflexivity.
Qed.

(** ** values of a set, for any kind of field *)
Section Value.
  Context {F V : Type} (o : spops F V) (mean : list V -> V -> Prop).
  Hypothesis TOT : forall f x y, strictly_inside (ax (p_grid o f)) x = true -> strictly_inside (ay (p_grid o f)) y = true -> exists v, p_value o f x y = Ok v.
  Hypothesis ONE : forall v, mean [v] v.
  Hypothesis FOLD : forall v vs, mean (v :: vs) (p_over o (length (v :: vs)) (fold_left (p_plus o) vs v)).
  Hypothesis UNIQ : forall vs vs' r r', Permutation vs vs' -> vs <> [] -> mean vs r -> mean vs' r' -> r = r'.

  Lemma values_total x y l : (forall f, In f l -> sp_in o x y f = true) -> exists vs, mapM (fun f => p_value o f x y) l = Ok vs.
  Proof using All.
    induction l as [|f l IH]; intro H; [eexists; reflexivity|]. cbn [mapM]. pose proof (H f (or_introl eq_refl)) as I. apply andb_true_iff in I.
    destruct (TOT f x y) as [v E]; [apply I|apply I|]. rewrite E. cbn [bind]. destruct IH as [vs EV]; [intros g Hg; apply H; now right|]. rewrite EV. cbn. eauto.
  Qed.
  Lemma value_raw s x y f l : filter (sp_in o x y) (s_fields s) = f :: l ->
    exists vs r, Forall2 (fun h v => p_value o h x y = Ok v) (f :: l) vs /\ mean vs r /\ forall e, sp_value o s x y e = Ok (Some r).
  Proof using All.
    intro E. assert (H : forall h, In h (f :: l) -> sp_in o x y h = true) by (intros h Hh; rewrite <- E in Hh; apply filter_In in Hh; apply Hh).
    destruct (values_total x y (f :: l) H) as [vs EV]. pose proof (proj1 (mapM_forall2 _ _ _) EV) as FV.
    destruct vs as [|v vs]; [inversion FV|]. inversion FV as [|? ? ? ? Ev Evs]; subst.
    exists (v :: vs). unfold sp_value. rewrite E. destruct l as [|g l].
    - inversion Evs; subst. exists v. split; [exact FV|]. split; [apply ONE|]. intro e. now rewrite Ev.
    - exists (p_over o (length (v :: vs)) (fold_left (p_plus o) vs v)). split; [exact FV|]. split; [apply FOLD|]. intro e. rewrite Ev. cbn [bind].
      rewrite (proj2 (mapM_forall2 (fun h => p_value o h x y) (g :: l) vs) Evs). cbn [bind]. do 3 f_equal. cbn [length]. f_equal. now rewrite <- (PodProofs.Forall2_len _ _ _ Evs).
  Qed.
  Lemma value_gen s x y : (forall f, In f (s_fields s) -> grid_sorted (p_grid o f)) ->
    exists inter out, sorted_out (p_grid o) (s_fields s) x y inter out /\
      (inter = [] -> forall e, sp_value o s x y e = if e then Err ValueErr else Ok None) /\
      (inter <> [] -> exists vs r, Forall2 (fun f v => p_value o f x y = Ok v) inter vs /\ mean vs r /\ forall e, sp_value o s x y e = Ok (Some r)).
  Proof using All.
    intro G. exists (filter (sp_in o x y) (s_fields s)), (filter (fun f => negb (sp_in o x y f)) (s_fields s)). split; [split; [apply partition_perm|split]|].
    - apply Forall_forall. intros f Hf. apply filter_In in Hf. destruct Hf as [Hf I]. now apply sorted_covers; [apply G|].
    - apply Forall_forall. intros f Hf. apply filter_In in Hf. destruct Hf as [Hf I]. apply negb_true_iff in I. intro C. apply sorted_covers in C; [|now apply G].
      unfold sp_in in I. congruence.
    - split; [intros E e; unfold sp_value; now rewrite E|]. intro NE. destruct (filter (sp_in o x y) (s_fields s)) as [|f l] eqn:E; [congruence|]. now apply value_raw.
  Qed.
  Lemma filter_perm {A} (p : A -> bool) l l' : Permutation l l' -> Permutation (filter p l) (filter p l').
  Proof using All.
    induction 1; cbn; [apply perm_nil| | |eapply perm_trans; eauto].
    - destruct (p x); [now apply perm_skip|assumption].
    - destruct (p x), (p y); first [apply perm_swap|apply Permutation_refl].
  Qed.
  Lemma forall2_values x y l : forall vs vs', Forall2 (fun f v => p_value o f x y = Ok v) l vs -> Forall2 (fun f v => p_value o f x y = Ok v) l vs' -> vs = vs'.
  Proof using All. induction l as [|f l IH]; intros vs vs' H H'; inversion H; inversion H'; subst; [reflexivity|]. f_equal; [congruence|auto]. Qed.
  Lemma value_order s s' x y e : Permutation (s_fields s) (s_fields s') -> sp_value o s x y e = sp_value o s' x y e.
  Proof using All.
    intro P. pose proof (filter_perm (sp_in o x y) _ _ P) as Q.
    destruct (filter (sp_in o x y) (s_fields s)) as [|f l] eqn:E, (filter (sp_in o x y) (s_fields s')) as [|f' l'] eqn:E'.
    - unfold sp_value. now rewrite E, E'.
    - apply Permutation_length in Q. discriminate.
    - apply Permutation_length in Q. discriminate.
    - destruct (value_raw _ _ _ _ _ E) as (vs & r & F1 & M1 & V1), (value_raw _ _ _ _ _ E') as (vs' & r' & F2 & M2 & V2).
      rewrite V1, V2. do 2 f_equal. destruct (Permutation_Forall2 Q F1) as (ws & PW & FW). rewrite (forall2_values _ _ _ _ _ FW F2) in PW.
      apply (UNIQ vs vs'); auto. intros ->. inversion F1.
  Qed.
End Value.

Lemma ssf_value_lemma ci s x y : (forall f, In f (s_fields s) -> grid_sorted (sg f)) ->
  exists inter out, sorted_out sg (s_fields s) x y inter out /\
    (inter = [] -> forall e, sp_value (sf_sops ci) s x y e = if e then Err ValueErr else Ok None) /\
    (inter <> [] -> exists vs r, Forall2 (fun f v => get_value ci f x y = Ok v) inter vs /\ mean_is vs r /\
       forall e, sp_value (sf_sops ci) s x y e = Ok (Some r)).
Proof.
  apply (value_gen (sf_sops ci) mean_is).
  - intros f a b. apply get_value_total.
  - apply one_mean.
  - intros v vs. apply fold_mean.
  - apply mean_unique.
Qed.
Lemma ssf_value_order ci s s' x y e : Permutation (s_fields s) (s_fields s') -> sp_value (sf_sops ci) s x y e = sp_value (sf_sops ci) s' x y e.
Proof.
  apply (value_order (sf_sops ci) mean_is).
  - intros f a b. apply get_value_total.
  - apply one_mean.
  - intros v vs. apply fold_mean.
  - apply mean_unique.
Qed.

(** ** vector fields *)
Definition vmean (vs : list (onum * onum)) (r : onum * onum) : Prop := mean_is (map fst vs) (fst r) /\ mean_is (map snd vs) (snd r).
Lemma comp_total f c : 2 <= length (ax (vg f)) -> 2 <= length (ay (vg f)) -> exists s, comp_sf f c = Ok s.
Proof.
  intros X Y. unfold comp_sf, sf_import. replace (Nat.ltb (length (ay (vg f))) 2) with false by (symmetry; apply Nat.ltb_ge; lia).
  replace (Nat.ltb (length (ax (vg f))) 2) with false by (symmetry; apply Nat.ltb_ge; lia). rewrite andb_false_r. cbn [guard]. eauto.
Qed.
Lemma comp_grid f c s : comp_sf f c = Ok s -> (nths (ax (vg f)) 0 <= last (ax (vg f)) (qz 0))%num -> (nths (ay (vg f)) 0 <= last (ay (vg f)) (qz 0))%num ->
  ax (sg s) = ax (vg f) /\ ay (sg s) = ay (vg f).
Proof.
  unfold comp_sf, sf_import. intros H X Y. apply guard_ok in H. destruct H as [_ H]. apply guard_ok in H. destruct H as [_ H].
  destruct (qltb_spec (last (ax (vg f)) (qz 0)) (nths (ax (vg f)) 0)); [exfalso; qlra|]. destruct (qltb_spec (last (ay (vg f)) (qz 0)) (nths (ay (vg f)) 0)); [exfalso; qlra|].
  injection H as <-. auto.
Qed.
Lemma vf_value_total ci f x y : strictly_inside (ax (vg f)) x = true -> strictly_inside (ay (vg f)) y = true -> exists v, vf_value ci f x y = Ok v.
Proof.
  intros X Y. pose proof (inside_facts _ _ X) as (X1 & X2 & X3). pose proof (inside_facts _ _ Y) as (Y1 & Y2 & Y3). unfold vf_value.
  destruct (comp_total f (cx f) X3 Y3) as [sx Ex]. destruct (comp_total f (cy f) X3 Y3) as [sy Ey].
  destruct (comp_grid _ _ _ Ex) as [A1 A2]; [qlra|qlra|]. destruct (comp_grid _ _ _ Ey) as [B1 B2]; [qlra|qlra|].
  rewrite Ex. cbn [bind]. destruct (get_value_total ci sx x y) as [a Ea]; [now rewrite A1|now rewrite A2|]. rewrite Ea. cbn [bind]. rewrite Ey. cbn [bind].
  destruct (get_value_total ci sy x y) as [b Eb]; [now rewrite B1|now rewrite B2|]. rewrite Eb. cbn. eauto.
Qed.
Lemma vfold vs v : let p := fun a b : onum * onum => (oadd (fst a) (fst b), oadd (snd a) (snd b)) in
  fst (fold_left p vs v) = fold_left oadd (map fst vs) (fst v) /\ snd (fold_left p vs v) = fold_left oadd (map snd vs) (snd v).
Proof. cbv zeta. revert v; induction vs as [|a vs IH]; intro v; [auto|]. cbn [fold_left map]. apply IH. Qed.
Lemma vmean_facts ci :
  (forall v, vmean [v] v) /\ (forall v vs, vmean (v :: vs) (p_over (vf_sops ci) (length (v :: vs)) (fold_left (p_plus (vf_sops ci)) vs v))) /\
  (forall vs vs' r r', Permutation vs vs' -> vs <> [] -> vmean vs r -> vmean vs' r' -> r = r').
Proof.
  split; [|split].
  - intros [a b]. split; apply one_mean.
  - intros v vs. cbn [vf_sops p_over p_plus]. destruct (vfold vs v) as [A B]. split; cbn [fst snd map].
    + rewrite A. rewrite <- (map_length fst (v :: vs)). apply (fold_mean (map fst vs) (fst v)).
    + rewrite B. rewrite <- (map_length snd (v :: vs)). apply (fold_mean (map snd vs) (snd v)).
  - intros vs vs' [a b] [a' b'] P NE [A B] [A' B']. cbn [fst snd] in *. f_equal.
    + apply (mean_unique (map fst vs) (map fst vs')); auto; [now apply Permutation_map|]. destruct vs; [congruence|discriminate].
    + apply (mean_unique (map snd vs) (map snd vs')); auto; [now apply Permutation_map|]. destruct vs; [congruence|discriminate].
Qed.
Lemma svf_value_lemma ci s x y : (forall f, In f (s_fields s) -> grid_sorted (vg f)) ->
  exists inter out, sorted_out vg (s_fields s) x y inter out /\
    (inter = [] -> forall e, sp_value (vf_sops ci) s x y e = if e then Err ValueErr else Ok None) /\
    (inter <> [] -> exists vs a b, Forall2 (fun f v => vf_value ci f x y = Ok v) inter vs /\ mean_is (map fst vs) a /\ mean_is (map snd vs) b /\
       forall e, sp_value (vf_sops ci) s x y e = Ok (Some (a, b))).
Proof.
  intro G. destruct (vmean_facts ci) as (H1 & H2 & H3).
  destruct (value_gen (vf_sops ci) vmean (fun f a b => vf_value_total ci f a b) H1 H2 H3 s x y G) as (inter & out & S & A & B). exists inter, out.
  split; [exact S|]. split; [exact A|]. intro NE. destruct (B NE) as (vs & [a b] & E1 & [E2 E3] & E4). exists vs, a, b. auto.
Qed.
Lemma svf_value_order ci s s' x y e : Permutation (s_fields s) (s_fields s') -> sp_value (vf_sops ci) s x y e = sp_value (vf_sops ci) s' x y e.
Proof. destruct (vmean_facts ci) as (H1 & H2 & H3). apply (value_order (vf_sops ci) vmean (fun f a b => vf_value_total ci f a b) H1 H2 H3). Qed.
