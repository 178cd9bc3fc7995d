(** * BlProofs: the profiles of a scalar field *)
From Verif Require Import Num Res ListLib SortLib Arr FieldModel ScalarFieldModel FieldSpec PointsSpec FieldProofs ScalarProofs ProfileModel ProfileSpec ProfileProofs ProfileProofs2 ProfileProofs3 BlModel BlSpec TemporalProofs2 TurbProofs5.

Lemma new_nth x y mask u w : length x = length y -> match mask with None => True | Some m => length m = length x end -> nondecreasing x ->
  exists p, prof_new x y mask u w = Ok p /\ prof_ok p /\ pux p = u /\ puy p = w /\ px p = x /\
    forall j, j < length x ->
      let m := match mask with None => false | Some m => nth j m false end in
      nth j (yv p) None = (if m then None else nth j y None) /\ nth j (pm p) false = (m || isnan (nth j y None))%bool.
Proof.
  intros L M N. destruct (new_lemma x y mask u w L M) as (p & E & OK & U & W & _ & F). destruct (F N) as [X SS]. exists p. repeat (split; [assumption|]).
  intros j Hj. pose proof (samples_nth p j OK) as Q. rewrite SS in Q.
  set (mm := match mask with None => repeat false (length x) | Some m => m end) in *.
  assert (Lm : length mm = length x) by (unfold mm; destruct mask; [exact M|apply repeat_length]).
  assert (EM : nth j mm false = match mask with None => false | Some m => nth j m false end).
  { unfold mm. destruct mask; [reflexivity|]. apply nth_repeat. }
  rewrite (nth_map' _ _ j _ (qz 0, None, false)) in Q by (rewrite zip3_length by lia; exact Hj).
  unfold zip3 in Q. rewrite (combine_nth (combine x y) mm) in Q by (rewrite combine_length; lia). rewrite (combine_nth x y) in Q by lia.
  unfold sx, sy, smask in Q. cbn [fst snd] in Q. injection Q as _ Q1 Q2. cbv zeta. rewrite <- EM. now split.
Qed.


Lemma run_sorted f d : grid_sorted (sg f) -> nondecreasing (run_axis f d).
Proof. intros [H1 H2]. destruct d; apply increasing_nondecreasing; assumption. Qed.
Lemma line_lengths f d k : sf_wf f -> length (line_values f d k) = length (run_axis f d) /\ length (line_mask f d k) = length (run_axis f d).
Proof. intros [[A B] [C D]]. destruct d; cbn [line_values line_mask run_axis]; rewrite !map_length, !seq_length; auto. Qed.
Lemma map_seq_nth {A} (g : nat -> A) n j d : j < n -> nth j (map g (seq 0 n)) d = g j.
Proof. intro H. rewrite (nth_indep _ d (g 0)) by (now rewrite map_length, seq_length). rewrite map_nth, seq_nth by exact H. reflexivity. Qed.
Lemma line_nth f d k j : sf_wf f -> j < length (run_axis f d) ->
  nth j (line_values f d k) None = cell_value f d k j /\ nth j (line_mask f d k) false = cell_mask f d k j.
Proof. intros [[A B] [C D]] H. destruct d; cbn [line_values line_mask run_axis cell_value cell_mask] in *; split.
  - apply (map_seq_nth (fun j => at_ (values f) k j)). congruence.
  - apply (map_seq_nth (fun j => at_ (msk f) k j)). congruence.
  - apply (map_seq_nth (fun i => at_ (values f) i k)). congruence.
  - apply (map_seq_nth (fun i => at_ (msk f) i k)). congruence.
Qed.
Lemma cell_masked f d k j : cell_mask f d k j = true -> cell_value f d k j = None.
Proof. destruct d; cbn [cell_mask cell_value values at_]; now intros ->. Qed.

Lemma line_profile_lemma f d k : field_ok f -> exists p, line_profile f d k = Ok p /\ is_line f d k p.
Proof.
  intros (W & G & _ & _). destruct (line_lengths f d k W) as [L1 L2]. unfold line_profile.
  destruct (new_nth (run_axis f d) (line_values f d k) (Some (line_mask f d k)) (run_unit f d) (uv f)) as (p & E & OK & U & V & X & Q); [auto|auto|now apply run_sorted|].
  exists p. split; [exact E|]. repeat (split; [assumption|]). intros j Hj. destruct (Q j Hj) as [Q1 Q2]. destruct (line_nth f d k j W Hj) as [V1 V2].
  rewrite V1, V2 in *. split; [|exact Q2]. rewrite Q1. destruct (cell_mask f d k j) eqn:M; [|reflexivity]. now rewrite (cell_masked f d k j M).
Qed.
Lemma lmax_last l : increasing l -> l <> [] -> lmax l = last l (qz 0).
Proof.
  intros I N. rewrite last_nths by exact N. assert (L : length l - 1 < length l) by (destruct l; [congruence|simpl; lia]).
  apply Qcle_antisym.
  - destruct (qleb_spec (lmax l) (nths l (length l - 1))) as [|C]; [assumption|exfalso].
    assert (Q : forall x, In x l -> (x <= nths l (length l - 1))%num).
    { intros x Hx. apply In_nth with (d := qz 0) in Hx. destruct Hx as (i & Hi & <-). apply increasing_nondecreasing; auto; lia. }
    clear - C Q N L. assert (D : (nths l 0 <= nths l (length l - 1))%num) by (apply Q, nths_in; lia). revert C D Q. unfold lmax. generalize (nths l (length l - 1)) as b. generalize (nths l 0) as d. clear N L.
    induction l as [|y l IH]; intros d b C D Q; simpl in C; [qlra|]. destruct (qmax_spec y (fold_right qmax d l)) as [[E F]|[E F]]; rewrite F in C.
    + eapply IH; eauto. intros x Hx. apply Q. now right.
    + pose proof (Q y (or_introl eq_refl)). qlra.
  - destruct (qleb_spec (nths l (length l - 1)) (lmax l)) as [|C]; [assumption|exfalso].
    pose proof (lmax_spec l _ C _ (nths_in l _ L)). qlra.
Qed.
Lemma lmin_first l : increasing l -> l <> [] -> lmin l = nths l 0.
Proof.
  intros I N. assert (L : 0 < length l) by (destruct l; [congruence|simpl; lia]).
  apply Qcle_antisym.
  - destruct (qleb_spec (lmin l) (nths l 0)) as [|C]; [assumption|exfalso]. pose proof (lmin_spec l _ N C _ (nths_in l _ L)). qlra.
  - destruct (qleb_spec (nths l 0) (lmin l)) as [|C]; [assumption|exfalso].
    assert (Q : forall x, In x l -> (nths l 0 <= x)%num).
    { intros x Hx. apply In_nth with (d := qz 0) in Hx. destruct Hx as (i & Hi & <-). apply increasing_nondecreasing; auto; lia. }
    clear - C Q. revert C Q. unfold lmin. generalize (nths l 0) as d. induction l as [|y l IH]; intros d C Q; simpl in C; [qlra|].
    destruct (qmin_spec y (fold_right qmin d l)) as [[E F]|[E F]]; rewrite F in C.
    + pose proof (Q y (or_introl eq_refl)). qlra.
    + eapply IH; eauto. intros x Hx. apply Q. now right.
Qed.
Lemma pos_facts f d : field_ok f -> increasing (pos_axis f d) /\ pos_axis f d <> [].
Proof. intros (_ & [G1 G2] & N1 & N2). destruct d; auto. Qed.
Lemma off_axis_spec l v : increasing l -> l <> [] -> off_axis l v = false <-> (nths l 0 <= v <= last l (qz 0))%num.
Proof.
  intros I N. unfold off_axis. destruct l as [|a l]; [congruence|]. rewrite (lmax_last _ I N), (lmin_first _ I N). rewrite orb_false_iff, !qltb_ge. tauto.
Qed.
Lemma off_index_spec l k : off_index l k = false <-> (0 <= k < Z.of_nat (length l))%Z.
Proof. unfold off_index. rewrite orb_false_iff, !Z.ltb_ge. lia. Qed.

(** ** by index *)
Lemma index_profile f d k : field_ok f -> k < length (pos_axis f d) -> exists p, profile_ind f d (Z.of_nat k) = Ok p /\ is_line f d k p.
Proof.
  intros FO K. unfold profile_ind. assert (off_index (pos_axis f d) (Z.of_nat k) = false) as -> by (apply off_index_spec; lia).
  cbn [guard]. rewrite Nat2Z.id. now apply line_profile_lemma.
Qed.
Lemma bad_index ci f d i : ~ (0 <= i < Z.of_nat (length (pos_axis f d)))%Z -> profile_ind f d i = Err ValueErr /\ profile_linear_ind ci f d i = Err ValueErr.
Proof.
  intro N. unfold profile_ind, profile_linear_ind. assert (off_index (pos_axis f d) i = true) as Q; [|rewrite Q; now split].
  destruct (off_index (pos_axis f d) i) eqn:E; [reflexivity|]. apply off_index_spec in E. contradiction.
Qed.
Lemma bad_position ci f d v : field_ok f -> ~ (nths (pos_axis f d) 0 <= v <= last (pos_axis f d) (qz 0))%num ->
  profile_linear ci f d v = Err ValueErr /\ profile_nearest f d v = Err ValueErr.
Proof.
  intros FO N. destruct (pos_facts f d FO) as [I NE]. unfold profile_linear, profile_nearest. assert (off_axis (pos_axis f d) v = true) as Q; [|rewrite Q; now split].
  destruct (off_axis (pos_axis f d) v) eqn:E; [reflexivity|]. apply off_axis_spec in E; [contradiction|assumption..].
Qed.

(** ** nearest *)
Lemma qabs_le_iff a b : (- b <= a)%num -> (a <= b)%num -> (qabs a <= b)%num.
Proof. intros. destruct (qabs_spec a) as [[? ->]|[? ->]]; qlra. Qed.
Lemma nearest_index_spec l v : increasing l -> 2 <= length l -> (nths l 0 <= v <= last l (qz 0))%num ->
  exists k, nearest_index l v = Ok k /\ nearest_to l v k.
Proof.
  intros I L [V0 V1]. assert (NE : l <> []) by (intros ->; simpl in L; lia). rewrite last_nths in V1 by exact NE. unfold nearest_index.
  assert (Nat.ltb (length l) 2 = false) as -> by (apply Nat.ltb_ge; lia). cbn [guard].
  assert (B : exists i r, filter (brackets l v) (seq 1 (length l - 1)) = i :: r /\ 1 <= i < length l /\ (nths l (i - 1)%nat <= v <= nths l i)%num).
  { assert (EX : exists i, 1 <= i < length l /\ (nths l (i - 1)%nat <= v <= nths l i)%num).
    { assert (G : forall n, n < length l -> (v <= nths l n)%num -> n = 0 \/ exists i, 1 <= i <= n /\ (nths l (i - 1)%nat <= v <= nths l i)%num).
      { induction n as [|n IH]; intros Hn Hv; [now left|]. right. destruct (qleb_spec v (nths l n)) as [C|C].
        - destruct (IH ltac:(lia) C) as [->|(i & Hi & Q)]; [exists 1; split; [lia|split; assumption]|exists i; split; [lia|exact Q]].
        - exists (S n). split; [lia|]. replace (S n - 1) with n by lia. split; [qlra|exact Hv]. }
      destruct (G (length l - 1) ltac:(lia) V1) as [E|(i & Hi & Q)]; [lia|]. exists i. split; [lia|exact Q]. }
    destruct EX as (i & Hi & Q1 & Q2).
    destruct (filter (brackets l v) (seq 1 (length l - 1))) as [|j r] eqn:F.
    - exfalso. assert (In i (filter (brackets l v) (seq 1 (length l - 1)))) as Q; [|rewrite F in Q; contradiction].
      apply filter_In. split; [apply in_seq; lia|]. unfold brackets. apply orb_true_iff. left. apply andb_true_iff. split; apply qleb_le; assumption.
    - exists j, r. split; [reflexivity|]. assert (In j (filter (brackets l v) (seq 1 (length l - 1)))) as Q by (rewrite F; now left).
      apply filter_In in Q. destruct Q as [Q3 Q4]. apply in_seq in Q3. split; [lia|].
      pose proof (I (j - 1) j ltac:(lia) ltac:(lia)) as LT. unfold brackets in Q4. apply orb_true_iff in Q4.
      destruct Q4 as [Q4|Q4]; apply andb_true_iff in Q4; destruct Q4 as [A B]; apply qleb_le in A; apply qleb_le in B; split; qlra. }
  destruct B as (i & r & -> & Hi & A1 & A2). eexists. split; [reflexivity|].
  assert (E1 : qabs (v - nths l (i - 1)%nat)%num = (v - nths l (i - 1)%nat)%num) by (destruct (qabs_spec (v - nths l (i - 1)%nat)%num) as [[? ->]|[? ->]]; qlra).
  assert (E2 : qabs (v - nths l i)%num = (nths l i - v)%num) by (destruct (qabs_spec (v - nths l i)%num) as [[? ->]|[? ->]]; qlra).
  assert (LB : forall j, j < length l -> (v - nths l (i - 1)%nat <= qabs (v - nths l j))%num \/ (nths l i - v <= qabs (v - nths l j))%num).
  { intros j Hj. destruct (Nat.le_gt_cases j (i - 1)) as [C|C].
    - left. pose proof (increasing_nondecreasing _ I j (i - 1) C ltac:(lia)). destruct (qabs_spec (v - nths l j)%num) as [[? ->]|[? ->]]; qlra.
    - right. pose proof (increasing_nondecreasing _ I i j ltac:(lia) Hj). destruct (qabs_spec (v - nths l j)%num) as [[? ->]|[? ->]]; qlra. }
  destruct (qltb_spec (qabs (v - nths l (i - 1)%nat)) (qabs (v - nths l i))) as [C|C]; split; try lia; intros j Hj; rewrite ?E1, ?E2 in *; destruct (LB j Hj); qlra.
Qed.
Lemma nearest_profile f d v : field_ok f -> 2 <= length (pos_axis f d) -> (nths (pos_axis f d) 0 <= v <= last (pos_axis f d) (qz 0))%num ->
  exists k p, nearest_to (pos_axis f d) v k /\ profile_nearest f d v = Ok p /\ is_line f d k p.
Proof.
  intros FO L V. destruct (pos_facts f d FO) as [I NE]. destruct (nearest_index_spec _ v I L V) as (k & E & K).
  destruct (line_profile_lemma f d k FO) as (p & F & IL). exists k, p. split; [exact K|]. split; [|exact IL].
  unfold profile_nearest. assert (off_axis (pos_axis f d) v = false) as -> by (now apply off_axis_spec). cbn [guard]. rewrite E. exact F.
Qed.
Lemma nearest_single f d v : field_ok f -> pos_axis f d = [v] -> profile_nearest f d v = Err UnboundErr.
Proof.
  intros FO E. destruct (pos_facts f d FO) as [I NE]. unfold profile_nearest. assert (off_axis (pos_axis f d) v = false) as -> by (apply off_axis_spec; auto; rewrite E; split; apply qle_refl).
  cbn [guard]. rewrite E. reflexivity.
Qed.

(** ** linear *)
Lemma shows_cell f i j x y : nth_error (ax (sg f)) i = Some x -> nth_error (ay (sg f)) j = Some y -> sf_shows f x y (at_ (values f) i j) (at_ (msk f) i j).
Proof. intros H1 H2. exists i, j. auto. Qed.
Lemma profile_values_lemma ci f d v (P : nat -> onum -> Prop) : field_ok f ->
  (forall j w, nth_error (run_axis f d) j = Some w -> exists o, match d with DX => get_value ci f v w | DY => get_value ci f w v end = Ok o /\ P j o) ->
  exists p, profile_values ci f d v = Ok p /\ runs f d p (fun j y m => P j y /\ m = isnan y).
Proof.
  intros FO H. pose proof FO as (W & G & _ & _).
  set (g := fun w => match d with DX => get_value ci f v w | DY => get_value ci f w v end).
  assert (EX : exists vals, mapM g (run_axis f d) = Ok vals /\ length vals = length (run_axis f d) /\ forall j, j < length (run_axis f d) -> P j (nth j vals None)).
  { assert (Q : forall l (R : nat -> onum -> Prop), (forall j w, nth_error l j = Some w -> exists o, g w = Ok o /\ R j o) ->
        exists vals, mapM g l = Ok vals /\ length vals = length l /\ forall j, j < length l -> R j (nth j vals None)).
    { induction l as [|w l IH]; intros R HR; [exists []; repeat split; simpl; intros; lia|].
      destruct (HR 0 w eq_refl) as (o & E & Q). destruct (IH (fun j => R (S j)) (fun j w' Hw => HR (S j) w' Hw)) as (vals & E' & L & Q').
      exists (o :: vals). cbn [mapM bind]. rewrite E. cbn [bind]. rewrite E'. repeat split; [cbn; lia|]. intros [|j] Hj; [exact Q|]. apply Q'. simpl in Hj. lia. }
    apply Q. exact H. }
  destruct EX as (vals & E & L & Q). unfold profile_values. fold g. rewrite E. cbn [bind].
  destruct (new_nth (run_axis f d) vals None (run_unit f d) (uv f)) as (p & F & OK & U & V & X & N); [auto|exact I|now apply run_sorted|].
  exists p. split; [exact F|]. repeat (split; [assumption|]). intros j Hj. destruct (N j Hj) as [N1 N2]. cbv zeta in N1, N2. rewrite N1, N2. split; [now apply Q|reflexivity].
Qed.
Lemma linear_node_values ci f d k : field_ok f -> k < length (pos_axis f d) ->
  exists p, profile_values ci f d (nths (pos_axis f d) k) = Ok p /\ is_line f d k p.
Proof.
  intros FO K. pose proof FO as (W & G & _ & _).
  destruct (profile_values_lemma ci f d (nths (pos_axis f d) k) (fun j o => o = cell_value f d k j) FO) as (p & E & R).
  - intros j w Hw. pose proof (nths_nth_error (pos_axis f d) k K) as Hk. exists (cell_value f d k j). split; [|reflexivity].
    destruct d; cbn [pos_axis run_axis cell_value] in *; eapply get_value_node; eauto using shows_cell.
  - exists p. split; [exact E|]. destruct R as (X & U & V & OK & R). repeat (split; [assumption|]). intros j Hj. destruct (R j Hj) as [R1 R2].
    split; [exact R1|]. rewrite R2, R1. destruct (cell_mask f d k j) eqn:M; [|reflexivity]. now rewrite (cell_masked f d k j M).
Qed.
Lemma in_axis l k : increasing l -> k < length l -> (nths l 0 <= nths l k <= last l (qz 0))%num.
Proof.
  intros I K. assert (NE : l <> []) by (intros ->; simpl in K; lia). rewrite last_nths by exact NE.
  split; apply increasing_nondecreasing; auto; lia.
Qed.
Lemma linear_node ci f d k : field_ok f -> k < length (pos_axis f d) ->
  (exists p, profile_linear ci f d (nths (pos_axis f d) k) = Ok p /\ is_line f d k p) /\
  (exists p, profile_linear_ind ci f d (Z.of_nat k) = Ok p /\ is_line f d k p).
Proof.
  intros FO K. destruct (pos_facts f d FO) as [I NE]. destruct (linear_node_values ci f d k FO K) as (p & E & L). split; exists p; (split; [|exact L]).
  - unfold profile_linear. assert (off_axis (pos_axis f d) (nths (pos_axis f d) k) = false) as -> by (apply off_axis_spec; auto; now apply in_axis). exact E.
  - unfold profile_linear_ind. assert (off_index (pos_axis f d) (Z.of_nat k) = false) as -> by (apply off_index_spec; lia). cbn [guard]. now rewrite Nat2Z.id.
Qed.
Lemma linear_between ci f d k v : field_ok f -> S k < length (pos_axis f d) -> (nths (pos_axis f d) k < v < nths (pos_axis f d) (S k))%num ->
  exists p, profile_linear ci f d v = Ok p /\ runs f d p (fun j y m => blends f d k v j y /\ m = isnan y).
Proof.
  intros FO K [V1 V2]. destruct (pos_facts f d FO) as [I NE]. pose proof FO as (W & G & _ & _). unfold profile_linear.
  assert (off_axis (pos_axis f d) v = false) as ->.
  { apply off_axis_spec; auto. pose proof (in_axis _ k I ltac:(lia)). pose proof (in_axis _ (S k) I ltac:(lia)). split; qlra. }
  cbn [guard]. apply profile_values_lemma; [exact FO|]. intros j w Hw. unfold blends. destruct d; cbn [pos_axis run_axis cell_value] in *.
  - pose proof (get_value_xline ci f k j v w G K Hw V1 V2) as Q. destruct (at_ (values f) k j) as [a|], (at_ (values f) (S k) j) as [b|]; try (exists None; now split).
    destruct Q as (r & E & O & B1 & B2). exists (Some r). split; [exact E|]. exists r. auto.
  - pose proof (get_value_yline ci f j k w v G K Hw V1 V2) as Q. destruct (at_ (values f) j k) as [a|], (at_ (values f) j (S k)) as [b|]; try (exists None; now split).
    destruct Q as (r & E & O & B1 & B2). exists (Some r). split; [exact E|]. exists r. auto.
Qed.

(** ** interval *)
Lemma interval_profile f d a b : field_ok f ->
  exists p, profile_interval f d a b = Ok p /\ runs f d p (averages f d (fun k => (a <= nths (pos_axis f d) k <= b)%num)).
Proof.
  intros FO. pose proof FO as (W & G & _ & _). destruct (pos_facts f d FO) as [I NE]. unfold profile_interval.
  assert (EG : match pos_axis f d with [] => true | _ => false end = false) by (destruct (pos_axis f d); [congruence|reflexivity]). rewrite EG. cbn [guard].
  set (ks := interval_lines (pos_axis f d) a b). set (n := length (run_axis f d)).
  match goal with |- context [prof_new ?x ?y (Some ?m) ?u ?w] => set (vals := y); set (mask := m) end.
  destruct (new_nth (run_axis f d) vals (Some mask) (run_unit f d) (uv f)) as (p & F & OK & U & V & X & N);
    [unfold vals; now rewrite map_length, seq_length|unfold mask; now rewrite map_length, seq_length|now apply run_sorted|].
  exists p. split; [exact F|]. repeat (split; [assumption|]). intros j Hj. destruct (N j Hj) as [N1 N2]. cbv zeta in N1, N2.
  assert (EV : nth j vals None = omean (map (fun k => cell_value f d k j) ks)).
  { unfold vals. rewrite (map_seq_nth (fun j => omean (map (fun k => nth j (line_values f d k) None) ks))) by exact Hj. f_equal. apply map_ext. intro k. now apply line_nth. }
  assert (EM : nth j mask false = match ks with [] => true | _ => existsb (fun k => cell_mask f d k j) ks end).
  { unfold mask. rewrite (map_seq_nth (fun j => match ks with [] => true | _ => existsb (fun k => nth j (line_mask f d k) false) ks end)) by exact Hj.
    assert (Q : forall l, existsb (fun k => nth j (line_mask f d k) false) l = existsb (fun k => cell_mask f d k j) l).
    { induction l as [|k l IH]; [reflexivity|]. cbn [existsb]. rewrite IH. now rewrite (proj2 (line_nth f d k j W Hj)). }
    destruct ks; [reflexivity|apply Q]. }
  rewrite EV, EM in *. exists ks. split; [apply NoDup_filter, seq_NoDup|]. split.
  { intro k. unfold ks, interval_lines. rewrite filter_In, in_seq, andb_true_iff, !qleb_le. split; intros (A & B); (split; [lia|tauto]). }
  split.
  - intros [E|(k & K1 & K2)].
    + rewrite E in *. rewrite N1, N2. now split.
    + assert (EN : omean (map (fun k => cell_value f d k j) ks) = None) by (apply omean_nan, in_map_iff; exists k; now split).
      rewrite EN in *. rewrite N1, N2. cbn [isnan]. rewrite orb_true_r. split; [|reflexivity]. match goal with |- (if ?b then _ else _) = _ => now destruct b end.
  - intros KE l El. assert (LE : l <> []) by (intros ->; destruct ks; [congruence|discriminate]).
    destruct (omean_total l LE) as (v & Ev & Tv). rewrite El in Ev. rewrite Ev in *.
    assert (NM : existsb (fun k => cell_mask f d k j) ks = false).
    { apply not_true_iff_false. rewrite existsb_exists. intros (k & K1 & K2). apply cell_masked in K2.
      assert (In None (map Some l)) as Q by (rewrite El; apply in_map_iff; exists k; now split). apply in_map_iff in Q. destruct Q as (z & Q & _). discriminate. }
    rewrite NM in *. assert (EK : match ks with [] => true | _ :: _ => false end = false) by (destruct ks; [congruence|reflexivity]).
    rewrite EK in *. rewrite N1, N2. split; [reflexivity|]. exists v. split; [reflexivity|].
    assert (length l = length ks) as <-; [|exact Tv]. apply (f_equal (@length _)) in El. now rewrite !map_length in El.
Qed.
Lemma all_profile f d : field_ok f ->
  exists p, profile_all f d = Ok p /\ runs f d p (averages f d (fun _ => True)).
Proof.
  intros FO. destruct (pos_facts f d FO) as [I NE]. unfold profile_all. destruct (pos_axis f d) as [|x l] eqn:E; [congruence|].
  destruct (interval_profile f d x (last (pos_axis f d) (qz 0)) FO) as (p & F & R). rewrite E in F. exists p. split; [exact F|].
  destruct R as (X & U & V & OK & R). repeat (split; [assumption|]). intros j Hj. destruct (R j Hj) as (ks & ND & K & R1 & R2). exists ks. split; [exact ND|]. split; [|now split].
  intro k. rewrite K. split; [tauto|]. intros [H _]. split; [exact H|]. rewrite E in *. apply (in_axis (x :: l) k I H).
Qed.
