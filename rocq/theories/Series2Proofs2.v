(** * Series2Proofs2: the background field and its subtraction (C142, C143). *)
From Coq Require Import Lia.
From Verif Require Import Num Res ListLib SortLib Arr FieldModel ScalarFieldModel VectorFieldModel FieldSpec ProfileModel ProfileSpec Prof2Model Prof2Spec
  TemporalModel TemporalSpec AsciiModel FieldProofs2 FieldProofs3 GradProofs2 AsciiProofs AsciiProofs4 PodModel PodProofs PodProofs2 PodProofs11 TemporalProofs2 GradProofs Prof2Proofs3 TurbProofs5 Series2Model Series2Spec Series2Proofs.

(** ** the array of the results *)
Lemma prod_nth_error n m i j : i < n -> j < m -> nth_error (list_prod (seq 0 n) (seq 0 m)) (i * m + j) = Some (i, j).
Proof.
  intros Hi Hj. assert (G : forall k s, i < k -> nth_error (list_prod (seq s k) (seq 0 m)) (i * m + j) = Some (s + i, j)).
  { clear Hi n. induction i as [|i IH]; intros k s H; (destruct k as [|k]; [lia|]); cbn [seq list_prod].
    - rewrite nth_error_app1 by (rewrite map_length, seq_length; lia). cbn [Nat.mul Nat.add]. rewrite nth_error_map, nth_error_seq' by lia. cbn. now rewrite Nat.add_0_r.
    - rewrite nth_error_app2 by (rewrite map_length, seq_length; lia). rewrite map_length, seq_length.
      replace (S i * m + j - m) with (i * m + j) by lia. rewrite IH by lia. f_equal. f_equal. lia. }
  now apply G.
Qed.
Lemma prod_len {A B} (l : list A) (k : list B) : length (list_prod l k) = length l * length k.
Proof. apply prod_length. Qed.
Lemma cells_reshape {A} (g : nat * nat -> res A) (d : A) n m : (forall i j, i < n -> j < m -> exists v, g (i, j) = Ok v) ->
  exists vs a, mapM g (list_prod (seq 0 n) (seq 0 m)) = Ok vs /\ reshape d n m vs = Ok a /\ d0 a = n /\ d1 a = m /\
    forall i j, i < n -> j < m -> g (i, j) = Ok (at_ a i j).
Proof.
  intro H. destruct (mapM_total g (list_prod (seq 0 n) (seq 0 m))) as (vs & E).
  { intros [i j] I. apply in_prod_iff in I. destruct I as [I J]. apply in_seq in I, J. apply H; lia. }
  assert (F := proj1 (mapM_forall2 _ _ _) E). assert (L := Forall2_len _ _ _ F). rewrite prod_len, !seq_length in L.
  exists vs. eexists. split; [exact E|]. unfold reshape. rewrite <- L, Nat.eqb_refl. cbn [negb guard]. split; [reflexivity|]. split; [reflexivity|]. split; [reflexivity|].
  intros i j Hi Hj. cbn [at_]. assert (K : i * m + j < length vs) by (rewrite <- L; nia).
  destruct (nth_error vs (i * m + j)) as [v|] eqn:V; [|apply nth_error_None in V; lia].
  assert (P := prod_nth_error n m i j Hi Hj).
  assert (X : forall k a b, nth_error (list_prod (seq 0 n) (seq 0 m)) k = Some a -> nth_error vs k = Some b -> g a = Ok b).
  { clear -F. induction F as [|x y l l' R F IH]; intros [|k] a b XA XB; cbn in *; try discriminate; [congruence|eauto]. }
  rewrite (X _ _ _ P V). f_equal. symmetry. now apply nth_error_nth.
Qed.
Lemma pixel_numbers t i j l : pixel_values t i j l -> pixel t i j = map Some l.
Proof.
  unfold pixel_values, pixel. intro H. induction H as [|f v fs l [M V] H IH]; [reflexivity|]. cbn [map]. rewrite IH. f_equal. unfold values in V. cbn [at_] in V. now rewrite M in V.
Qed.

Section Background.
  Variables (t : tfield sfield) (noise : num).
  Hypothesis G : grid_ok2 (tfg t).
  Hypothesis W : forall f, In f (tff t) -> sf_wf f /\ o_grid sf_ops f = tfg t.
  Lemma background_cells : exists b, tsf_background t noise = Ok b /\ sg b = tfg t /\ uv b = one_unit /\ sf_wf b /\ sf_clean b /\
    forall i j, i < length (ax (tfg t)) -> j < length (ay (tfg t)) -> bg_pixel noise (pixel t i j) = Ok (at_ (values b) i j) /\ (at_ (msk b) i j = true <-> at_ (values b) i j = None).
  Proof using All.
    destruct G as ([Ix Iy] & Lx & Ly).
    destruct (cells_reshape (fun c => bg_pixel noise (pixel t (fst c) (snd c))) None (length (ax (tfg t))) (length (ay (tfg t)))) as (vs & a & E & R & D0 & D1 & C).
    { intros i j _ _. apply bg_pixel_total. }
    exists (mksf (tfg t) a (amap2 orb (afull (d0 a) (d1 a) false) (amap isnan a)) one_unit). split.
    { unfold tsf_background. replace (existsb _ (tff t)) with false.
      - cbn [guard]. rewrite E. cbn [bind]. rewrite R. cbn [bind]. rewrite sf_import_none by (auto || lia). now destruct (tfg t).
      - symmetry. apply not_true_iff_false. intro X. apply existsb_exists in X. destruct X as (f & If & X). destruct (W f If) as (((R0 & R1) & _) & GF).
        cbn [o_grid sf_ops] in GF. rewrite R0, R1, GF in X. apply orb_true_iff in X. rewrite !Nat.ltb_lt in X. lia. }
    split; [reflexivity|]. split; [reflexivity|]. split; [cbn; repeat split; cbn; congruence|].
    assert (K : forall i j, at_ (values (mksf (tfg t) a (amap2 orb (afull (d0 a) (d1 a) false) (amap isnan a)) one_unit)) i j = at_ a i j).
    { intros i j. cbn. destruct (at_ a i j); reflexivity. }
    split.
    - apply sf_clean_idx. cbn [sg]. intros i j Hi Hj. rewrite K. cbn. destruct (at_ a i j); cbn; split; congruence.
    - intros i j Hi Hj. rewrite K. split; [now apply (C i j)|]. cbn. destruct (at_ a i j); cbn; split; congruence.
  Qed.
  Lemma background_lemma : tff t <> [] -> exists b, tsf_background t noise = Ok b /\ sg b = tfg t /\ uv b = one_unit /\ sf_wf b /\ sf_clean b /\
    forall i j l, i < length (ax (tfg t)) -> j < length (ay (tfg t)) -> pixel_values t i j l ->
      exists keep, convex keep /\ filter keep l <> [] /\
        ((at_ (msk b) i j = true /\ equidistant (filter keep l)) \/
         (at_ (msk b) i j = false /\ at_ (values b) i j = Some (average (filter keep l)) /\
          ((0 < noise)%num /\ (variance (filter keep l) < noise * noise)%num \/ 10 * length (filter keep l) <= length (tff t)))).
  Proof using All.
    intro NE. destruct background_cells as (b & E & Eg & Eu & Wb & Cb & C). exists b. do 5 (split; [assumption|]).
    intros i j l Hi Hj P. destruct (C i j Hi Hj) as [B M]. rewrite (pixel_numbers t i j l P) in B. assert (L := Forall2_len _ _ _ P).
    assert (0 < length l) by (destruct (tff t); [congruence|cbn in L; lia]).
    destruct (bg_pixel_lemma noise l H) as (r & keep & B2 & Cv & Pos & D). assert (B3 : at_ (values b) i j = r) by congruence. clear B2. rename B3 into B2. exists keep. split; [exact Cv|].
    split; [intro Z; rewrite Z in Pos; cbn in Pos; lia|]. rewrite B2 in M |- *. rewrite L. destruct D as [[-> D]|[-> D]]; [left|right].
    - split; [now apply M|exact D].
    - split; [|split; [reflexivity|exact D]]. apply not_true_iff_false. intro T. apply M in T. discriminate.
  Qed.
  Lemma background_majority : (0 < noise)%num -> exists b, tsf_background t noise = Ok b /\ sg b = tfg t /\
    forall i j l c, i < length (ax (tfg t)) -> j < length (ay (tfg t)) -> pixel_values t i j l -> length l < 2 * times_shown c l -> (exists v, In v l /\ v <> c) ->
      at_ (msk b) i j = false /\ exists v, at_ (values b) i j = Some v /\ (c - noise < v < c + noise)%num.
  Proof using All.
    intro NP. destruct background_cells as (b & E & Eg & Eu & Wb & Cb & C). exists b. do 2 (split; [assumption|]).
    intros i j l c Hi Hj P T D. destruct (C i j Hi Hj) as [B M]. rewrite (pixel_numbers t i j l P) in B.
    destruct (bg_pixel_majority noise c l NP T D) as (v & B2 & Q). assert (B3 : at_ (values b) i j = Some v) by congruence. clear B2. rename B3 into B2. rewrite B2 in M |- *.
    split; [apply not_true_iff_false; intro X; apply M in X; discriminate|]. exists v. split; [reflexivity|].
    split.
    - destruct (Qclt_le_dec (c - noise)%num v) as [|X]; [assumption|exfalso]. assert (Y := qmul_nonneg (c - noise - v)%num (c - v + noise)%num ltac:(qlra) ltac:(qlra)). qlra.
    - destruct (Qclt_le_dec v (c + noise)%num) as [|X]; [assumption|exfalso]. assert (Y := qmul_nonneg (v - c - noise)%num (v - c + noise)%num ltac:(qlra) ltac:(qlra)). qlra.
  Qed.
  Lemma background_constant : exists b, tsf_background t noise = Ok b /\
    forall i j l c, i < length (ax (tfg t)) -> j < length (ay (tfg t)) -> pixel_values t i j l -> (forall v, In v l -> v = c) ->
      at_ (msk b) i j = true /\ at_ (values b) i j = None.
  Proof using All.
    destruct background_cells as (b & E & Eg & Eu & Wb & Cb & C). exists b. split; [assumption|].
    intros i j l c Hi Hj P A. destruct (C i j Hi Hj) as [B M]. rewrite (pixel_numbers t i j l P), (bg_pixel_constant noise c l A) in B. assert (B3 : at_ (values b) i j = None) by congruence.
    split; [now apply M|exact B3].
  Qed.
End Background.

(** ** subtraction *)
Lemma near_bg_spec noise v b : near_bg noise v b = true <-> exists x y, v = Some x /\ b = Some y /\ (y - noise < x < y + noise)%num.
Proof.
  destruct v as [x|], b as [y|]; cbn; try (split; [discriminate|intros (x' & y' & A & B & _); discriminate]).
  rewrite andb_true_iff, !qltb_lt. split; [intros [A B]; exists x, y; auto|]. intros (x' & y' & [= <-] & [= <-] & A & B). auto.
Qed.
Lemma subtract_lemma t bg noise c : (forall f, In f (tff t) -> sf_wf f /\ o_grid sf_ops f = sg bg) -> sf_wf bg ->
  exists t', tsf_subtract t bg noise (Some c) = Ok t' /\ tft t' = tft t /\ tfu t' = tfu t /\ tfg t' = tfg t /\
    Forall2 (fun f f' => sg f' = sg f /\ uv f' = uv f /\ sf_wf f' /\ forall i j, i < length (ax (sg f)) -> j < length (ay (sg f)) ->
      (forall v b, at_ (values f) i j = Some v -> at_ (values bg) i j = Some b -> (b - noise < v < b + noise)%num -> at_ (values f') i j = Some c /\ at_ (msk f') i j = false) /\
      ((forall v b, at_ (values f) i j = Some v -> at_ (values bg) i j = Some b -> ~ (b - noise < v < b + noise)%num) -> at_ (values f') i j = at_ (values f) i j) /\
      (at_ (msk f) i j = true -> at_ (msk f') i j = true)) (tff t) (tff t').
Proof.
  intros W [[B0 B1] _].
  set (upd := fun f => mksf (sg f) (amap2 (fun v b => if near_bg noise v b then Some c else v) (values f) (values bg))
                            (amap isnan (amap2 (fun v b => if near_bg noise v b then Some c else v) (values f) (values bg))) (uv f)).
  exists (mktf (tfg t) (map upd (tff t)) (tfa t) (tft t) (tfu t)). split.
  { unfold tsf_subtract. rewrite (PodProofs11.mapM_pure _ upd); [reflexivity|]. intros f If. destruct (W f If) as [[[R0 R1] _] Eg]. cbn [o_grid sf_ops] in Eg.
    rewrite R0, R1, B0, B1, Eg, !Nat.eqb_refl. cbn [andb negb guard]. unfold set_values, shape_is. cbn [amap2 values d0 d1]. rewrite R0, R1, !Nat.eqb_refl. reflexivity. }
  do 3 (split; [reflexivity|]). apply PodProofs11.forall2_map_r. intros f If. destruct (W f If) as [[[R0 R1] [M0 M1]] Eg]. cbn [o_grid sf_ops] in Eg.
  split; [reflexivity|]. split; [reflexivity|]. split; [repeat split; cbn; auto|]. intros i j Hi Hj.
  assert (V : at_ (values (upd f)) i j = if near_bg noise (at_ (values f) i j) (at_ (values bg) i j) then Some c else at_ (values f) i j).
  { unfold upd, values at 1. cbn [at_ msk raw amap amap2]. destruct (near_bg _ _ _); cbn [isnan]; [reflexivity|]. now destruct (at_ (values f) i j). }
  assert (M : at_ (msk (upd f)) i j = isnan (at_ (values (upd f)) i j)).
  { rewrite V. reflexivity. }
  split; [|split].
  - intros v b Ev Eb R. rewrite M, V. replace (near_bg _ _ _) with true; [auto|]. symmetry. apply near_bg_spec. exists v, b. auto.
  - intro N. rewrite V. destruct (near_bg _ _ _) eqn:X; [exfalso|reflexivity]. apply near_bg_spec in X. destruct X as (v & b & Ev & Eb & R). now apply (N v b).
  - intro T. rewrite M, V. assert (Z : at_ (values f) i j = None) by (unfold values; cbn [at_]; now rewrite T). rewrite Z. reflexivity.
Qed.
Lemma mean_shown f : sf_wf f -> sf_clean f -> shown_values f <> [] -> sf_mean f = Some (average (shown_values f)).
Proof.
  intros [[R0 R1] [M0 M1]] C NE. unfold sf_mean.
  set (l := flat_map _ (combine _ _)).
  assert (E : l = map Some (shown_values f)).
  { subst l. unfold flatten. cbn [values d0 d1]. rewrite R0, R1, M0, M1, aidx_prod, AsciiProofs.combine_map2. unfold shown_values.
    assert (CI := proj1 (sf_clean_idx f) C).
    assert (Q : forall l, (forall c, In c l -> fst c < length (ax (sg f)) /\ snd c < length (ay (sg f))) ->
      flat_map (fun t : bool * onum => if fst t then [] else [snd t]) (map (fun p => (at_ (msk f) (fst p) (snd p), at_ (values f) (fst p) (snd p))) l) =
      map Some (flat_map (fun c => if at_ (msk f) (fst c) (snd c) then [] else match at_ (values f) (fst c) (snd c) with Some v => [v] | None => [] end) l)).
    { induction l as [|c l IH]; intro H; [reflexivity|]. cbn [map flat_map fst snd]. rewrite IH by (intros; apply H; now right). rewrite map_app. f_equal.
      destruct (H c (or_introl eq_refl)) as [Hi Hj]. assert (X := CI _ _ Hi Hj). destruct (at_ (msk f) (fst c) (snd c)); [reflexivity|].
      destruct (at_ (values f) (fst c) (snd c)); [reflexivity|]. assert (Y := proj1 X eq_refl). discriminate. }
    apply Q. intros [i j] I. apply in_prod_iff in I. destruct I as [I J]. apply in_seq in I, J. cbn. lia. }
  rewrite E. destruct (shown_values f) as [|a k] eqn:S; [congruence|]. cbn [map]. change (Some a :: map Some k) with (map Some (a :: k)).
  rewrite Prof2Proofs3.osum_some, map_length. unfold odiv. assert (P := qn_0lt (length (a :: k)) ltac:(cbn; lia)).
  destruct (qeqb_spec (qn (length (a :: k))) 0%num) as [Z|_]; [exfalso; revert Z; now apply qgt_neq|]. reflexivity.
Qed.
Lemma subtract_default t bg noise : sf_wf bg -> sf_clean bg -> shown_values bg <> [] -> tsf_subtract t bg noise None = tsf_subtract t bg noise (Some (average (shown_values bg))).
Proof. intros W C N. unfold tsf_subtract. now rewrite (mean_shown bg W C N). Qed.
