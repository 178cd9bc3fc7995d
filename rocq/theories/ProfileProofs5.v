From Verif Require Import Num Res ListLib SortLib Arr FieldModel ScalarFieldModel FieldSpec FieldProofs2 ScalarProofs ProfileModel ProfileSpec ProfileProofs ProfileProofs2 ProfileProofs3 ProfileProofs4.

Notation vpts := (flat_map (fun t : sample => match t with (x, Some y, false) => [(x, y)] | _ => [] end)).

Lemma searchsorted_at L R v : nondecreasing (L ++ R) -> (forall x, In x L -> (x < v)%num) -> (forall x, In x R -> (v <= x)%num) -> searchsorted (L ++ R) v = length L.
Proof.
  intros S HL HR. destruct (searchsorted_spec (L ++ R) v S) as (S1 & S2 & S3). set (k := searchsorted (L ++ R) v) in *. rewrite app_length in *.
  destruct (Nat.lt_trichotomy k (length L)) as [C|[C|C]]; [|exact C|]; exfalso.
  - specialize (S3 k ltac:(lia) ltac:(lia)). rewrite app_nth1 in S3 by exact C. specialize (HL _ (nth_In L (qz 0) C)). qlra.
  - specialize (S2 (length L) C). rewrite app_nth2 in S2 by lia. rewrite Nat.sub_diag in S2. assert (0 < length R) by lia. specialize (HR _ (nth_In R (qz 0) H)). qlra.
Qed.
Lemma vpts_masked l : all_masked l -> vpts l = [].
Proof. induction l as [|[[x y] m] l IH]; intro H; [reflexivity|]. cbn [flat_map]. assert (E := H _ (or_introl eq_refl)). unfold smask in E. cbn [snd] in E. subst m. rewrite IH by (intros t Ht; apply H; now right). destruct y; reflexivity. Qed.
Lemma vpts_in l x : In x (map fst (vpts l)) -> In x (map sx l).
Proof.
  intro H. apply in_map_iff in H. destruct H as ([a b] & <- & H). apply in_flat_map in H. destruct H as ([[u v] m] & H1 & H2). destruct v as [v|]; [|contradiction]. destruct m; [contradiction|].
  destruct H2 as [H2|[]]. injection H2 as -> ->. apply in_map_iff. eexists. split; [|exact H1]. reflexivity.
Qed.
Lemma first_valid_le a b : first_valid (a ++ false :: b) <= length a.
Proof. induction a as [|c a IH]; simpl; [lia|]. destruct c; simpl; lia. Qed.
Lemma first_valid_eq a b : (forall c, In c a -> c = true) -> first_valid (a ++ false :: b) = length a.
Proof. induction a as [|c a IH]; intro H; [reflexivity|]. simpl. rewrite (H c (or_introl eq_refl)). f_equal. apply IH. intros d Hd. apply H. now right. Qed.
Lemma increasing_app_lt a x b y c : increasing (a ++ x :: b ++ y :: c) -> (x < y)%num.
Proof.
  intro H. assert (L : length a + S (length b) < length (a ++ x :: b ++ y :: c)) by (rewrite app_length; simpl; rewrite app_length; simpl; lia).
  specialize (H (length a) (length a + S (length b)) ltac:(lia) L).
  rewrite app_nth2 in H by lia. rewrite Nat.sub_diag in H. simpl in H. rewrite app_nth2 in H by lia. replace (length a + S (length b) - length a) with (S (length b)) in H by lia.
  simpl in H. rewrite app_nth2, Nat.sub_diag in H by lia. exact H.
Qed.
Lemma in_before a x b y : increasing (a ++ x :: b) -> In y a -> (y < x)%num.
Proof. intros H Hy. apply in_split in Hy. destruct Hy as (a1 & a2 & ->). rewrite <- app_assoc in H. simpl in H. now apply increasing_app_lt in H. Qed.
Lemma in_after a x b y : increasing (a ++ x :: b) -> In y b -> (x < y)%num.
Proof. intros H Hy. apply in_split in Hy. destruct Hy as (a1 & a2 & ->). now apply increasing_app_lt in H. Qed.
Lemma vpts_nondec l : nondecreasing (map sx l) -> nondecreasing (map fst (vpts l)).
Proof.
  intro S. assert (E : exists f, map fst (vpts l) = keep f (map sx l)).
  { exists (map (fun t : sample => match t with (x, Some y, false) => true | _ => false end) l). induction l as [|[[x y] m] l IH]; [reflexivity|].
    cbn [flat_map map keep]. assert (S' : nondecreasing (map sx l)) by (apply nondecreasing_cons in S; tauto). rewrite map_app, (IH S'). destruct y as [y|]; [|reflexivity]. destruct m; reflexivity. }
  destruct E as (f & ->). now apply nondecreasing_keep.
Qed.
Lemma interp1d_mid A xj yj xk yk B x fv :
  nondecreasing (map fst (A ++ (xj, yj) :: (xk, yk) :: B)) -> (xj < x < xk)%num -> (forall z, In z (map fst A) -> (z < x)%num) -> (forall z, In z (map fst B) -> (x <= z)%num) ->
  interpolates xj yj xk yk x (interp1d_fill (map fst (A ++ (xj, yj) :: (xk, yk) :: B)) (map snd (A ++ (xj, yj) :: (xk, yk) :: B)) fv x).
Proof.
  intros SS [V1 V2] HA HB. set (xs := map fst (A ++ (xj, yj) :: (xk, yk) :: B)) in *. set (ys := map snd (A ++ (xj, yj) :: (xk, yk) :: B)).
  assert (Exs : xs = (map fst A ++ [xj]) ++ xk :: map fst B) by (unfold xs; rewrite map_app; simpl; now rewrite <- app_assoc).
  assert (Lx : length xs = length A + S (S (length B))) by (unfold xs; rewrite map_length, app_length; reflexivity).
  assert (K : searchsorted xs x = length A + 1).
  { rewrite Exs in *. rewrite searchsorted_at; [rewrite app_length, map_length; reflexivity|exact SS| |].
    - intros z Hz. apply in_app_or in Hz. destruct Hz as [Hz|[<-|[]]]; auto.
    - intros z [<-|Hz]; [now apply qlt_le|auto]. }
  assert (N0 : nths xs (length A) = xj). { unfold xs. rewrite map_app. rewrite app_nth2; rewrite map_length; [|lia]. now rewrite Nat.sub_diag. }
  assert (N1 : nths xs (length A + 1) = xk). { unfold xs. rewrite map_app. rewrite app_nth2; rewrite map_length; [|lia]. now replace (length A + 1 - length A) with 1 by lia. }
  assert (M0 : nths ys (length A) = yj). { unfold ys. rewrite map_app. rewrite app_nth2; rewrite map_length; [|lia]. now rewrite Nat.sub_diag. }
  assert (M1 : nths ys (length A + 1) = yk). { unfold ys. rewrite map_app. rewrite app_nth2; rewrite map_length; [|lia]. now replace (length A + 1 - length A) with 1 by lia. }
  unfold interp1d_fill. assert (qltb x (nths xs 0) = false) as ->.
  { apply qltb_ge. assert (nths xs 0 <= nths xs (length A))%num by (apply SS; lia). rewrite N0 in H. qlra. }
  assert (qltb (last xs (qz 0)) x = false) as ->.
  { apply qltb_ge. rewrite last_nths by (intro Q; rewrite Q in Lx; simpl in Lx; lia). assert (nths xs (length A + 1) <= nths xs (length xs - 1))%num by (apply SS; lia). rewrite N1 in H. qlra. }
  cbn [orb]. unfold interp1d. rewrite K. replace (Nat.min (Nat.max (length A + 1) 1) (length xs - 1)) with (length A + 1) by lia.
  replace (length A + 1 - 1) with (length A) by lia. rewrite N0, N1, M0, M1.
  assert (Q : (xk - xj)%num <> 0%num) by (apply qgt_neq; qlra).
  replace ((yk - yj) / (xk - xj) * (x - xj) + yj)%num with ((yj * (xk - x) + yk * (x - xj)) / (xk - xj))%num by (qfield; exact Q).
  now apply interp_bound.
Qed.

Section Fill.
Variables (p : profile) (fv : num).
Hypothesis OK : prof_ok p.
Let xs := map fst (valid_pts p).
Let ys := map snd (valid_pts p).
Let y1 := map (fun t => if fst (fst t) : bool then Some (interp1d_fill xs ys fv (snd t)) else snd (fst t)) (combine (combine (pm p) (yv p)) (px p)).
Let f := first_valid (pm p).
Let l := last_valid (pm p).
Let y2 := map (fun i => if Nat.ltb i f then nth f y1 None else if Nat.ltb l i then nth l y1 None else nth i y1 None) (seq 0 (length y1)).
Lemma y1_length : length y1 = length (px p).
Proof. pose proof (ok_lengths p OK) as (L1 & L2 & _). unfold y1. rewrite map_length, !combine_length. lia. Qed.
Lemma y1_nth i : i < length (px p) -> nth i y1 None = if nth i (pm p) false then Some (interp1d_fill xs ys fv (nths (px p) i)) else nth i (yv p) None.
Proof.
  intro H. pose proof (ok_lengths p OK) as (L1 & L2 & _). unfold y1. rewrite (nth_map' _ _ _ _ (false, None, qz 0)) by (rewrite !combine_length; lia).
  rewrite combine_nth by (rewrite combine_length; lia). rewrite combine_nth by lia. reflexivity.
Qed.
Lemma y2_nth i : i < length (px p) -> nth i y2 None = if Nat.ltb i f then nth f y1 None else if Nat.ltb l i then nth l y1 None else nth i y1 None.
Proof.
  intro H. unfold y2. rewrite (nth_map' _ _ _ _ 0) by (rewrite seq_length, y1_length; exact H). rewrite seq_nth by (rewrite y1_length; exact H). reflexivity.
Qed.
Lemma fill_ok : existsb (fun b => b) (pm p) = true -> forallb (fun b => b) (pm p) = false -> 2 <= length (valid_pts p) ->
  exists p', prof_fill p FLinear fv = Ok p' /\ prof_ok p' /\ px p' = px p /\ pux p' = pux p /\ puy p' = puy p /\
    forall i, i < length (px p) -> nth i (samples p') (qz 0, None, false) = (nths (px p) i, nth i y2 None, isnan (nth i y2 None)).
Proof.
  intros E1 E2 E3. pose proof (ok_lengths p OK) as (L1 & L2 & S). unfold prof_fill. rewrite (aligned_ok p OK), E1, E2. cbn [negb guard].
  assert (Nat.ltb (length (valid_pts p)) 2 = false) as -> by (apply Nat.ltb_ge; exact E3). cbn [guard]. fold xs ys. fold y1. fold f l. fold y2.
  assert (Ly : length y2 = length (px p)) by (unfold y2; rewrite map_length, seq_length; apply y1_length).
  destruct (new_lemma (px p) y2 None (pux p) (puy p)) as (r & N1 & N2 & N3 & N4 & _ & N5); [lia|exact I|]. exists r. destruct (N5 S) as [N6 N7].
  split; [exact N1|]. split; [exact N2|]. split; [exact N6|]. split; [exact N3|]. split; [exact N4|]. intros i Hi. rewrite N7.
  rewrite (nth_map' _ _ _ _ (qz 0, None, false)) by (rewrite zip3_length; rewrite ?repeat_length; lia). unfold zip3. rewrite combine_nth by (rewrite combine_length, repeat_length; lia). rewrite combine_nth by lia.
  assert (nth i (repeat false (length (px p))) false = false) as -> by (clear; revert i; induction (length (px p)) as [|n IH]; intros [|i]; simpl; auto). reflexivity.
Qed.
Lemma f_le A t B : samples p = A ++ t :: B -> smask t = false -> f <= length A.
Proof. intros E M. unfold f. destruct (samples_fst p OK) as (_ & _ & Q). rewrite <- Q, E, map_app. simpl. rewrite M. rewrite <- (map_length smask A). apply first_valid_le. Qed.
Lemma f_eq A t B : samples p = A ++ t :: B -> all_masked A -> smask t = false -> f = length A.
Proof.
  intros E H M. unfold f. destruct (samples_fst p OK) as (_ & _ & Q). rewrite <- Q, E, map_app. simpl. rewrite M. rewrite <- (map_length smask A). apply first_valid_eq.
  intros c Hc. apply in_map_iff in Hc. destruct Hc as (s & <- & Hs). now apply H.
Qed.
Lemma rev_masks A t B : samples p = A ++ t :: B -> rev (pm p) = rev (map smask B) ++ smask t :: rev (map smask A) /\ length (pm p) = length A + S (length B).
Proof. intro E. destruct (samples_fst p OK) as (_ & _ & Q). rewrite <- Q, E, map_app. simpl. rewrite rev_app_distr. simpl. rewrite <- app_assoc. split; [reflexivity|]. rewrite app_length; simpl. rewrite !map_length. reflexivity. Qed.
Lemma l_ge A t B : samples p = A ++ t :: B -> smask t = false -> length A <= l.
Proof.
  intros E M. unfold l, last_valid. destruct (rev_masks A t B E) as [R L]. rewrite R, L, M. pose proof (first_valid_le (rev (map smask B)) (rev (map smask A))) as H. rewrite rev_length, map_length in H. lia.
Qed.
Lemma l_eq A t B : samples p = A ++ t :: B -> all_masked B -> smask t = false -> l = length A.
Proof.
  intros E H M. unfold l, last_valid. destruct (rev_masks A t B E) as [R L]. rewrite R, L, M. rewrite first_valid_eq; [rewrite rev_length, map_length; lia|].
  intros c Hc. apply in_rev in Hc. apply in_map_iff in Hc. destruct Hc as (s & <- & Hs). now apply H.
Qed.
Lemma at_split A t B : samples p = A ++ t :: B -> length A < length (px p) /\ nths (px p) (length A) = sx t /\ nth (length A) (yv p) None = sy t /\ nth (length A) (pm p) false = smask t.
Proof.
  intro E. assert (H : length A < length (px p)) by (rewrite <- (samples_length p OK), E, app_length; simpl; lia). split; [exact H|].
  pose proof (samples_nth p (length A) OK) as N. rewrite E, app_nth2, Nat.sub_diag in N by lia. simpl in N. rewrite N. auto.
Qed.
Hypothesis INC : increasing (px p).
Hypothesis CL : prof_clean p.
Lemma samples_inc : increasing (map sx (samples p)).
Proof. destruct (samples_fst p OK) as (X & _). now rewrite X. Qed.
Lemma valid_in t B A : samples p = A ++ t :: B -> smask t = false -> In t (samples p).
Proof. intros E _. rewrite E. apply in_or_app. right. now left. Qed.
Lemma fill_lemma : existsb (fun b => b) (pm p) = true -> 2 <= length (valid_pts p) ->
  exists p', prof_fill p FLinear fv = Ok p' /\ prof_ok p' /\ px p' = px p /\ pux p' = pux p /\ puy p' = puy p /\
    (forall t, In t (samples p') -> smask t = false) /\
    (forall t, In t (samples p) -> smask t = false -> In t (samples p')) /\
    (forall A xj yj M1 x y M2 xk yk B, samples p = A ++ (xj, Some yj, false) :: M1 ++ (x, y, true) :: M2 ++ (xk, Some yk, false) :: B -> all_masked M1 -> all_masked M2 ->
        exists r, In (x, Some r, false) (samples p') /\ interpolates xj yj xk yk x r) /\
    (forall M1 x y M2 xf yf B, samples p = M1 ++ (x, y, true) :: M2 ++ (xf, yf, false) :: B -> all_masked M1 -> all_masked M2 -> In (x, yf, false) (samples p')) /\
    (forall A xl yl M1 x y M2, samples p = A ++ (xl, yl, false) :: M1 ++ (x, y, true) :: M2 -> all_masked M1 -> all_masked M2 -> In (x, yl, false) (samples p')).
Proof.
  intros E1 E3. pose proof (ok_lengths p OK) as (L1 & L2 & S).
  assert (E2 : forallb (fun b => b) (pm p) = false).
  { apply not_true_iff_false. intro H. rewrite forallb_forall in H. assert (all_masked (samples p)).
    { intros t Ht. apply H. destruct (samples_fst p OK) as (_ & _ & Q). rewrite <- Q. now apply in_map. }
    change (valid_pts p) with (vpts (samples p)) in E3. rewrite vpts_masked in E3 by assumption. simpl in E3. lia. }
  destruct (fill_ok E1 E2 E3) as (p' & F1 & F2 & F3 & F4 & F5 & F6). exists p'. do 5 (split; [assumption|]).
  assert (Len : length (samples p') = length (px p)) by (rewrite samples_length by exact F2; now rewrite F3).
  assert (V : exists A t B, samples p = A ++ t :: B /\ smask t = false).
  { assert (N : forallb (fun b => b) (pm p) <> true) by congruence. destruct (samples_fst p OK) as (_ & _ & Q). rewrite <- Q in N.
    clear - N. induction (samples p) as [|s k IH]; [exfalso; now apply N|]. destruct (smask s) eqn:M.
    - destruct IH as (A & t & B & -> & T); [simpl in N; rewrite M in N; exact N|]. exists (s :: A), t, B. auto.
    - exists [], s, k. auto. }
  destruct V as (A0 & t0 & B0 & V1 & V2).
  assert (fl : f <= l) by (pose proof (f_le _ _ _ V1 V2); pose proof (l_ge _ _ _ V1 V2); lia).
  assert (ll : l < length (px p)). { unfold l, last_valid. assert (length (pm p) <> 0) by (rewrite L2; rewrite <- (samples_length p OK), V1, app_length; simpl; lia). lia. }
  assert (put : forall i x o, i < length (px p) -> nths (px p) i = x -> nth i y2 None = Some o -> In (x, Some o, false) (samples p')).
  { intros i x o Hi X Y. specialize (F6 i Hi). rewrite X, Y in F6. simpl in F6. rewrite <- F6. apply nth_In. lia. }
  assert (val : forall A t B, samples p = A ++ t :: B -> smask t = false -> exists v, sy t = Some v).
  { intros A t B E M. pose proof (CL t (valid_in t B A E M)) as Q. rewrite M in Q. destruct (sy t) as [v|]; [eauto|discriminate]. }
  assert (y1some : forall i, i < length (px p) -> exists v, nth i y1 None = Some v).
  { intros i Hi. rewrite y1_nth by exact Hi. destruct (nth i (pm p) false) eqn:M; [eauto|].
    pose proof (samples_nth p i OK) as N. assert (I : In (nths (px p) i, nth i (yv p) None, nth i (pm p) false) (samples p)) by (rewrite <- N; apply nth_In; rewrite samples_length by exact OK; exact Hi).
    apply CL in I. unfold smask, sy in I. cbn [fst snd] in I. rewrite M in I. destruct (nth i (yv p) None) as [v|]; [eauto|discriminate]. }
  split; [|split; [|split; [|split]]].
  - intros t Ht. apply In_nth with (d := (qz 0, None, false)) in Ht. destruct Ht as (i & Hi & <-). rewrite Len in Hi. rewrite F6 by exact Hi. unfold smask. cbn [snd].
    rewrite y2_nth by exact Hi. destruct (Nat.ltb_spec i f); [destruct (y1some f ltac:(lia)) as (v & ->); reflexivity|]. destruct (Nat.ltb_spec l i); [destruct (y1some l ll) as (v & ->); reflexivity|].
    destruct (y1some i Hi) as (v & ->). reflexivity.
  - intros t Ht M. apply in_split in Ht. destruct Ht as (A & B & E). destruct (at_split A t B E) as (Q1 & Q2 & Q3 & Q4). destruct (val A t B E M) as (v & Ev).
    assert (T : t = (sx t, Some v, false)) by (destruct t as [[a b] c]; unfold sx, sy, smask in *; simpl in *; congruence). rewrite T.
    apply (put (length A)); [exact Q1|exact Q2|]. rewrite y2_nth by exact Q1.
    pose proof (f_le A t B E M) as Z1. pose proof (l_ge A t B E M) as Z2. apply Nat.ltb_ge in Z1. apply Nat.ltb_ge in Z2. rewrite Z1, Z2. rewrite y1_nth by exact Q1. now rewrite Q4, M, Q3.
  - intros A xj yj M1 x y M2 xk yk B E HM1 HM2.
    assert (Ej := at_split A _ _ E). assert (Zf := f_le A _ _ E eq_refl).
    assert (E' : samples p = (A ++ (xj, Some yj, false) :: M1) ++ (x, y, true) :: (M2 ++ (xk, Some yk, false) :: B)) by (rewrite E; now rewrite <- app_assoc).
    assert (E'' : samples p = (A ++ (xj, Some yj, false) :: M1 ++ (x, y, true) :: M2) ++ (xk, Some yk, false) :: B).
    { rewrite E. rewrite <- app_assoc. simpl. rewrite <- app_assoc. reflexivity. }
    assert (Zl := l_ge _ _ _ E'' eq_refl). destruct (at_split _ _ _ E') as (Q1 & Q2 & Q3 & Q4). unfold sx, smask in Q2, Q4. cbn [fst snd] in Q2, Q4.
    pose proof samples_inc as SI.
    exists (interp1d_fill xs ys fv x). split.
    + apply (put (length (A ++ (xj, Some yj, false) :: M1))); [exact Q1|exact Q2|]. rewrite y2_nth by exact Q1.
      assert (Nat.ltb (length (A ++ (xj, Some yj, false) :: M1)) f = false) as -> by (apply Nat.ltb_ge; rewrite app_length; simpl; lia).
      assert (Nat.ltb l (length (A ++ (xj, Some yj, false) :: M1)) = false) as -> by (apply Nat.ltb_ge; rewrite app_length in *; simpl in *; rewrite app_length in Zl; simpl in Zl; lia).
      rewrite y1_nth by exact Q1. now rewrite Q4, Q2.
    + assert (Vp : valid_pts p = vpts A ++ (xj, yj) :: (xk, yk) :: vpts B).
      { change (valid_pts p) with (vpts (samples p)). rewrite E. rewrite flat_map_app. f_equal. cbn [flat_map app]. f_equal. rewrite flat_map_app, (vpts_masked M1 HM1). cbn [flat_map app].
        assert (forall (y : onum) (b : list (num * num)), (match y with Some _ => [] | None => [] end) ++ b = b) by (intros [?|] ?; reflexivity). destruct y; cbn [app]; rewrite flat_map_app, (vpts_masked M2 HM2); reflexivity. }
      unfold xs, ys. rewrite Vp. 
      assert (Lt1 : (xj < x)%num). { rewrite E', map_app in SI; cbn [map] in SI. apply (in_before _ _ _ _ SI). rewrite map_app. apply in_or_app. right. now left. }
      assert (Lt2 : (x < xk)%num). { rewrite E', map_app in SI; cbn [map] in SI. apply (in_after _ _ _ _ SI). rewrite map_app. apply in_or_app. right. now left. }
      apply interp1d_mid; [|split; assumption| |].
      * rewrite <- Vp. apply vpts_nondec. now apply increasing_nondecreasing.
      * intros z Hz. apply vpts_in in Hz. rewrite E, map_app in SI. simpl in SI. pose proof (in_before _ _ _ _ SI Hz) as T. unfold sx in T at 1. cbn [fst] in T. qlra.
      * intros z Hz. apply vpts_in in Hz. rewrite E'', map_app in SI. simpl in SI. pose proof (in_after _ _ _ _ SI Hz) as T. unfold sx in T at 1. cbn [fst] in T. qlra.
  - intros M1 x y M2 xf yf B E HM1 HM2.
    assert (E' : samples p = (M1 ++ (x, y, true) :: M2) ++ (xf, yf, false) :: B) by (rewrite E; now rewrite <- app_assoc).
    destruct (at_split _ _ _ E) as (Q1 & Q2 & Q3 & Q4). destruct (at_split _ _ _ E') as (R1 & R2 & R3 & R4). unfold sx, sy, smask in *. cbn [fst snd] in *.
    assert (Zf : f = length (M1 ++ (x, y, true) :: M2)).
    { apply (f_eq _ _ _ E'); [|reflexivity]. intros s Hs. apply in_app_or in Hs. destruct Hs as [Hs|[<-|Hs]]; auto. }
    destruct (val _ _ _ E' eq_refl) as (v & Ev). unfold sy in Ev. cbn [fst snd] in Ev. rewrite Ev.
    apply (put (length M1)); [exact Q1|exact Q2|]. rewrite y2_nth by exact Q1.
    assert (Nat.ltb (length M1) f = true) as -> by (apply Nat.ltb_lt; rewrite Zf, app_length; simpl; lia). rewrite Zf. rewrite y1_nth by exact R1. now rewrite R4, R3, Ev.
  - intros A xl yl M1 x y M2 E HM1 HM2.
    assert (E' : samples p = (A ++ (xl, yl, false) :: M1) ++ (x, y, true) :: M2) by (rewrite E; now rewrite <- app_assoc).
    destruct (at_split _ _ _ E) as (Q1 & Q2 & Q3 & Q4). destruct (at_split _ _ _ E') as (R1 & R2 & R3 & R4). unfold sx, sy, smask in *. cbn [fst snd] in *.
    assert (Zl : l = length A).
    { apply (l_eq _ _ _ E); [|reflexivity]. intros s Hs. apply in_app_or in Hs. destruct Hs as [Hs|[<-|Hs]]; auto. }
    destruct (val _ _ _ E eq_refl) as (v & Ev). unfold sy in Ev. cbn [fst snd] in Ev. rewrite Ev.
    apply (put (length (A ++ (xl, yl, false) :: M1))); [exact R1|exact R2|]. rewrite y2_nth by exact R1.
    assert (Nat.ltb (length (A ++ (xl, yl, false) :: M1)) f = false) as -> by (apply Nat.ltb_ge; rewrite app_length; simpl; lia).
    assert (Nat.ltb l (length (A ++ (xl, yl, false) :: M1)) = true) as -> by (apply Nat.ltb_lt; rewrite app_length; simpl; lia). rewrite Zl. rewrite y1_nth by exact Q1. now rewrite Q4, Q3, Ev.
Qed.
Lemma fill_nothing : existsb (fun b => b) (pm p) = false -> prof_fill p FLinear fv = Ok p.
Proof. intro E. unfold prof_fill. now rewrite (aligned_ok p OK), E. Qed.
End Fill.

Lemma fill_final p fv : prof_ok p -> increasing (px p) -> prof_clean p -> existsb (fun b => b) (pm p) = true -> 2 <= length (unmasked (samples p)) ->
  exists p', prof_fill p FLinear fv = Ok p' /\ prof_ok p' /\ px p' = px p /\ pux p' = pux p /\ puy p' = puy p /\
    (forall t, In t (samples p') -> smask t = false) /\
    (forall t, In t (samples p) -> smask t = false -> In t (samples p')) /\
    (forall A xj yj M1 x y M2 xk yk B, samples p = A ++ (xj, Some yj, false) :: M1 ++ (x, y, true) :: M2 ++ (xk, Some yk, false) :: B -> all_masked M1 -> all_masked M2 ->
        exists r, In (x, Some r, false) (samples p') /\ interpolates xj yj xk yk x r) /\
    (forall M1 x y M2 xf yf B, samples p = M1 ++ (x, y, true) :: M2 ++ (xf, yf, false) :: B -> all_masked M1 -> all_masked M2 -> In (x, yf, false) (samples p')) /\
    (forall A xl yl M1 x y M2, samples p = A ++ (xl, yl, false) :: M1 ++ (x, y, true) :: M2 -> all_masked M1 -> all_masked M2 -> In (x, yl, false) (samples p')).
Proof.
  intros OK INC CL E1 E2. apply (fill_lemma p fv OK INC CL E1). change (valid_pts p) with (vpts (samples p)).
  replace (length (vpts (samples p))) with (length (unmasked (samples p))); [exact E2|].
  unfold prof_clean in CL. clear - CL. induction (samples p) as [|[[x y] m] l IH]; [reflexivity|].
  assert (Q := CL _ (or_introl eq_refl)). unfold smask, sy in Q. cbn [fst snd] in Q. subst m. cbn [unmasked flat_map]. unfold smask. cbn [snd].
  assert (IH' := IH (fun t Ht => CL t (or_intror Ht))). destruct y; simpl; [f_equal|]; exact IH'.
Qed.
Lemma fill_nothing_api p fv : prof_ok p -> (forall t, In t (samples p) -> smask t = false) -> prof_fill p FLinear fv = Ok p.
Proof.
  intros OK H. apply fill_nothing; [exact OK|]. apply not_true_iff_false. rewrite existsb_exists. intros (b & Hb & ->).
  destruct (samples_fst p OK) as (_ & _ & M). rewrite <- M in Hb. apply in_map_iff in Hb. destruct Hb as (t & E & Ht). rewrite (H t Ht) in E. discriminate.
Qed.
