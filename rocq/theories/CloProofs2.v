(** * CloProofs2: local marginal values, import from text files, consistency *)
From Coq Require Import Lia QArith Qcanon List.
From Verif Require Import Num Res ListLib SortLib Arr FieldModel ScalarFieldModel VectorFieldModel FieldSpec ProfileModel ProfileSpec ProfileProofs ProfileProofs2 ProfileProofs3 ProfileProofs4 ProfileProofs5 Prof2Model Prof2Spec
  Prof2Proofs Prof2Proofs2 Prof2Proofs3 CloModel CloSpec.

Lemma diff_lemma p s : prof_ok p -> prof_ok s -> prof_clean s -> px s = px p -> pux s = pux p -> puy s = puy p -> good_unit (puy p) ->
  exists n d, prof_neg s = Ok n /\ prof_add p n = Ok d /\ prof_ok d /\
    samples d = map (fun st => (sx (fst st), residual st, isnan (residual st))) (combine (samples p) (samples s)).
Proof.
  intros OP OS CS EX EU EW G. pose proof (ok_lengths s OS) as (Q1 & Q2 & Q3). unfold prof_neg. rewrite (aligned_ok s OS). cbn [negb guard].
  destruct (new_lemma (px s) (map oneg (yv s)) (Some (pm s)) (pux s) (puy s)) as (n & N1 & N2 & N3 & N4 & _ & N5).
  { rewrite map_length. congruence. } { exact Q2. }
  destruct (N5 Q3) as [N6 N7]. exists n.
  assert (SN : samples n = map (fun t => (sx t, oneg (sy t), isnan (sy t))) (samples s)).
  { rewrite N7. unfold samples. unfold prof_clean, samples in CS. revert CS Q1 Q2. generalize (yv s) as y, (pm s) as m, (px s) as x. clear. intros y m x. revert y m. induction x as [|x0 x IH]; intros [|y0 y] [|m0 m] C L1 L2; try discriminate; [reflexivity|].
    unfold zip3 in *. cbn [map combine] in *. rewrite IH.
    - f_equal. assert (C0 := C _ (or_introl eq_refl)). cbn in C0. subst m0. unfold sx, sy, smask. cbn [fst snd]. destruct y0; reflexivity.
    - intros t T. apply C. now right.
    - cbn in L1. lia.
    - cbn in L2. lia. }
  destruct (add_lemma p n OP N2) as (d & D1 & D2 & _ & _ & _ & D3 & _); [congruence|congruence|congruence|congruence|exact G|].
  exists d. split; [exact N1|]. split; [exact D1|]. split; [exact D2|]. rewrite D3, SN.
  assert (MP := fun t H => samples_masked p t H). revert MP CS. unfold prof_clean. generalize (samples p) as a, (samples s) as b. clear. intro a. induction a as [|t a IH]; intros [|u b] MP CS; [reflexivity..|].
  cbn [map combine]. rewrite IH.
  - f_equal. unfold residual. cbn [fst snd]. destruct t as [[x y] m], u as [[x' y'] m']. assert (M0 := MP _ (or_introl eq_refl)). assert (C0 := CS _ (or_introl eq_refl)). cbn in M0, C0. subst m'. unfold sx, sy, smask. cbn [fst snd].
    destruct m; [rewrite (M0 eq_refl); cbn; destruct y'; reflexivity|]. destruct y, y'; reflexivity.
  - intros v V. apply MP. now right.
  - intros v V. apply CS. now right.
Qed.
Lemma known_valid {A} (f : A -> onum) (x : A -> num) l : valid_values (map (fun a => (x a, f a, isnan (f a))) l) = known (map f l).
Proof. induction l as [|a l IH]; [reflexivity|]. cbn [map valid_values known]. destruct (f a); cbn [isnan]; now rewrite IH. Qed.
Definition masksb (fact : num) (l : list num) (y : onum) : bool := match y with Some v => marginalb fact l v | None => false end.
Lemma masksb_iff fact l y : masksb fact l y = true <-> marginal fact l y.
Proof. rewrite marginal_iff. destruct y as [v|]; cbn; split; intro H; [now exists v| |discriminate|]; destruct H as (w & E & H); [injection E as <-; exact H|discriminate]. Qed.
Lemma local_run smooth p s fact : prof_ok p -> smooths smooth p s -> good_unit (puy p) -> (0 <= fact)%num ->
  let L := combine (samples p) (samples s) in
  exists p', remove_local_marginal smooth p fact = Ok p' /\ px p' = px p /\ py p' = py p /\ pux p' = pux p /\ puy p' = puy p /\
    pm p' = map (fun st => (smask (fst st) || masksb fact (known (map residual L)) (residual st))%bool) L.
Proof.
  intros OP (E & OS & CS & EX & EU & EW) G F L. destruct (diff_lemma p s OP OS CS EX EU EW G) as (n & d & N & D & OD & SD). fold L in SD.
  unfold remove_local_marginal. rewrite E. cbn [bind]. rewrite N. cbn [bind]. rewrite D. cbn [bind].
  change (valid_pts d) with (vpts (samples d)). rewrite valid_snd. rewrite SD, known_valid. set (K := known (map residual L)).
  assert (PM : pm p = map (fun st => smask (fst st)) L).
  { destruct (ok_lengths p OP) as (L1 & L2 & _). assert (LS : length (samples p) = length (samples s)) by (rewrite !samples_length by assumption; now rewrite EX).
    unfold L. rewrite <- (map_map fst smask). assert (M : map fst (combine (samples p) (samples s)) = samples p).
    { revert LS. generalize (samples p) as a, (samples s) as b. clear. intro a. induction a as [|t a IH]; intros [|u b] H; try discriminate; [reflexivity|]. cbn. f_equal. apply IH. cbn in H. lia. }
    rewrite M. destruct (samples_fst p OP) as (_ & _ & Z). now rewrite <- Z at 1. }
  assert (YD : yv d = map residual L). { destruct (samples_fst d OD) as (_ & Y & _). rewrite <- Y, SD, map_map. reflexivity. }
  destruct K as [|k0 K0] eqn:EK.
  - exists p. repeat (split; [reflexivity|]). rewrite PM at 1. apply map_ext_in. intros st I. assert (R : residual st = None).
    { destruct (residual st) as [v|] eqn:R; [|reflexivity]. exfalso. assert (IN : In v K). { unfold K. clear - I R. induction L as [|a l IH]; [contradiction|]. cbn [map known]. destruct I as [->|I]; [rewrite R; now left|]. destruct (residual a); [right|]; now apply IH. } rewrite EK in IN. contradiction. }
    rewrite R. cbn. now rewrite orb_false_r.
  - rewrite <- EK. eexists. split; [reflexivity|]. cbn [px py pux puy pm]. repeat (split; [reflexivity|]). rewrite PM, YD. rewrite variance_eq. change (mean K) with (average K). clearbody K. clear - F.
    induction L as [|st L IH]; [reflexivity|]. cbn [map combine fst snd]. f_equal; [|exact IH]. rewrite <- orb_assoc. f_equal. destruct (residual st) as [v|]; [|reflexivity]. cbn [masksb]. now apply beyond_both.
Qed.
Lemma local_lemma smooth p s fact : prof_ok p -> smooths smooth p s -> good_unit (puy p) -> (0 <= fact)%num ->
  let L := combine (samples p) (samples s) in
  exists p', remove_local_marginal smooth p fact = Ok p' /\ px p' = px p /\ py p' = py p /\ pux p' = pux p /\ puy p' = puy p /\
    Forall2 (fun st m => m = true <-> smask (fst st) = true \/ marginal fact (known (map residual L)) (residual st)) L (pm p').
Proof.
  intros OP S G F L. destruct (local_run smooth p s fact OP S G F) as (p' & E & X & Y & U & W & M). fold L in M. exists p'. repeat (split; [assumption|]). rewrite M.
  generalize (known (map residual L)). intro K. clear. induction L as [|st L IH]; [constructor|]. cbn. constructor; [|exact IH]. rewrite orb_true_iff, masksb_iff. reflexivity.
Qed.
Lemma local_count smooth p s fact : prof_ok p -> smooths smooth p s -> good_unit (puy p) -> (0 <= fact)%num ->
  let K := known (map residual (combine (samples p) (samples s))) in
  exists p' k, remove_local_marginal smooth p fact = Ok p' /\ k = length (filter (fun t => (negb (fst t) && snd t)%bool) (combine (pm p) (pm p'))) /\
    (qn k * (fact * fact) <= qn (length K))%num /\ ((1 <= fact)%num -> 0 < length K -> k < length K).
Proof.
  intros OP S G F K. destruct (local_run smooth p s fact OP S G F) as (p' & E & _ & _ & _ & _ & M). eexists p', _. split; [exact E|]. split; [reflexivity|].
  assert (C : length (filter (fun t : bool * bool => (negb (fst t) && snd t)%bool) (combine (pm p) (pm p'))) = length (filter (marginalb fact K) K)).
  { rewrite M. fold K. destruct S as (_ & OS & _ & EX & _). assert (LS : length (samples p) = length (samples s)) by (rewrite !samples_length by assumption; now rewrite EX).
    destruct (samples_fst p OP) as (_ & _ & Z). rewrite <- Z. assert (MP := fun t H => samples_masked p t H).
    unfold K at 3. generalize K. clear K M. revert LS MP. generalize (samples p) as a, (samples s) as b. clear. intro a. induction a as [|t a IH]; intros [|u b] LS MP K; try discriminate; [reflexivity|].
    cbn [map combine filter fst snd known]. assert (IH' := IH b ltac:(cbn in LS; lia) ltac:(intros v V; apply MP; now right) K). assert (M0 := MP t (or_introl eq_refl)).
    change (snd t) with (smask t). destruct (residual (t, u)) as [v|] eqn:R.
    - assert (smask t = false) as ->. { destruct (smask t) eqn:Q; [|reflexivity]. exfalso. unfold residual in R. cbn [fst snd] in R. rewrite (M0 eq_refl) in R. discriminate. }
      cbn [negb andb orb masksb filter]. destruct (marginalb fact K v); cbn [length]; now rewrite IH'.
    - cbn [masksb]. rewrite orb_false_r, andb_negb_l. exact IH'. }
  rewrite C. destruct (Nat.eq_dec (length K) 0) as [Z|Z].
  - destruct K; [|discriminate]. cbn. split; [|lia]. change (qn 0) with (qz 0). assert (H : (qz 0 * (fact * fact) = 0)%num) by qring. rewrite H. apply qle_refl.
  - destruct (chebyshev fact K ltac:(lia)) as [A B]. split; [exact A|]. intros F1 _. now apply B.
Qed.

(** ** text files *)
Lemma read_never lens ref l : l <> [] -> forall r, read_each lens ref l <> Ok r.
Proof.
  intros H r. destruct l as [|i l]; [contradiction|]. cbn [read_each]. destruct (nth_error lens (Z.to_nat i)) as [n|]; [|discriminate]. destruct (negb (Nat.eqb n ref)); discriminate.
Qed.
Lemma arange_some a step b : (a <= b)%Z -> exists r, arange_from a step (Z.to_nat (b - a + 1)) b = a :: r.
Proof. intro H. replace (Z.to_nat (b - a + 1)) with (S (Z.to_nat (b - a))) by lia. cbn [arange_from]. rewrite (proj2 (Z.leb_le a b) H). eexists. reflexivity. Qed.
Lemma ascii_never lens kind incr interval times r : import_vfs_ascii lens kind incr interval times <> Ok r.
Proof.
  unfold import_vfs_ascii. destruct (incr <? 1)%Z; [discriminate|]. cbn [guard]. set (n := Z.of_nat (length lens)).
  assert (H : exists a b, match interval with None => (0, n - 1)%Z | Some (a, b) => if (b <? a)%Z then (b, a) else (a, b) end = (a, b) /\ (lens <> [] -> (a <= b)%Z)).
  { destruct interval as [[a b]|]; [destruct (Z.ltb_spec b a)|]; eexists _, _; (split; [reflexivity|]); intro NE; try lia. unfold n. destruct lens; [contradiction|]. cbn [length]. lia. }
  destruct H as (a & b & -> & LE). destruct ((a <? 0)%Z || (n <? b)%Z)%bool; [discriminate|]. cbn [guard]. match goal with |- context [guard ?c] => destruct c end; [discriminate|]. cbn [guard].
  destruct lens as [|ref lens]; [discriminate|]. destruct (match kind with KOther => true | _ => false end); [discriminate|]. cbn [guard]. apply read_never.
  destruct (arange_some a incr b (LE ltac:(discriminate))) as (q & ->). discriminate.
Qed.
Lemma ascii_default lens kind : lens <> [] -> kind <> KOther -> import_vfs_ascii lens kind 1 None [] = Err AttrErr.
Proof.
  intros NE K. unfold import_vfs_ascii. change (1 <? 1)%Z with false. cbn [guard]. destruct lens as [|ref lens]; [contradiction|]. set (n := Z.of_nat (length (ref :: lens))).
  assert (1 <= n)%Z by (unfold n; cbn [length]; lia). change (0 <? 0)%Z with false. rewrite (proj2 (Z.ltb_ge n (n - 1))) by lia. cbn [orb guard length Nat.eqb negb andb].
  destruct kind; try contradiction; cbn [guard]; destruct (arange_some 0 1 (n - 1) ltac:(lia)) as (q & ->); cbn [read_each Z.to_nat nth_error]; rewrite Nat.eqb_refl; reflexivity.
Qed.

(** ** consistency *)
Lemma known_iff m v : known_cells m v = true <-> forall i j, i < d0 v -> j < d1 v -> at_ m i j = false -> at_ v i j <> None.
Proof.
  unfold known_cells. rewrite forallb_forall. split.
  - intros H i j I J M. specialize (H (i, j) ltac:(apply in_aidx; split; assumption)). cbn in H. rewrite M in H. destruct (at_ v i j); [discriminate|discriminate].
  - intros H [i j] I. apply in_aidx in I. destruct I as [I J]. cbn. destruct (at_ m i j) eqn:M; [reflexivity|]. specialize (H i j I J M). destruct (at_ v i j); [reflexivity|contradiction].
Qed.
Lemma shape_iff {A} (a : arr A) g : shape_is a g = true <-> has_shape a (length (ax g)) (length (ay g)).
Proof. unfold shape_is, has_shape. rewrite andb_true_iff, !Nat.eqb_eq. reflexivity. Qed.
Lemma check_lemma f : vf_check f = Ok tt <-> vf_wf f /\ all_shown f.
Proof.
  unfold vf_check, vf_wf, all_shown. split.
  - intro H. destruct (shape_is (cx f) (vg f)) eqn:E1; [|discriminate]. destruct (shape_is (cy f) (vg f)) eqn:E2; [|discriminate]. destruct (shape_is (vmsk f) (vg f)) eqn:E3; [|discriminate].
    destruct (known_cells (vmsk f) (cx f)) eqn:E4; [|discriminate]. destruct (known_cells (vmsk f) (cy f)) eqn:E5; [|discriminate]. apply shape_iff in E1, E2, E3. split; [now repeat split; try apply E1; try apply E2; try apply E3|].
    rewrite known_iff in E4, E5. destruct E1 as [A B], E2 as [C D]. intros i j I J M. split; [apply E4|apply E5]; congruence.
  - intros ((S1 & S2 & S3) & H). rewrite (proj2 (shape_iff _ _) S1), (proj2 (shape_iff _ _) S2), (proj2 (shape_iff _ _) S3). cbn [negb guard]. destruct S1 as [A B], S2 as [C D].
    rewrite (proj2 (known_iff (vmsk f) (cx f))), (proj2 (known_iff (vmsk f) (cy f))); [reflexivity| |].
    + intros i j I J M. apply (H i j); congruence.
    + intros i j I J M. apply (H i j); congruence.
Qed.
Lemma check_cases f : vf_check f = Ok tt \/ vf_check f = Err GenericErr.
Proof. unfold vf_check. repeat match goal with |- context [guard ?c] => destruct c; cbn [guard]; [now right|] end. now left. Qed.
Lemma import_check x y vx vy m u w v f : (nths x 0 <= last x (qz 0))%num -> (nths y 0 <= last y (qz 0))%num ->
  vf_import x y vx vy m u w v = Ok f -> vf_check f = Ok tt.
Proof.
  intros X Y E. unfold vf_import in E. destruct (Nat.ltb (length y) 2); [discriminate|]. cbn [guard] in E. match type of E with context [guard ?c] => destruct c end; [discriminate|]. cbn [guard] in E.
  assert (qltb (last x (qz 0)) (nths x 0) = false) as RX by (destruct (qltb_spec (last x (qz 0)) (nths x 0)); [exfalso; qlra|reflexivity]).
  assert (qltb (last y (qz 0)) (nths y 0) = false) as RY by (destruct (qltb_spec (last y (qz 0)) (nths y 0)); [exfalso; qlra|reflexivity]).
  rewrite RX, RY in E. set (t := (Nat.eqb (length x) (d1 vx) && Nat.eqb (length y) (d0 vx) && negb (Nat.eqb (length x) (length y)))%bool) in E. clearbody t. set (vx2 := if t then atrans vx else vx) in E. set (vy2 := if t then atrans vy else vy) in E. set (m2 := if t then atrans (amap2 orb (amap2 orb m (amap isnan vx)) (amap isnan vy)) else amap2 orb (amap2 orb m (amap isnan vx)) (amap isnan vy)) in E.
  destruct (shape_is vx2 _) eqn:S1 in E; [|discriminate]. destruct (shape_is vy2 _) eqn:S2 in E; [|discriminate]. destruct (shape_is m2 _) eqn:S3 in E; [|discriminate]. cbn [andb negb guard] in E. injection E as <-.
  apply shape_iff in S1, S2, S3. apply check_lemma. split.
  - split; [exact S1|]. split; [exact S2|exact S3].
  - intros i j _ _ M. cbn [vmsk cx cy nanify at_] in *. rewrite M. assert (H : isnan (at_ vx2 i j) = false /\ isnan (at_ vy2 i j) = false).
    { unfold m2, vx2, vy2 in *. destruct t; cbn [atrans at_ amap2 amap] in *; rewrite !orb_false_iff in M; tauto. }
    destruct H as [H1 H2]. split; intro Q; [rewrite Q in H1|rewrite Q in H2]; discriminate.
Qed.
