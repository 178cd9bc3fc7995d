(** * PropProf2: the properties C132 to C141: positions of a value, cropping, marginal values, doublons, even spacing, resolution, dephasage, correlation, convolution and gradient of profiles.
    Statements only; the proofs are in Prof2Proofs*.v.  The vocabulary is in Prof2Spec and ProfileSpec. *)
From Coq Require Import Lia QArith Qcanon List.
From Verif Require Import Num Res ListLib SortLib Arr FieldModel ScalarFieldModel VectorFieldModel FieldSpec Concrete ProfileModel ProfileSpec TemporalEx Prof2Model Prof2Spec
  Prof2Proofs Prof2Proofs2 Prof2Proofs3 Prof2Proofs4 Prof2Proofs5 Prof2Proofs6 Prof2Proofs7 Prof2Proofs8.

(** five points, the second and the last masked *)
Definition ex2 : profile := mkprof (zs [0; 1; 3; 4; 6]%Z) [oz 1; None; oz 2; oz 5; None] [false; true; false; false; true] metre second.
(** evenly spaced points without mask *)
Definition ex_line (a : Z) (l : list Z) : profile := mkprof (map (fun i => qz (a + Z.of_nat i)) (seq 0 (length l))) (map oz l) (map (fun _ => false) l) metre second.
Ltac nondec2 := apply increasing_nondecreasing; incr.
Ltac all_in := let t := fresh in let H := fresh in intros t H; cbn in H; repeat (destruct H as [<-|H]; [first [reflexivity | split; [reflexivity|discriminate]]|]); contradiction.
Lemma ex2_ok : prof_ok ex2.
Proof. repeat split. nondec2. Qed.
Lemma ex2_clean : prof_clean ex2.
Proof. all_in. Qed.

(** ** C132 *)
Theorem C132_between_partial p v :
  prof_ok p -> increasing (px p) -> prof_clean p -> (forall t, In t (samples p) -> sy t <> Some v) ->
  exists l, value_position p v false = Ok (map Some l) /\ increasing l /\ (forall x, In x l <-> passes (samples p) v x).
Proof. exact (position_lemma p v). Qed.
Print Assumptions C132_between_partial.

Theorem C132_index_partial p v :
  prof_ok p -> increasing (px p) -> prof_clean p -> (forall t, In t (samples p) -> sy t <> Some v) ->
  exists l ds, value_position p v false = Ok (map Some l) /\ value_position p v true = Ok (map Some ds) /\ Forall2 (index_of (px p)) l ds.
Proof. exact (position_index_lemma p v). Qed.
Print Assumptions C132_index_partial.

Theorem C132_node_partial p v A t B :
  prof_ok p -> samples p = A ++ t :: B -> (forall s, In s A -> sy s <> Some v) -> sy t = Some v ->
  value_position p v false = Ok [Some (sx t)] /\ value_position p v true = Ok [Some (qn (length A))].
Proof. exact (position_node_lemma p v A t B). Qed.
Print Assumptions C132_node_partial.

(** a value taken at a sample and between two others: the second place is not given *)
Theorem C132_refuted : exists p v x l, prof_ok p /\ prof_clean p /\ increasing (px p) /\ passes (samples p) v x /\ value_position p v false = Ok l /\ ~ In (Some x) l.
Proof.
  exists (ex_line 0 [1; 3; -1]%Z), (qz 1), (qq 3 2), [Some (qz 0)]. split; [repeat split; nondec2|]. split; [all_in|]. split; [incr|]. split.
  - exists [(qz 0, oz 1, false)], (qz 1), (qz 3), (qz 2), (qz (-1)), []. split; [reflexivity|]. split; [split; discriminate|]. unfold on_line. qc.
  - split; [vm_compute; reflexivity|]. intros [H|[]]. apply (f_equal (fun o => match o with Some v => this v | None => 0%Q end)) in H. vm_compute in H. discriminate.
Qed.
Print Assumptions C132_refuted.
Example C132_example : prof_ok ex2 /\ prof_clean ex2 /\ increasing (px ex2) /\ (forall t, In t (samples ex2) -> sy t <> Some (qz 3)) /\ passes (samples ex2) (qz 3) (qq 10 3).
Proof.
  split; [exact ex2_ok|]. split; [exact ex2_clean|]. split; [incr|]. split.
  - intros t H E. cbn in H. repeat (destruct H as [<-|H]; [apply (f_equal (fun o => match o with Some v => this v | None => 0%Q end)) in E; vm_compute in E; discriminate|]). contradiction.
  - exists [(qz 0, oz 1, false); (qz 1, None, true)], (qz 3), (qz 2), (qz 4), (qz 5), [(qz 6, None, true)]. split; [reflexivity|]. split; [split; discriminate|]. unfold on_line. qc.
Qed.

(** ** C133 *)
Theorem C133_crop p :
  prof_ok p -> ~ all_masked (samples p) ->
  exists p', prof_crop_masked p = Ok p' /\ prof_ok p' /\ pux p' = pux p /\ puy p' = puy p /\
    exists A B f l, samples p = A ++ samples p' ++ B /\ all_masked A /\ all_masked B /\
      hd_error (samples p') = Some f /\ smask f = false /\ hd_error (rev (samples p')) = Some l /\ smask l = false.
Proof. exact (crop_masked_lemma p). Qed.
Print Assumptions C133_crop.

Theorem C133_all_masked p :
  prof_ok p -> all_masked (samples p) -> prof_crop_masked p = Err IndexErr.
Proof. exact (crop_masked_all p). Qed.
Print Assumptions C133_all_masked.

Example C133_example : prof_ok ex2 /\ ~ all_masked (samples ex2).
Proof. split; [exact ex2_ok|]. intro H. assert (K := H (qz 0, oz 1, false) ltac:(cbn; tauto)). discriminate. Qed.

(** ** C134 *)
Theorem C134_masked p fact :
  prof_ok p -> prof_clean p -> ~ all_masked (samples p) -> (0 <= fact)%num ->
  exists p', remove_marginal p fact = Ok p' /\ px p' = px p /\ pux p' = pux p /\ puy p' = puy p /\
    Forall2 (fun t t' => (marginal fact (valid_values (samples p)) (sy t) -> t' = (sx t, None, true)) /\
                         (~ marginal fact (valid_values (samples p)) (sy t) -> t' = t)) (samples p) (samples p').
Proof. exact (marginal_lemma p fact). Qed.
Print Assumptions C134_masked.

Theorem C134_count p fact :
  prof_ok p -> prof_clean p -> ~ all_masked (samples p) -> (0 <= fact)%num ->
  exists p' k, remove_marginal p fact = Ok p' /\ length (valid_values (samples p')) + k = length (valid_values (samples p)) /\
    (qn k * (fact * fact) <= qn (length (valid_values (samples p))))%num /\ ((1 <= fact)%num -> 0 < length (valid_values (samples p'))).
Proof. exact (marginal_count_lemma p fact). Qed.
Print Assumptions C134_count.

Theorem C134_all_masked p fact :
  prof_ok p -> all_masked (samples p) -> remove_marginal p fact = Err TypeErr.
Proof. exact (marginal_all p fact). Qed.
Print Assumptions C134_all_masked.

Example C134_example : prof_ok ex2 /\ prof_clean ex2 /\ ~ all_masked (samples ex2) /\ (0 <= 1)%num /\ marginal 1 (valid_values (samples ex2)) (oz 5) /\ ~ marginal 1 (valid_values (samples ex2)) (oz 2).
Proof.
  split; [exact ex2_ok|]. split; [exact ex2_clean|]. split; [exact (proj2 C133_example)|]. split; [discriminate|]. split.
  - apply qltb_lt. vm_compute. reflexivity.
  - intro H. apply qltb_lt in H. vm_compute in H. discriminate.
Qed.

(** ** C135 *)
Theorem C135_groups rnd p m :
  prof_ok p -> prof_clean p -> (exists t, In t (samples p) /\ sx t <> 0%num) -> m <> DOther ->
  exists p', remove_doublons rnd p m = (p', None) /\ prof_ok p' /\ increasing (px p') /\ pux p' = pux p /\ puy p' = puy p /\
    (forall x, In x (px p') <-> exists t, In t (samples p) /\ rnd (sx t) = x) /\
    (forall t', In t' (samples p') ->
       ((exists t, In t (group rnd (sx t') (samples p)) /\ smask t = true) -> sy t' = None /\ smask t' = true) /\
       ((forall t, In t (group rnd (sx t') (samples p)) -> smask t = false) ->
          exists v, sy t' = Some v /\ smask t' = false /\ merged m (valid_values (group rnd (sx t') (samples p))) v)).
Proof. exact (doublons_lemma rnd p m). Qed.
Print Assumptions C135_groups.

Theorem C135_kept rnd p m :
  prof_ok p -> prof_clean p -> increasing (px p) -> (exists t, In t (samples p) /\ sx t <> 0%num) -> m <> DOther ->
  (forall x, In x (px p) -> rnd x = x) -> exists p', remove_doublons rnd p m = (p', None) /\ samples p' = samples p.
Proof. exact (doublons_keep rnd p m). Qed.
Print Assumptions C135_kept.

Theorem C135_errors rnd p m :
  prof_ok p -> m = DOther \/ (forall t, In t (samples p) -> sx t = 0%num) -> exists e, remove_doublons rnd p m = (p, Some e).
Proof. exact (doublons_errors rnd p m). Qed.
Print Assumptions C135_errors.

Definition ex_dbl : profile := mkprof [qz 1; qq 4 3; qz 2; qq 9 4; qz 5] [oz 1; oz 3; oz 2; None; oz 7] [false; false; false; true; false] metre second.
Example C135_example : prof_ok ex_dbl /\ prof_clean ex_dbl /\ (exists t, In t (samples ex_dbl) /\ sx t <> 0%num) /\
  group (fun x => qz (qfloor x)) 1 (samples ex_dbl) = [(qz 1, oz 1, false); (qq 4 3, oz 3, false)].
Proof.
  split; [repeat split; nondec2|]. split; [all_in|]. split; [|reflexivity]. exists (qz 1, oz 1, false). split; [cbn; tauto|]. discriminate.
Qed.

(** ** C136 *)
Theorem C136_regular_partial p dx f l :
  prof_ok p -> prof_clean p -> increasing (px p) -> 2 <= length (px p) -> ~ even_steps (px p) ->
  hd_error (samples p) = Some f -> hd_error (rev (samples p)) = Some l -> smask f = false -> smask l = false ->
  match dx with None => True | Some d => (0 < d <= sx l - sx f)%num end ->
  exists p' n, evenly_space p dx = Ok p' /\ prof_ok p' /\ pux p' = pux p /\ puy p' = puy p /\ nothing_hidden p' /\ regular_axis (px p') (sx f) (sx l) n /\
    match dx with None => S n = length (px p) | Some d => (qn n * d <= sx l - sx f < qn (S n) * d)%num end /\
    forall t', In t' (samples p') -> exists v, sy t' = Some v /\ on_polyline (valid_points (samples p)) (sx t') v.
Proof. exact (evenly_space_lemma p dx f l). Qed.
Print Assumptions C136_regular_partial.

Theorem C136_already_even_partial p dx :
  2 <= length (px p) -> even_steps (px p) -> evenly_space p dx = Ok p.
Proof. exact (evenly_space_even p dx). Qed.
Print Assumptions C136_already_even_partial.

(** the step asked for is ignored when the profile is already evenly spaced *)
Theorem C136_step_refuted : exists p d, prof_ok p /\ prof_clean p /\ nothing_hidden p /\ (0 < d)%num /\ evenly_space p (Some d) = Ok p /\ ~ spaced (px p) d.
Proof.
  exists (ex_line 0 [1; 3; -1]%Z), (qq 1 2). split; [repeat split; nondec2|]. split; [all_in|]. split; [all_in|]. split; [reflexivity|]. split; [reflexivity|].
  intro H. specialize (H 0 ltac:(cbn; lia)). apply (f_equal this) in H. vm_compute in H. discriminate.
Qed.
Print Assumptions C136_step_refuted.
(** a masked end: the interpolation is asked for outside of the valid points *)
Theorem C136_masked_end_refuted : exists p, prof_ok p /\ prof_clean p /\ increasing (px p) /\ 2 <= length (valid_points (samples p)) /\ evenly_space p None = Err ValueErr.
Proof.
  exists (mkprof (zs [0; 3; 4; 6; 7]%Z) [None; oz 1; oz 2; oz 5; oz 0] [true; false; false; false; false] metre second). split; [repeat split; nondec2|]. split; [all_in|]. split; [incr|]. split; [cbn; lia|]. vm_compute. reflexivity.
Qed.
Print Assumptions C136_masked_end_refuted.
Definition ex_uneven : profile := mkprof (zs [0; 1; 3; 4; 6]%Z) [oz 1; None; oz 2; oz 5; oz 0] [false; true; false; false; false] metre second.
Example C136_example : prof_ok ex_uneven /\ prof_clean ex_uneven /\ increasing (px ex_uneven) /\ 2 <= length (px ex_uneven) /\ ~ even_steps (px ex_uneven) /\
  hd_error (samples ex_uneven) = Some (qz 0, oz 1, false) /\ hd_error (rev (samples ex_uneven)) = Some (qz 6, oz 0, false) /\ (0 < qq 1 2 <= qz 6 - qz 0)%num.
Proof.
  split; [repeat split; nondec2|]. split; [all_in|]. split; [incr|]. split; [cbn; lia|]. split.
  - intro H. apply evenly_iff in H; [|cbn; lia]. vm_compute in H. discriminate.
  - split; [reflexivity|]. split; [reflexivity|]. split; [reflexivity|discriminate].
Qed.

(** ** C137 *)
Theorem C137_resolution p fact :
  prof_ok p -> prof_clean p -> (1 <= fact)%Z -> 2 <= length (valid_points (samples p)) ->
  exists p' A mid B, augment_resolution p fact = (p', None) /\ prof_ok p' /\ pux p' = pux p /\ puy p' = puy p /\ nothing_hidden p' /\
    samples p = A ++ mid ++ B /\ all_masked A /\ all_masked B /\
    (exists f l, hd_error mid = Some f /\ smask f = false /\ hd_error (rev mid) = Some l /\ smask l = false) /\ length (samples p') = S ((length mid - 1) * Z.to_nat fact) /\
    forall A1 s M t B1 j, mid = A1 ++ s :: M ++ t :: B1 -> smask s = false -> smask t = false -> all_masked M -> j <= Z.to_nat fact * S (length M) ->
      exists x y ys yt, nth_error (samples p') (Z.to_nat fact * length A1 + j) = Some (x, Some y, false) /\ sy s = Some ys /\ sy t = Some yt /\
        on_line 0 (qn (Z.to_nat fact * S (length M))) (qn j) (sx s) (sx t) x /\ on_line 0 (qn (Z.to_nat fact * S (length M))) (qn j) ys yt y.
Proof. exact (augment_lemma p fact). Qed.
Print Assumptions C137_resolution.

Example C137_example : prof_ok ex2 /\ prof_clean ex2 /\ 2 <= length (valid_points (samples ex2)) /\
  samples ex2 = [] ++ ([] ++ (qz 0, oz 1, false) :: [(qz 1, None, true)] ++ (qz 3, oz 2, false) :: [(qz 4, oz 5, false)]) ++ [(qz 6, None, true)].
Proof. split; [exact ex2_ok|]. split; [exact ex2_clean|]. split; [cbn; lia|reflexivity]. Qed.

(** ** C138 *)
Theorem C138_shift_partial p q h d :
  prof_ok p -> prof_ok q -> nothing_hidden p -> nothing_hidden q -> pux p = pux q -> puy p = puy q ->
  1 <= length (px p) -> 2 <= length (px q) -> (0 < h)%num -> spaced (px p) h -> spaced (px q) h ->
  (exists t v, In t (samples p) /\ sy t = Some v /\ v <> 0%num) -> moved (samples p) (samples q) d ->
  get_dephasage p q = Ok (Some d).
Proof. exact (dephasage_lemma p q h d). Qed.
Print Assumptions C138_shift_partial.

(** masked points: a profile is found shifted from itself *)
Theorem C138_masked_refuted : exists p d, prof_ok p /\ prof_clean p /\ spaced (px p) 1 /\ (exists t v, In t (samples p) /\ sy t = Some v /\ v <> 0%num) /\ get_dephasage p p = Ok (Some d) /\ d <> 0%num.
Proof.
  exists (mkprof (zs [0; 1; 2]%Z) [None; oz 1; oz 1] [true; false; false] metre second), (qz (-1)). split; [repeat split; nondec2|]. split; [all_in|]. split.
  - intros i Hi. cbn in Hi. destruct i as [|[|i]]; [qc|qc|lia].
  - split; [exists (qz 1, oz 1, false), (qz 1); split; [cbn; tauto|]; split; [reflexivity|discriminate]|]. split; [vm_compute; reflexivity|discriminate].
Qed.
Print Assumptions C138_masked_refuted.
Example C138_example : let p := ex_line 0 [0; 1; 5; 2; 0]%Z in let q := ex_line 4 [1; 5; 2]%Z in
  prof_ok p /\ prof_ok q /\ nothing_hidden p /\ nothing_hidden q /\ spaced (px p) 1 /\ spaced (px q) 1 /\ get_dephasage p q = Ok (Some (qz 3)).
Proof.
  cbv zeta. split; [repeat split; nondec2|]. split; [repeat split; nondec2|]. split; [all_in|]. split; [all_in|]. split; [|split].
  - intros i Hi. cbn in Hi. repeat (destruct i as [|i]; [qc|]). lia.
  - intros i Hi. cbn in Hi. repeat (destruct i as [|i]; [qc|]). lia.
  - vm_compute. reflexivity.
Qed.
(** the hypothesis on the shift *)
Example C138_moved : moved (samples (ex_line 0 [1; 5]%Z)) (samples (ex_line 4 [1; 5]%Z)) (qz 4).
Proof.
  intros x v. unfold at_x. split; (intros [(t & Ht & E & Y)|[N Z]]; [left|right; split; [|exact Z]]).
  - cbn in Ht. destruct Ht as [<-|[<-|[]]]; cbn in E, Y; [exists (qz 0, oz 1, false)|exists (qz 1, oz 5, false)]; (split; [cbn; tauto|]); (split; [cbn; rewrite <- E; qc|exact Y]).
  - intros t Ht. cbn in Ht. destruct Ht as [<-|[<-|[]]]; cbn; intro E; [apply (N (qz 4, oz 1, false))|apply (N (qz 5, oz 5, false))]; cbn; auto; [replace x with (x - qz 4 + qz 4)%num by qring|replace x with (x - qz 4 + qz 4)%num by qring]; rewrite <- E; qc.
  - cbn in Ht. destruct Ht as [<-|[<-|[]]]; cbn in E, Y; [exists (qz 4, oz 1, false)|exists (qz 5, oz 5, false)]; (split; [cbn; tauto|]); (split; [cbn; replace x with (x - qz 4 + qz 4)%num by qring; rewrite <- E; qc|exact Y]).
  - intros t Ht. cbn in Ht. destruct Ht as [<-|[<-|[]]]; cbn; intro E; [apply (N (qz 0, oz 1, false))|apply (N (qz 1, oz 5, false))]; cbn; auto; rewrite <- E; qc.
Qed.

(** ** C139 *)
Theorem C139_values_partial p ys wl :
  prof_ok p -> holds p ys -> increasing (px p) -> (0 <= wl < Z.of_nat (length ys) - 1)%Z ->
  let w := Z.to_nat (wl / 2) in let n := length ys in
  sum_between w (n - w - 1) (fun i => nths ys i * nths ys i)%num <> 0%num ->
  exists c cs, auto_correlation p wl = Ok c /\ prof_ok c /\ pux c = pux p /\ puy c = mkunit [] 1%num /\ holds c cs /\ length cs = 2 * w + 1 /\
    (forall k, k <= 2 * w -> nths (px c) k = (qn k * (nths (px p) 1 - nths (px p) 0))%num) /\
    nths cs w = 1%num /\
    forall k, k <= 2 * w -> (nths cs k * sum_between w (n - w - 1) (fun i => nths ys i * nths ys i) = sum_between w (n - w - 1) (fun i => nths ys (i + k - w) * nths ys i))%num.
Proof. exact (corr_lemma p ys wl). Qed.
Print Assumptions C139_values_partial.

(** the last of the possible windows is left out: the last sample is never used *)
Theorem C139_last_refuted p q ys a b wl :
  prof_ok p -> prof_ok q -> holds p (ys ++ [a]) -> holds q (ys ++ [b]) -> px p = px q -> pux p = pux q -> (0 <= wl)%Z -> auto_correlation p wl = auto_correlation q wl.
Proof. exact (corr_last p q ys a b wl). Qed.
Print Assumptions C139_last_refuted.

Example C139_example : let p := ex_line 0 [1; 2; 0; 3; 1]%Z in let ys := zs [1; 2; 0; 3; 1]%Z in
  prof_ok p /\ holds p ys /\ increasing (px p) /\ sum_between 1 3 (fun i => nths ys i * nths ys i)%num = qz 4 /\ holds (ex_line 0 [1; 2; 0; 3; 8]%Z) (zs [1; 2; 0; 3; 8]%Z).
Proof. cbv zeta. split; [repeat split; nondec2|]. split; [split; reflexivity|]. split; [incr|]. split; [qc|split; reflexivity]. Qed.

(** ** C140 *)
Theorem C140_values_partial p q ya yb h :
  prof_ok p -> prof_ok q -> holds p ya -> holds q yb -> pux p = pux q -> 2 <= length ya -> 2 <= length yb ->
  (0 < h)%num -> spaced (px p) h -> spaced (px q) h -> (0 <= nths (px p) 0)%num -> (0 <= nths (px q) 0)%num ->
  exists c cs, get_convolution p q MFull = Ok c /\ prof_ok c /\ pux c = pux p /\ puy c = unit_mul (puy p) (puy q) /\ holds c cs /\ length cs = length ya + length yb - 1 /\
    (forall k, k < length cs -> nths cs k = product_term ya yb k) /\ (forall k, k < length cs -> nths (px c) k = (qn k * h)%num).
Proof. exact (convolution_lemma p q ya yb h). Qed.
Print Assumptions C140_values_partial.

Theorem C140_commutative_partial p q ya yb h :
  prof_ok p -> prof_ok q -> holds p ya -> holds q yb -> pux p = pux q -> 2 <= length ya -> 2 <= length yb ->
  (0 < h)%num -> spaced (px p) h -> spaced (px q) h -> (0 <= nths (px p) 0)%num -> (0 <= nths (px q) 0)%num ->
  exists c d, get_convolution p q MFull = Ok c /\ get_convolution q p MFull = Ok d /\ samples c = samples d.
Proof. exact (convolution_comm p q ya yb h). Qed.
Print Assumptions C140_commutative_partial.

Theorem C140_total_partial p q ya yb h :
  prof_ok p -> prof_ok q -> holds p ya -> holds q yb -> pux p = pux q -> 2 <= length ya -> 2 <= length yb ->
  (0 < h)%num -> spaced (px p) h -> spaced (px q) h -> (0 <= nths (px p) 0)%num -> (0 <= nths (px q) 0)%num ->
  exists c cs, get_convolution p q MFull = Ok c /\ holds c cs /\ Num.qsum cs = (Num.qsum ya * Num.qsum yb)%num.
Proof. exact (convolution_total p q ya yb h). Qed.
Print Assumptions C140_total_partial.

(** the convolution is refused on one side only when a profile begins before 0 *)
Theorem C140_side_refuted : exists p q c e, prof_ok p /\ prof_ok q /\ nothing_hidden p /\ nothing_hidden q /\ spaced (px p) 1 /\ spaced (px q) 1 /\ pux p = pux q /\
  get_convolution p q MFull = Ok c /\ get_convolution q p MFull = Err e.
Proof.
  destruct (ok_ex (get_convolution (ex_line (-2) [1; 2; 0; 3; 1]%Z) (ex_line 0 [1; 5]%Z) MFull) (fun _ => true)) as (c & E & _); [vmr|].
  exists (ex_line (-2) [1; 2; 0; 3; 1]%Z), (ex_line 0 [1; 5]%Z), c, GenericErr. split; [repeat split; nondec2|]. split; [repeat split; nondec2|]. split; [all_in|]. split; [all_in|]. split; [intros i Hi; cbn in Hi; repeat (destruct i as [|i]; [qc|]); lia|]. split; [intros i Hi; cbn in Hi; repeat (destruct i as [|i]; [qc|]); lia|].
  split; [reflexivity|]. split; [exact E|]. vm_compute. reflexivity.
Qed.
Print Assumptions C140_side_refuted.
(** the place of the profiles is lost: the result begins at 0 *)
Theorem C140_origin_refuted : exists p q c, prof_ok p /\ prof_ok q /\ nothing_hidden p /\ nothing_hidden q /\ spaced (px p) 1 /\ spaced (px q) 1 /\ pux p = pux q /\
  get_convolution p q MFull = Ok c /\ nths (px c) 0 <> (nths (px p) 0 + nths (px q) 0)%num.
Proof.
  destruct (ok_ex (get_convolution (ex_line 1 [1; 2; 0; 3; 1]%Z) (ex_line 1 [1; 5]%Z) MFull) (fun c => qeqb (nths (px c) 0) 0%num)) as (c & E & H); [vmr|].
  exists (ex_line 1 [1; 2; 0; 3; 1]%Z), (ex_line 1 [1; 5]%Z), c. split; [repeat split; nondec2|]. split; [repeat split; nondec2|]. split; [all_in|]. split; [all_in|]. split; [intros i Hi; cbn in Hi; repeat (destruct i as [|i]; [qc|]); lia|]. split; [intros i Hi; cbn in Hi; repeat (destruct i as [|i]; [qc|]); lia|].
  split; [reflexivity|]. split; [exact E|]. apply qeqb_eq in H. rewrite H. intro Q. apply (f_equal this) in Q. vm_compute in Q. discriminate.
Qed.
Print Assumptions C140_origin_refuted.
(** an unevenly spaced second profile is accepted *)
Theorem C140_uneven_refuted : exists p q c, prof_ok p /\ prof_ok q /\ nothing_hidden p /\ nothing_hidden q /\ ~ even_steps (px q) /\ get_convolution p q MFull = Ok c.
Proof.
  destruct (ok_ex (get_convolution (ex_line 1 [1; 2; 0]%Z) (mkprof (zs [5; 6; 9]%Z) [oz 1; oz 1; oz 1] [false; false; false] metre second) MFull) (fun _ => true)) as (c & E & _); [vmr|].
  exists (ex_line 1 [1; 2; 0]%Z), (mkprof (zs [5; 6; 9]%Z) [oz 1; oz 1; oz 1] [false; false; false] metre second), c. split; [repeat split; nondec2|]. split; [repeat split; nondec2|]. split; [all_in|]. split; [all_in|]. split; [|exact E].
  intro H. apply evenly_iff in H; [|cbn; lia]. vm_compute in H. discriminate.
Qed.
Print Assumptions C140_uneven_refuted.
Example C140_example : let p := ex_line 1 [1; 2; 0; 3; 1]%Z in let q := ex_line 0 [1; 5]%Z in
  prof_ok p /\ prof_ok q /\ holds p (zs [1; 2; 0; 3; 1]%Z) /\ holds q (zs [1; 5]%Z) /\ pux p = pux q /\ spaced (px p) 1 /\ spaced (px q) 1 /\ (0 <= nths (px p) 0)%num /\ (0 <= nths (px q) 0)%num.
Proof.
  cbv zeta. split; [repeat split; nondec2|]. split; [repeat split; nondec2|]. split; [split; reflexivity|]. split; [split; reflexivity|]. split; [reflexivity|]. split; [intros i Hi; cbn in Hi; repeat (destruct i as [|i]; [qc|]); lia|]. split; [intros i Hi; cbn in Hi; repeat (destruct i as [|i]; [qc|]); lia|]. split; discriminate.
Qed.

(** ** C141 *)
Theorem C141_differences p h :
  prof_ok p -> prof_clean p -> 2 <= length (px p) -> (0 < h)%num -> spaced (px p) h ->
  exists p', get_gradient p = Ok p' /\ prof_ok p' /\ px p' = px p /\ pux p' = pux p /\ puy p' = unit_div (puy p) (pux p) /\
    forall i t a b, nth_error (samples p) i = Some t -> nth_error (samples p) (Nat.pred i) = Some a -> nth_error (samples p) (Nat.min (S i) (length (px p) - 1)) = Some b ->
      exists t', nth_error (samples p') i = Some t' /\ sx t' = sx t /\
        (forall u v, sy a = Some u -> sy b = Some v -> smask t' = false /\ exists g, sy t' = Some g /\ (g * (sx b - sx a) = v - u)%num) /\
        (smask a = true \/ smask b = true -> sy t' = None /\ smask t' = true).
Proof. exact (gradient_lemma p h). Qed.
Print Assumptions C141_differences.

Theorem C141_line p h a b :
  prof_ok p -> 2 <= length (px p) -> (0 < h)%num -> spaced (px p) h -> (forall t, In t (samples p) -> smask t = false /\ sy t = Some (a * sx t + b)%num) ->
  exists p', get_gradient p = Ok p' /\ px p' = px p /\ forall t', In t' (samples p') -> smask t' = false /\ sy t' = Some a.
Proof. exact (gradient_line p h a b). Qed.
Print Assumptions C141_line.

Theorem C141_uneven p :
  2 <= length (px p) -> ~ even_steps (px p) -> get_gradient p = Err GenericErr.
Proof. exact (gradient_uneven p). Qed.
Print Assumptions C141_uneven.

Example C141_example : let p := mkprof (zs [0; 1; 2; 3]%Z) [oz 1; None; oz 2; oz 5] [false; true; false; false] metre second in prof_ok p /\ prof_clean p /\ spaced (px p) 1 /\ 2 <= length (px p).
Proof. cbv zeta. split; [repeat split; nondec2|]. split; [all_in|]. split; [intros i Hi; cbn in Hi; repeat (destruct i as [|i]; [qc|]); lia|cbn; lia]. Qed.
