(** * PodProofs3: additivity of the reconstruction, failures, energy of the modes *)
From Coq Require Import Sorted Permutation Lia.
From Verif Require Import Num Res ListLib SortLib Arr FieldModel ScalarFieldModel VectorFieldModel ProfileModel FieldSpec SeqSpec
  ProfileSpec ProfileProofs ProfileProofs2 PointsModel PointsSpec FieldProofs2 TemporalModel TemporalSpec TemporalProofs2 TemporalProofs10 GradModel GradSpec PodModel PodSpec PodProofs PodProofs2.

Lemma numbers_app l l' : numbers (l ++ l') = match numbers l, numbers l' with Some a, Some b => Some (a ++ b) | _, _ => None end.
Proof.
  induction l as [|[[a|] [b|]] l IH]; cbn [app numbers]; [destruct (numbers l'); reflexivity| |reflexivity|reflexivity|reflexivity].
  rewrite IH. destruct (numbers l), (numbers l'); reflexivity.
Qed.
Lemma total_app' l l' : total (l ++ l') = (total l + total l')%num.
Proof. unfold total. induction l as [|a l IH]; cbn [fold_right app]; [qring|]. rewrite IH. qring. Qed.
Lemma combination_app m l l' : adds_up (combination m l) (combination m l') m (combination m (l ++ l')).
Proof.
  unfold combination. rewrite numbers_app. destruct m as [m|]; [|reflexivity].
  destruct (numbers l) as [a|]; [|reflexivity]. destruct (numbers l') as [b|]; [|reflexivity]. cbn. f_equal. rewrite map_app, total_app'. qring.
Qed.
Lemma combination_app_nan m l l' : isnan (combination m (l ++ l')) = (isnan (combination m l) || isnan (combination m l'))%bool.
Proof.
  unfold combination. rewrite numbers_app. destruct m as [m|]; [|reflexivity].
  destruct (numbers l) as [a|]; [|destruct (numbers l'); reflexivity]. destruct (numbers l') as [b|]; reflexivity.
Qed.
Lemma taken_app {A} p p' (w a b : list A) : taken p w a -> taken p' w b -> taken (p ++ p') w (a ++ b).
Proof. apply Forall2_app. Qed.
Lemma evos_fun (mf_evo : list profile) t evos c c' : (forall p, In p evos -> increasing (px p)) -> Forall2 (fun p c => evo_at p t c) evos c -> Forall2 (fun p c => evo_at p t c) evos c' -> c = c'.
Proof.
  intros I H. revert c'. induction H as [|p a evos c H F IH]; intros c' H'; inversion H'; subst; [reflexivity|]. f_equal.
  - eapply evo_at_fun; eauto. apply I. now left.
  - apply IH; [intros; apply I; now right|assumption].
Qed.
Lemma combine_app' {A B} (a a' : list A) (b b' : list B) : length a = length b -> combine (a ++ a') (b ++ b') = combine a b ++ combine a' b'.
Proof. revert b. induction a as [|x a IH]; intros [|y b] L; try discriminate L; [reflexivity|]. cbn. f_equal. apply IH. now injection L. Qed.
Lemma sf_frames_add mf m0 A B t fa fb f : (forall p, In p (mf_evo mf) -> increasing (px p)) ->
  sf_frame mf m0 A t fa -> sf_frame mf m0 B t fb -> sf_frame mf m0 (A ++ B) t f ->
  forall i j, i < length (ax (mf_g mf)) -> j < length (ay (mf_g mf)) ->
    at_ (msk f) i j = (at_ (msk fa) i j || at_ (msk fb) i j)%bool /\
    adds_up (at_ (values fa) i j) (at_ (values fb) i j) (at_ (values (mf_mean mf)) i j) (at_ (values f) i j).
Proof.
  intros I (_ & _ & _ & ma & ea & ca & Ma & Ea & Ca & Va) (_ & _ & _ & mb & eb & cb & Mb & Eb & Cb & Vb) (_ & _ & _ & m & e & c & Mm & Em & Cm & Vm) i j Hi Hj.
  pose proof (taken_fun _ _ _ _ Mm (taken_app _ _ _ _ _ Ma Mb)) as ->. pose proof (taken_fun _ _ _ _ Em (taken_app _ _ _ _ _ Ea Eb)) as ->.
  assert (c = ca ++ cb) as ->.
  { eapply evos_fun; [exact (mf_evo mf)| |exact Cm|now apply Forall2_app]. intros p Ip. apply I. eapply taken_incl; [exact Em|exact Ip]. }
  destruct (Va i j Hi Hj) as (-> & ->). destruct (Vb i j Hi Hj) as (-> & ->). destruct (Vm i j Hi Hj) as (-> & ->).
  rewrite map_app, combine_app'.
  2:{ rewrite map_length, (taken_length _ _ _ Ma), <- (taken_length _ _ _ Ea). now apply Forall2_len in Ca. }
  rewrite combination_app_nan. split; [destruct (at_ (msk m0) i j); cbn; [reflexivity|reflexivity]|].
  destruct (at_ (msk m0) i j); [reflexivity|]. apply combination_app.
Qed.
Lemma vf_frames_add mf m0 A B t fa fb f : (forall p, In p (mf_evo mf) -> increasing (px p)) ->
  vf_frame mf m0 A t fa -> vf_frame mf m0 B t fb -> vf_frame mf m0 (A ++ B) t f ->
  forall i j, i < length (ax (mf_g mf)) -> j < length (ay (mf_g mf)) ->
    at_ (vmsk f) i j = (at_ (vmsk fa) i j || at_ (vmsk fb) i j)%bool /\
    (at_ (vmsk f) i j = false ->
     adds_up (at_ (cx fa) i j) (at_ (cx fb) i j) (at_ (cx (mf_mean mf)) i j) (at_ (cx f) i j) /\
     adds_up (at_ (cy fa) i j) (at_ (cy fb) i j) (at_ (cy (mf_mean mf)) i j) (at_ (cy f) i j)).
Proof.
  intros I (_ & _ & _ & ma & ea & ca & Ma & Ea & Ca & Va) (_ & _ & _ & mb & eb & cb & Mb & Eb & Cb & Vb) (_ & _ & _ & m & e & c & Mm & Em & Cm & Vm) i j Hi Hj.
  pose proof (taken_fun _ _ _ _ Mm (taken_app _ _ _ _ _ Ma Mb)) as ->. pose proof (taken_fun _ _ _ _ Em (taken_app _ _ _ _ _ Ea Eb)) as ->.
  assert (c = ca ++ cb) as ->.
  { eapply evos_fun; [exact (mf_evo mf)| |exact Cm|now apply Forall2_app]. intros p Ip. apply I. eapply taken_incl; [exact Em|exact Ip]. }
  assert (L : length ma = length ca). { rewrite (taken_length _ _ _ Ma), <- (taken_length _ _ _ Ea). now apply Forall2_len in Ca. }
  destruct (Va i j Hi Hj) as (-> & -> & ->). destruct (Vb i j Hi Hj) as (-> & -> & ->). destruct (Vm i j Hi Hj) as (-> & -> & ->).
  rewrite !map_app, !combine_app' by (rewrite map_length; exact L). rewrite !combination_app_nan.
  set (xa := combination _ _). set (ya := combination _ (combine _ ca)). set (xb := combination _ (combine _ cb)). set (yb := combination _ (combine _ cb)).
  split; [destruct (at_ (vmsk m0) i j), (isnan xa), (isnan ya), (isnan xb), (isnan yb); reflexivity|].
  destruct (at_ (vmsk m0) i j); [discriminate|]. destruct (isnan xa) eqn:E1; [discriminate|]. destruct (isnan xb) eqn:E2; [discriminate|].
  destruct (isnan ya) eqn:E3; [discriminate|]. destruct (isnan yb) eqn:E4; [discriminate|]. cbn [orb]. intros _. split; apply combination_app.
Qed.
Lemma forall2_at {A B} (R : A -> B -> Prop) l m k b : Forall2 R l m -> nth_error m k = Some b -> exists a, nth_error l k = Some a /\ R a b.
Proof.
  intro H. revert k. induction H as [|x y l m H F IH]; intros [|k] E; try discriminate E; cbn in *; [injection E as <-; eauto|now apply IH].
Qed.
Lemma sf_additive_lemma asort (mf : mfield sfield) wa wb w A B ts : is_argsort asort -> base_core mf -> sf_base_ok mf ->
  selects (length (mf_modes mf)) wa A -> selects (length (mf_modes mf)) wb B -> selects (length (mf_modes mf)) w (A ++ B) -> times_in mf ts -> increasing ts ->
  exists ta tb t, reconstruct sf_mops asort mf wa (Some ts) = Ok ta /\ reconstruct sf_mops asort mf wb (Some ts) = Ok tb /\ reconstruct sf_mops asort mf w (Some ts) = Ok t /\
    tft ta = ts /\ tft tb = ts /\ tft t = ts /\
    forall k fa fb f, nth_error (tff ta) k = Some fa -> nth_error (tff tb) k = Some fb -> nth_error (tff t) k = Some f ->
    forall i j, i < length (ax (mf_g mf)) -> j < length (ay (mf_g mf)) ->
      at_ (msk f) i j = (at_ (msk fa) i j || at_ (msk fb) i j)%bool /\
      adds_up (at_ (values fa) i j) (at_ (values fb) i j) (at_ (values (mf_mean mf)) i j) (at_ (values f) i j).
Proof.
  intros AS BO SO Sa Sb Sw TI IT.
  destruct (sf_reconstruct_lemma asort mf wa A ts AS BO SO Sa TI) as (m0 & ta & fsa & E0 & Ea & _ & _ & Fa & (_ & _ & _ & Ha)).
  destruct (sf_reconstruct_lemma asort mf wb B ts AS BO SO Sb TI) as (m0' & tb & fsb & E0' & Eb & _ & _ & Fb & (_ & _ & _ & Hb)).
  destruct (sf_reconstruct_lemma asort mf w (A ++ B) ts AS BO SO Sw TI) as (m0'' & t & fs & E0'' & E & _ & _ & F & (_ & _ & _ & H)).
  rewrite E0 in E0', E0''. injection E0' as <-. injection E0'' as <-.
  exists ta, tb, t. destruct (Ha IT) as (Ta & <-). destruct (Hb IT) as (Tb & <-). destruct (H IT) as (T & <-). repeat (split; [assumption|]).
  intros k fa fb f Ka Kb K i j Hi Hj. destruct (forall2_at _ _ _ _ _ Fa Ka) as (x & X & Pa). destruct (forall2_at _ _ _ _ _ Fb Kb) as (x' & X' & Pb). destruct (forall2_at _ _ _ _ _ F K) as (x'' & X'' & P).
  rewrite X in X', X''. injection X' as <-. injection X'' as <-.
  eapply sf_frames_add; eauto. intros p Ip. destruct BO as (_ & _ & _ & _ & I & _ & PO). destruct (PO p Ip) as (_ & ->). exact I.
Qed.
Lemma vf_additive_lemma asort (mf : mfield vfield) wa wb w A B ts : is_argsort asort -> base_core mf -> vf_base_ok mf ->
  selects (length (mf_modes mf)) wa A -> selects (length (mf_modes mf)) wb B -> selects (length (mf_modes mf)) w (A ++ B) -> times_in mf ts -> increasing ts ->
  exists ta tb t, reconstruct vf_mops asort mf wa (Some ts) = Ok ta /\ reconstruct vf_mops asort mf wb (Some ts) = Ok tb /\ reconstruct vf_mops asort mf w (Some ts) = Ok t /\
    tft ta = ts /\ tft tb = ts /\ tft t = ts /\
    forall k fa fb f, nth_error (tff ta) k = Some fa -> nth_error (tff tb) k = Some fb -> nth_error (tff t) k = Some f ->
    forall i j, i < length (ax (mf_g mf)) -> j < length (ay (mf_g mf)) ->
      at_ (vmsk f) i j = (at_ (vmsk fa) i j || at_ (vmsk fb) i j)%bool /\
      (at_ (vmsk f) i j = false ->
       adds_up (at_ (cx fa) i j) (at_ (cx fb) i j) (at_ (cx (mf_mean mf)) i j) (at_ (cx f) i j) /\
       adds_up (at_ (cy fa) i j) (at_ (cy fb) i j) (at_ (cy (mf_mean mf)) i j) (at_ (cy f) i j)).
Proof.
  intros AS BO SO Sa Sb Sw TI IT.
  destruct (vf_reconstruct_lemma asort mf wa A ts AS BO SO Sa TI) as (m0 & ta & fsa & E0 & Ea & _ & _ & Fa & (_ & _ & _ & Ha)).
  destruct (vf_reconstruct_lemma asort mf wb B ts AS BO SO Sb TI) as (m0' & tb & fsb & E0' & Eb & _ & _ & Fb & (_ & _ & _ & Hb)).
  destruct (vf_reconstruct_lemma asort mf w (A ++ B) ts AS BO SO Sw TI) as (m0'' & t & fs & E0'' & E & _ & _ & F & (_ & _ & _ & H)).
  rewrite E0 in E0', E0''. injection E0' as <-. injection E0'' as <-.
  exists ta, tb, t. destruct (Ha IT) as (Ta & <-). destruct (Hb IT) as (Tb & <-). destruct (H IT) as (T & <-). repeat (split; [assumption|]).
  intros k fa fb f Ka Kb K i j Hi Hj. destruct (forall2_at _ _ _ _ _ Fa Ka) as (x & X & Pa). destruct (forall2_at _ _ _ _ _ Fb Kb) as (x' & X' & Pb). destruct (forall2_at _ _ _ _ _ F K) as (x'' & X'' & P).
  rewrite X in X', X''. injection X' as <-. injection X'' as <-.
  eapply vf_frames_add; eauto. intros p Ip. destruct BO as (_ & _ & _ & _ & I & _ & PO). destruct (PO p Ip) as (_ & ->). exact I.
Qed.
(** without times: at the times of the base *)
Lemma reconstruct_default {F} (M : mops F) asort mf w : reconstruct M asort mf w None = reconstruct M asort mf w (Some (mf_times mf)).
Proof. reflexivity. Qed.
(** ** failures *)
Lemma reconstruct_outside {F} (M : mops F) asort (mf : mfield F) w places ts : mf_kind mf <> Dmd -> increasing (mf_times mf) -> mf_times mf <> [] ->
  selects (length (mf_modes mf)) w places ->
  (exists t, In t ts /\ ((t < nths (mf_times mf) 0)%num \/ (last (mf_times mf) (qz 0) < t)%num)) -> reconstruct M asort mf w (Some ts) = Err ValueErr.
Proof.
  intros K I NE SEL (t & It & C). destruct (wanted_ok mf w places SEL) as (ws & EW & _). unfold reconstruct. rewrite EW. cbn [bind].
  assert (P : 0 < length (mf_times mf)) by (destruct (mf_times mf); [congruence|cbn; lia]).
  assert (NT : ts <> []) by (destruct ts; [destruct It|discriminate]).
  assert (G : (qltb (lmax (mf_times mf)) (lmax ts) || qltb (lmin ts) (lmin (mf_times mf)))%bool = true).
  { apply orb_true_iff. destruct C as [C|C]; [right|left]; apply qltb_lt.
    - destruct (qltb_spec (lmin ts) (lmin (mf_times mf))) as [Q|Q]; [exact Q|]. exfalso.
      pose proof (lmin_in _ NE) as L. apply In_nth with (d := qz 0) in L. destruct L as (k & Hk & Ek).
      assert ((nths (mf_times mf) 0 <= lmin (mf_times mf))%num) by (rewrite <- Ek; destruct k; [apply Qcle_refl|apply Qclt_le_weak; apply I; lia]).
      assert ((lmin ts <= t)%num) by (destruct (qltb_spec t (lmin ts)) as [Q'|Q']; [pose proof (lmin_spec _ _ NT Q' t It); exfalso; qlra|exact Q']). qlra.
    - destruct (qltb_spec (lmax (mf_times mf)) (lmax ts)) as [Q|Q]; [exact Q|]. exfalso. rewrite (last_nths _ NE) in C.
      pose proof (lmax_in _ NE) as L. apply In_nth with (d := qz 0) in L. destruct L as (k & Hk & Ek).
      assert ((lmax (mf_times mf) <= nths (mf_times mf) (length (mf_times mf) - 1))%num).
      { rewrite <- Ek. destruct (Nat.eq_dec k (length (mf_times mf) - 1)) as [-> |]; [apply Qcle_refl|apply Qclt_le_weak; apply I; lia]. }
      assert ((t <= lmax ts)%num) by (destruct (qltb_spec (lmax ts) t) as [Q'|Q']; [pose proof (lmax_spec _ _ Q' t It); exfalso; qlra|exact Q']). qlra. }
  rewrite G. destruct (mf_kind mf); [| |congruence]; (destruct ts; [congruence|]); (destruct (mf_times mf); [congruence|reflexivity]).
Qed.
Lemma reconstruct_bad_mode {F} (M : mops F) asort (mf : mfield F) l ts : (exists i, In i l /\ ~ index_ok (length (mf_modes mf)) i) ->
  exists e, reconstruct M asort mf (WArr l) ts = Err e.
Proof.
  intros (i & Ii & NI). unfold reconstruct. destruct (wanted mf (WArr l)) as [ws|e] eqn:EW; [|eexists; reflexivity]. cbn [bind].
  assert (ws = l) as ->. { cbn [wanted] in EW. destruct l; [discriminate|]. destruct (Z.ltb _ _); [discriminate|]. now injection EW. }
  assert (B : exists e, mapM (mode_term M mf (match ts with None => mf_times mf | Some x => x end)) l = Err e).
  { destruct (mapM (mode_term M mf _) l) as [r|e] eqn:E; [|eauto]. exfalso. apply mapM_forall2 in E. clear -E Ii NI. induction E as [|a b l r H E IH]; [destruct Ii|].
    destruct Ii as [-> | Ii]; [|now apply IH]. unfold mode_term, py_get in H.
    destruct (((0 <=? (if (i <? 0)%Z then (i + Z.of_nat (length (mf_modes mf)))%Z else i)) && ((if (i <? 0)%Z then (i + Z.of_nat (length (mf_modes mf)))%Z else i) <? Z.of_nat (length (mf_modes mf))))%Z%bool) eqn:C; [|discriminate H].
    apply NI. apply andb_true_iff in C. destruct C as (C1 & C2). apply Z.leb_le in C1. apply Z.ltb_lt in C2. unfold index_ok. destruct (Z.ltb_spec i 0); lia. }
  destruct B as (e & EB). cbn zeta. destruct (mf_kind mf); [| |eexists; reflexivity];
    (destruct (match (match ts with None => mf_times mf | Some x => x end), mf_times mf with [], _ => true | _, [] => true | _, _ => false end); cbn [guard]; [eexists; reflexivity|];
     match goal with |- context [guard ?b] => destruct b; cbn [guard]; [eexists; reflexivity|] end;
     destruct (py_get (mf_modes mf) 0); cbn [bind]; [|eexists; reflexivity]; rewrite EB; eexists; reflexivity).
Qed.
