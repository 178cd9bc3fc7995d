(** * Series2Proofs5: filling in time and injected profiles (C147, C148). *)
From Coq Require Import Lia ZArith Permutation.
From Verif Require Import Num Res ListLib SortLib Arr FieldModel ScalarFieldModel VectorFieldModel FieldSpec ProfileModel ProfileSpec ProfileProofs Prof2Model Prof2Spec Prof2Proofs4
  AsciiModel TemporalModel TemporalSpec TemporalProofs TemporalProofs2 TemporalProofs11 CritProofs2 AsciiProofs AsciiProofs4 PodModel PodProofs GradProofs Series2Model Series2Spec Series2Proofs Series2Proofs2 Series2Proofs4.

(** ** the profile of a cell *)
Definition cell_mask {F} (ops : fops F) (comp : F -> arr onum) (i j : nat) (f : F) : bool := (at_ (o_mask ops f) i j || isnan (at_ (comp f) i j))%bool.
Definition cell_seen {F} (ops : fops F) (comp : F -> arr onum) (i j : nat) (f : F) : onum := if at_ (o_mask ops f) i j then None else at_ (comp f) i j.
Definition seen_points {F} (ops : fops F) (comp : F -> arr onum) (t : tfield F) (i j : nat) : list (num * num) :=
  flat_map (fun s => match cell_seen ops comp i j (snd s) with Some v => [(fst s, v)] | None => [] end) (frames t).
Lemma combine_repeat_r {A B} (l : list A) (c : B) n : length l <= n -> combine l (repeat c n) = map (fun s => (s, c)) l.
Proof. revert n; induction l as [|a l IH]; intros n H; [reflexivity|]. destruct n as [|n]; [cbn in H; lia|]. cbn. f_equal. apply IH. cbn in H. lia. Qed.
Lemma nths_seq (l : list num) : map (fun k => nths l k) (seq 0 (length l)) = l.
Proof.
  apply AsciiProofs4.nth_error_ext'. intro i. rewrite nth_error_map. destruct (Nat.lt_ge_cases i (length l)) as [H|H].
  - rewrite AsciiProofs4.nth_error_seq' by exact H. cbn. symmetry. now apply nths_nth_error.
  - rewrite !(proj2 (nth_error_None _ _)); [reflexivity|exact H|now rewrite seq_length].
Qed.
Lemma snd_frames {F} (t : tfield F) : length (tft t) = length (tff t) -> map snd (frames t) = tff t.
Proof. intro L. apply CritProofs2.combine_map_snd. exact L. Qed.
Lemma cell_profile_lemma {F} (ops : fops F) comp u t i j : i < length (ax (tfg t)) -> j < length (ay (tfg t)) -> tf_ok t ->
  exists p, cell_profile ops comp u t i j = Ok p /\ prof_ok p /\ pux p = tfu t /\ puy p = u /\ px p = tft t /\ pm p = map (cell_mask ops comp i j) (tff t) /\
    yv p = map (cell_seen ops comp i j) (tff t) /\ valid_pts p = seen_points ops comp t i j.
Proof.
  intros Hi Hj [L ND]. unfold cell_profile. replace (negb _) with false by (symmetry; apply negb_false_iff, andb_true_iff; rewrite !Nat.ltb_lt; auto). cbn [guard].
  assert (LF : length (frames t) = length (tft t)) by (unfold frames; rewrite combine_length; lia).
  rewrite (time_samples_lemma ops comp t (frames t)); [|rewrite <- LF; apply Forall2_nth_seq|now rewrite seq_length, repeat_length]. cbn [bind].
  rewrite combine_repeat_r by lia. rewrite !map_map. cbn [fst snd].
  assert (EX : map (fun k => nths (tft t) k) (seq 0 (length (tft t))) = tft t) by (apply nths_seq). rewrite EX.
  destruct (new_lemma (tft t) (map (fun s => at_ (comp (snd s)) i j) (frames t)) (Some (map (fun s => at_ (o_mask ops (snd s)) i j) (frames t))) (tfu t) u) as (p & E & O & Eu & Ew & _ & Sp);
    [now rewrite map_length|now rewrite map_length|]. cbv beta iota in Sp. destruct (Sp ND) as [EXp ES]. clear Sp. exists p. split; [exact E|]. split; [exact O|]. split; [exact Eu|]. split; [exact Ew|]. split; [exact EXp|].
  destruct (ok_lengths p O) as (Ly & Lm & _).
  assert (Z : zip3 (tft t) (map (fun s => at_ (comp (snd s)) i j) (frames t)) (map (fun s => at_ (o_mask ops (snd s)) i j) (frames t)) =
              map (fun s => (fst s, at_ (comp (snd s)) i j, at_ (o_mask ops (snd s)) i j)) (frames t)).
  { unfold zip3. assert (X : tft t = map fst (frames t)) by (symmetry; apply CritProofs2.combine_map_fst; exact L). rewrite X at 1. now rewrite !AsciiProofs.combine_map2. }
  rewrite Z, map_map in ES. unfold sx, sy, smask in ES. cbn [fst snd] in ES.
  assert (EM : pm p = map snd (samples p)) by (unfold samples, zip3; symmetry; apply CritProofs2.combine_map_snd; rewrite combine_length; lia).
  assert (EY : yv p = map (fun s => snd (fst s)) (samples p)).
  { rewrite <- (map_map fst snd). unfold samples, zip3. rewrite CritProofs2.combine_map_fst by (rewrite combine_length; lia). symmetry. apply CritProofs2.combine_map_snd. lia. }
  split; [|split].
  - rewrite EM, ES, map_map. cbn [snd]. rewrite <- (snd_frames t L), map_map. reflexivity.
  - rewrite EY, ES, map_map. cbn [fst snd]. rewrite <- (snd_frames t L), map_map. reflexivity.
  - unfold valid_pts. change (combine (combine (px p) (yv p)) (pm p)) with (samples p). rewrite ES. unfold seen_points, cell_seen. clear.
    induction (frames t) as [|s l IH]; [reflexivity|]. cbn [map flat_map]. rewrite IH. f_equal. destruct (at_ (o_mask ops (snd s)) i j), (at_ (comp (snd s)) i j); reflexivity.
Qed.

(** ** one cell *)
Lemma seen_cell comp t i j : seen_points vf_ops comp t i j = cell_points comp t i j.
Proof.
  unfold seen_points, cell_points, cell_seen. cbn [o_mask vf_ops]. induction (frames t) as [|s l IH]; [reflexivity|]. cbn [flat_map]. rewrite IH. f_equal.
  now destruct (at_ (vmsk (snd s)) i j).
Qed.
Definition clean_cell (t : tfield vfield) (i j : nat) : Prop := forall f, In f (tff t) -> (at_ (cx f) i j = None <-> at_ (vmsk f) i j = true) /\ (at_ (cy f) i j = None <-> at_ (vmsk f) i j = true).
Lemma points_fst t i j : clean_cell t i j -> map fst (cell_points cx t i j) = map fst (cell_points cy t i j).
Proof.
  unfold clean_cell, cell_points, frames. intro C. revert C. generalize (tff t) as l, (tft t) as x. induction l as [|f l IH]; intros [|a x] C; try reflexivity.
  cbn [combine flat_map fst snd]. rewrite !map_app, (IH x) by (intros g I; apply C; now right). f_equal. destruct (C f (or_introl eq_refl)) as [CX CY].
  destruct (at_ (vmsk f) i j); [reflexivity|]. destruct (at_ (cx f) i j); [|now assert (X := proj1 CX eq_refl)]. destruct (at_ (cy f) i j); [reflexivity|now assert (X := proj1 CY eq_refl)].
Qed.
Lemma points_times comp t i j x : In x (map fst (cell_points comp t i j)) -> In x (tft t).
Proof.
  unfold cell_points, frames. generalize (tff t) as l, (tft t) as ts. induction l as [|f l IH]; intros [|a ts] I; cbn [combine flat_map map] in I; try contradiction.
  rewrite map_app, in_app_iff in I. cbn [fst snd] in I. destruct I as [I|I]; [|right; now apply IH].
  destruct (at_ (vmsk f) i j); [contradiction|]. destruct (at_ (comp f) i j); [|contradiction]. cbn in I. destruct I as [<-|[]]. now left.
Qed.
Lemma points_incr comp t i j : increasing (tft t) -> increasing (map fst (cell_points comp t i j)).
Proof.
  unfold cell_points, frames. generalize (tff t) as l. generalize (tft t) as ts. induction ts as [|a ts IH]; intros [|f l] I; try (intros p q H1 H2; cbn in H2; lia).
  assert (I' : increasing ts /\ forall y, In y ts -> (a < y)%num) by (now apply AsciiProofs.increasing_cons_iff in I).
  cbn [combine flat_map fst snd]. rewrite map_app. destruct I' as [I1 I2]. specialize (IH l I1).
  destruct (at_ (vmsk f) i j); [exact IH|]. destruct (at_ (comp f) i j); [|exact IH]. cbn [map fst app]. apply AsciiProofs.increasing_cons_iff. split; [exact IH|].
  intros y Iy. apply I2. apply (points_times comp (mktf (tfg t) l false ts (tfu t)) i j). exact Iy.
Qed.
Lemma between_range x l : increasing (map fst l) -> l <> [] -> (between x l <-> in_range (map fst l) x = true).
Proof.
  intros I N. unfold in_range. rewrite andb_true_iff, !qleb_le. split.
  - intros (a & b & Ia & Ib & A & B). apply (in_map fst) in Ia, Ib. destruct (In_nth _ _ (qz 0) Ia) as (p & Lp & Ep). destruct (In_nth _ _ (qz 0) Ib) as (q & Lq & Eq).
    assert (ND := increasing_nondecreasing _ I). rewrite last_nths by (intro Z; destruct l; [congruence|discriminate]). split.
    + apply (qle_trans _ (fst a)); [|exact A]. rewrite <- Ep. apply ND; lia.
    + apply (qle_trans _ (fst b)); [exact B|]. rewrite <- Eq. apply ND; lia.
  - intros [A B]. destruct l as [|s l]; [congruence|]. cbn [map] in *. exists s, (last (s :: l) s). split; [now left|].
    assert (EL : last (fst s :: map fst l) (qz 0) = fst (last (s :: l) s)).
    { clear. revert s. induction l as [|b l IH]; intro s; [reflexivity|]. change (last (fst b :: map fst l) (qz 0) = fst (last (b :: l) s)). rewrite IH. f_equal.
      clear. generalize b at 2. revert b s. induction l as [|c l IH]; intros b s d; [reflexivity|]. exact (IH c s d). }
    split.
    { clear. generalize s at 2. revert s. induction l as [|b l IH]; intros s d; [now left|]. right. exact (IH b d). }
    rewrite <- EL. auto.
Qed.
Lemma put_all_nth put p g i j fs k : length (px p) = length fs -> length (pm p) = length fs ->
  nth_error (put_all put p g i j fs) k = match nth_error fs k, nth_error (px p) k, nth_error (pm p) k with
    | Some f, Some x, Some b => Some (if b : bool then match g x with Some v => put f i j v | None => f end else f) | _, _, _ => None end.
Proof.
  intros L1 L2. unfold put_all. rewrite nth_error_map. revert k L1 L2. generalize (px p) as xs, (pm p) as ms. induction fs as [|f fs IH]; intros [|x xs] [|b ms] [|k] L1 L2; cbn in *; try reflexivity; try discriminate.
  apply IH; lia.
Qed.
Definition same_elsewhere (i j : nat) (f f' : vfield) : Prop := vg f' = vg f /\ vuv f' = vuv f /\ (vf_wf f -> vf_wf f') /\ forall a b, (a, b) <> (i, j) -> cell_kept f f' a b.
Lemma aput_here {A} (a : arr A) i j v : at_ (aput a i j v) i j = v.
Proof. cbn. now rewrite !Nat.eqb_refl. Qed.
Lemma aput_there {A} (a : arr A) i j v p q : (p, q) <> (i, j) -> at_ (aput a i j v) p q = at_ a p q.
Proof. intro N. cbn. destruct (Nat.eqb_spec p i) as [->|]; [|reflexivity]. destruct (Nat.eqb_spec q j) as [->|]; [congruence|reflexivity]. Qed.

Lemma fill_cell_lemma t i j : i < length (ax (tfg t)) -> j < length (ay (tfg t)) -> length (tft t) = length (tff t) -> increasing (tft t) -> clean_cell t i j -> 2 <= length (cell_points cx t i j) ->
  exists t', fill_cell TLinear t (i, j) = Ok t' /\ tfg t' = tfg t /\ tft t' = tft t /\ tfu t' = tfu t /\ length (tff t') = length (tff t) /\
    forall k f x, nth_error (tff t) k = Some f -> nth_error (tft t) k = Some x -> exists f', nth_error (tff t') k = Some f' /\ same_elsewhere i j f f' /\
      (at_ (vmsk f) i j = false -> cell_kept f f' i j) /\
      (at_ (vmsk f) i j = true -> between x (cell_points cx t i j) -> at_ (vmsk f') i j = false /\ exists vx vy, at_ (cx f') i j = Some vx /\ at_ (cy f') i j = Some vy /\
         on_polyline (cell_points cx t i j) x vx /\ on_polyline (cell_points cy t i j) x vy) /\
      (at_ (vmsk f) i j = true -> ~ between x (cell_points cx t i j) -> cell_kept f f' i j).
Proof.
  intros Hi Hj L I C N. assert (O : tf_ok t) by (split; [exact L|now apply increasing_nondecreasing]).
  destruct (cell_profile_lemma vf_ops cx one_unit t i j Hi Hj O) as (p & Ep & _ & _ & _ & Xp & Mp & _ & Vp).
  destruct (cell_profile_lemma vf_ops cy one_unit t i j Hi Hj O) as (q & Eq & _ & _ & _ & Xq & Mq & _ & Vq).
  rewrite seen_cell in Vp, Vq. assert (FX := points_fst t i j C). assert (N2 : 2 <= length (cell_points cy t i j)) by (rewrite <- (map_length fst), <- FX, map_length; exact N).
  unfold fill_cell. rewrite Ep. cbn [bind]. rewrite Eq. cbn [bind]. unfold time_interp. rewrite Vp, Vq.
  destruct (Nat.ltb_spec (length (cell_points cx t i j)) 2); [lia|]. destruct (Nat.ltb_spec (length (cell_points cy t i j)) 2); [lia|]. cbn [guard bind].
  set (P := cell_points cx t i j) in *. set (Q := cell_points cy t i j) in *.
  set (g := fun x => if in_range (map fst P) x then Some (interp1d (map fst P) (map snd P) x) else None).
  set (h := fun x => if in_range (map fst Q) x then Some (interp1d (map fst Q) (map snd Q) x) else None).
  eexists. split; [reflexivity|]. cbn [tfg tft tfu tff]. do 3 (split; [reflexivity|]).
  assert (L1 : length (put_all put_x p g i j (tff t)) = length (tff t)) by (unfold put_all; rewrite map_length, !combine_length, Xp, Mp, map_length; lia).
  split; [unfold put_all at 1; rewrite map_length, !combine_length, L1, Xq, Mq, map_length; lia|].
  intros k f x Ef Ex. rewrite put_all_nth by (rewrite ?Xq, ?Mq, ?map_length, L1; lia). rewrite put_all_nth by (rewrite ?Xp, ?Mp, ?map_length; lia).
  rewrite Xp, Xq, Mp, Mq, !nth_error_map, Ef, Ex. cbn [option_map]. unfold cell_mask. cbn [o_mask vf_ops].
  destruct (C f (nth_error_In _ _ Ef)) as [CX CY].
  assert (MX : (at_ (vmsk f) i j || isnan (at_ (cx f) i j))%bool = at_ (vmsk f) i j).
  { destruct (at_ (cx f) i j); [now rewrite orb_false_r|]. cbn [isnan]. rewrite orb_true_r. symmetry. now apply CX. }
  assert (MY : (at_ (vmsk f) i j || isnan (at_ (cy f) i j))%bool = at_ (vmsk f) i j).
  { destruct (at_ (cy f) i j); [now rewrite orb_false_r|]. cbn [isnan]. rewrite orb_true_r. symmetry. now apply CY. }
  rewrite MX, MY. eexists. split; [reflexivity|].
  assert (BP := between_range x P (points_incr cx t i j I) ltac:(intro Z; rewrite Z in N; cbn in N; lia)).
  assert (Self : same_elsewhere i j f f) by (split; [reflexivity|split; [reflexivity|split; [auto|intros; repeat split]]]).
  destruct (at_ (vmsk f) i j) eqn:Mf.
  - unfold g, h. rewrite <- FX. destruct (in_range (map fst P) x) eqn:R.
    + split; [|split; [discriminate|split; [|intros _ NB; exfalso; apply NB, BP; reflexivity]]].
      * split; [reflexivity|]. split; [reflexivity|]. split.
        -- intros (A & B & D). repeat split; cbn; try apply A; try apply B; try apply D.
        -- intros a b Nab. unfold put_y, put_x, cell_kept. cbn [cx cy vmsk]. rewrite !aput_there by exact Nab. auto.
      * intros _ _. unfold put_y, put_x. cbn [cx cy vmsk]. rewrite !aput_here. split; [reflexivity|]. do 2 eexists. split; [reflexivity|]. split; [reflexivity|].
        unfold in_range in R. apply andb_true_iff in R. rewrite !qleb_le in R. split; [apply interp_polyline; auto; apply points_incr; exact I|].
        rewrite FX in *. apply interp_polyline; auto; apply points_incr; exact I.
    + split; [exact Self|]. split; [discriminate|]. split; [|intros; repeat split]. intros _ B. apply BP in B. discriminate.
  - split; [exact Self|]. split; [intros; repeat split|]. split; discriminate.
Qed.

(** ** all the cells *)
Lemma forall2_nth {A B} (R : A -> B -> Prop) l l' : length l' = length l -> (forall k a, nth_error l k = Some a -> exists b, nth_error l' k = Some b /\ R a b) -> Forall2 R l l'.
Proof.
  revert l'; induction l as [|a l IH]; intros [|b l'] L H; cbn in L; try discriminate; constructor.
  - destruct (H 0 a eq_refl) as (b' & [= <-] & Q). exact Q.
  - apply IH; [lia|]. intros k x E. exact (H (S k) x E).
Qed.
Lemma points_kept comp t t' i j : comp = cx \/ comp = cy -> tft t' = tft t -> Forall2 (fun f f' => cell_kept f f' i j) (tff t) (tff t') -> cell_points comp t' i j = cell_points comp t i j.
Proof.
  intros Hc E F. unfold cell_points, frames. rewrite E. generalize (tft t) as ts. induction F as [|f f' l l' (A & B & C) F IH]; intros [|a ts]; try reflexivity.
  cbn [combine flat_map fst snd]. rewrite IH, C. f_equal. destruct Hc as [-> | ->]; now rewrite ?A, ?B.
Qed.
Lemma clean_kept t t' i j : clean_cell t i j -> Forall2 (fun f f' => cell_kept f f' i j) (tff t) (tff t') -> clean_cell t' i j.
Proof.
  unfold clean_cell. intros C F. induction F as [|f f' l l' (A & B & D) F IH]; intros g I; [contradiction|]. destruct I as [<-|I].
  - rewrite A, B, D. apply C. now left.
  - apply IH; [intros x J; apply C; now right|exact I].
Qed.
Definition progress (t0 t : tfield vfield) (dn : list (nat * nat)) : Prop :=
  tfg t = tfg t0 /\ tft t = tft t0 /\ tfu t = tfu t0 /\ length (tff t) = length (tff t0) /\
  forall k f0 x, nth_error (tff t0) k = Some f0 -> nth_error (tft t0) k = Some x -> exists f, nth_error (tff t) k = Some f /\ vg f = vg f0 /\ vuv f = vuv f0 /\ (vf_wf f0 -> vf_wf f) /\
    forall a b, (In (a, b) dn -> filled_in_time t0 x a b f0 f) /\ (~ In (a, b) dn -> cell_kept f0 f a b).
Lemma cells_loop t0 : length (tft t0) = length (tff t0) -> increasing (tft t0) -> forall l dn t, NoDup l -> (forall c, In c l -> ~ In c dn) ->
  (forall c, In c l -> fst c < length (ax (tfg t0)) /\ snd c < length (ay (tfg t0)) /\ clean_cell t0 (fst c) (snd c) /\ 3 <= length (cell_points cx t0 (fst c) (snd c))) ->
  progress t0 t dn -> exists t', fill_cells TLinear t l = Ok t' /\ progress t0 t' (l ++ dn).
Proof.
  intros L0 I0. induction l as [|[i j] l IH]; intros dn t ND Dis Ok0 P.
  - exists t. split; [reflexivity|exact P].
  - destruct (Ok0 (i, j) (or_introl eq_refl)) as (Hi & Hj & Cl & N3). cbn [fst snd] in *. assert (Nd := Dis (i, j) (or_introl eq_refl)).
    destruct P as (Pg & Pt & Pu & Pl & PF). inversion ND as [|? ? Nij NDl]; subst.
    assert (K : Forall2 (fun f f' => cell_kept f f' i j) (tff t0) (tff t)).
    { apply forall2_nth; [exact Pl|]. intros k f Ef. destruct (nth_error (tft t0) k) as [x|] eqn:Ex; [|apply nth_error_None in Ex; apply nth_error_Some_lt in Ef; lia].
      destruct (PF k f x Ef Ex) as (f' & Ef' & _ & _ & _ & H). exists f'. split; [exact Ef'|]. now apply H. }
    assert (PX := points_kept cx t0 t i j (or_introl eq_refl) Pt K). assert (PY := points_kept cy t0 t i j (or_intror eq_refl) Pt K).
    destruct (fill_cell_lemma t i j) as (t1 & E1 & G1 & T1 & U1 & Ln1 & F1); [now rewrite Pg|now rewrite Pg|now rewrite Pt, Pl|now rewrite Pt|now apply (clean_kept t0 t)|rewrite PX; lia|].
    cbn [fill_cells]. rewrite E1. cbn [bind].
    destruct (IH ((i, j) :: dn) t1 NDl) as (t' & E' & P').
    + intros c Ic [<-|Id]; [contradiction|]. apply (Dis c); [now right|exact Id].
    + intros c Ic. apply Ok0. now right.
    + split; [congruence|]. split; [congruence|]. split; [congruence|]. split; [congruence|]. intros k f0 x Ef0 Ex.
      destruct (PF k f0 x Ef0 Ex) as (f & Ef & Vg & Vu & Vw & H). destruct (F1 k f x Ef ltac:(now rewrite Pt)) as (f' & Ef' & (S1 & S2 & S3 & S4) & A1 & A2 & A3).
      exists f'. split; [exact Ef'|]. split; [congruence|]. split; [congruence|]. split; [auto|]. intros a b.
      destruct (proj2 (H i j) Nd) as (Kx & Ky & Km).
      assert (Dec : (a, b) = (i, j) \/ (a, b) <> (i, j)) by (destruct (Nat.eq_dec a i) as [->|]; [destruct (Nat.eq_dec b j) as [->|]; [now left|]|]; right; congruence).
      destruct Dec as [[= -> ->]|Nab].
      * split; [intros _|intro N; exfalso; apply N; now left]. unfold filled_in_time. rewrite PX, PY, Km in *. destruct (at_ (vmsk f0) i j) eqn:M0.
        -- split; [intros _ B; exact (A2 eq_refl B)|]. intros [B|B]; [lia|]. destruct (A3 eq_refl B) as (B1 & B2 & B3). repeat split; congruence.
        -- destruct (A1 eq_refl) as (B1 & B2 & B3). repeat split; congruence.
      * destruct (S4 a b Nab) as (B1 & B2 & B3). destruct (H a b) as [H1 H2]. split.
        -- intros [Z|Id]; [congruence|]. specialize (H1 Id). unfold filled_in_time, cell_kept in *. destruct (at_ (vmsk f0) a b).
           ++ destruct H1 as [U V]. split; [intros Q1 Q2; destruct (U Q1 Q2) as (W1 & vx & vy & W2 & W3 & W4); split; [congruence|]; exists vx, vy; repeat split; try congruence; tauto|].
              intro Q. destruct (V Q) as (W1 & W2 & W3). repeat split; congruence.
           ++ destruct H1 as (W1 & W2 & W3). repeat split; congruence.
        -- intro N. destruct H2 as (W1 & W2 & W3); [intro; apply N; now right|]. repeat split; congruence.
    + exists t'. split; [exact E'|]. destruct P' as (Q1 & Q2 & Q3 & Q4 & Q5). split; [exact Q1|]. split; [exact Q2|]. split; [exact Q3|]. split; [exact Q4|].
      intros k f0 x Ef0 Ex. destruct (Q5 k f0 x Ef0 Ex) as (f & Ef & Vg & Vu & Vw & H). exists f. split; [exact Ef|]. split; [exact Vg|]. split; [exact Vu|]. split; [exact Vw|].
      intros a b. destruct (H a b) as [H1 H2]. split.
      * intro I. apply H1. cbn [app] in I. destruct I as [I|I]; [apply in_or_app; right; now left|]. apply in_app_or in I. apply in_or_app. destruct I as [I|I]; [now left|right; now right].
      * intro N. apply H2. intro I. apply N. cbn [app]. apply in_app_or in I. destruct I as [I|[I|I]]; [right; apply in_or_app; now left|now left|right; apply in_or_app; now right].
Qed.
Lemma count_points t i j : length (tft t) = length (tff t) -> clean_cell t i j -> length (cell_points cx t i j) + masked_count vf_ops t i j = length (tff t).
Proof.
  unfold cell_points, frames, masked_count, clean_cell. generalize (tft t) as ts. induction (tff t) as [|f l IH]; intros [|a ts] L C; cbn in L; try discriminate; [reflexivity|].
  specialize (IH ts ltac:(lia) (fun g I => C g (or_intror I))). destruct (C f (or_introl eq_refl)) as [CX _].
  cbn [combine flat_map map fst snd length]. rewrite app_length. unfold count_true in *. cbn [filter]. cbn [o_mask vf_ops] in *. destruct (at_ (vmsk f) i j).
  - cbn [length]. lia.
  - destruct (at_ (cx f) i j); [cbn [length]; lia|now assert (X := proj1 CX eq_refl)].
Qed.
Lemma NoDup_prod {A B} (l : list A) (k : list B) : NoDup l -> NoDup k -> NoDup (list_prod l k).
Proof.
  intros Nl Nk. induction Nl as [|a l Na Nl IH]; cbn; [constructor|]. apply NoDup_app'.
  - apply FinFun.Injective_map_NoDup; [intros x y [=]; auto|exact Nk].
  - exact IH.
  - intros [x y] I J. apply in_map_iff in I. destruct I as (z & [= <- <-] & _). apply in_prod_iff in J. tauto.
Qed.
Lemma fill_time_lemma t : length (tft t) = length (tff t) -> increasing (tft t) -> (forall f, In f (tff t) -> vg f = tfg t /\ vf_wf f /\ TemporalSpec.vf_clean f) ->
  (exists i j f, i < length (ax (tfg t)) /\ j < length (ay (tfg t)) /\ In f (tff t) /\ at_ (vmsk f) i j = true /\ 3 <= length (cell_points cx t i j)) ->
  exists t' t0, tvf_fill_time t TLinear = Ok (t', t0) /\ tft t' = tft t /\ tfu t' = tfu t /\ tfg t' = tfg t /\ length (tff t') = length (tff t) /\
    forall k f x, nth_error (tff t) k = Some f -> nth_error (tft t) k = Some x -> exists f', nth_error (tff t') k = Some f' /\ vg f' = vg f /\ vuv f' = vuv f /\ vf_wf f' /\
      forall i j, i < length (ax (tfg t)) -> j < length (ay (tfg t)) -> filled_in_time t x i j f f'.
Proof.
  intros L I W (i0 & j0 & fm & Hi0 & Hj0 & Ifm & Mfm & N0).
  assert (Cl : forall i j, i < length (ax (tfg t)) -> j < length (ay (tfg t)) -> clean_cell t i j).
  { intros i j Hi Hj f If. destruct (W f If) as (G & _ & C). apply (vf_clean_idx f C); now rewrite G. }
  assert (InF : forall i j, In (i, j) (to_fill vf_ops t) <-> i < length (ax (tfg t)) /\ j < length (ay (tfg t)) /\ 0 < masked_count vf_ops t i j /\ 3 <= length (cell_points cx t i j)).
  { intros i j. unfold to_fill. rewrite filter_In, in_prod_iff, !in_seq, andb_true_iff, !Nat.ltb_lt. cbn [fst snd].
    split; [intros (A & B)|intros (A & B & C & D)]; assert (CP := count_points t i j L (Cl i j ltac:(lia) ltac:(lia))); lia. }
  assert (MC : forall i j f, In f (tff t) -> at_ (vmsk f) i j = true -> 0 < masked_count vf_ops t i j).
  { intros i j f If M. unfold masked_count, count_true. destruct (filter (fun b : bool => b) (map (fun g => at_ (o_mask vf_ops g) i j) (tff t))) as [|b l] eqn:E; [exfalso|cbn; lia].
    assert (X : In true (filter (fun b : bool => b) (map (fun g => at_ (o_mask vf_ops g) i j) (tff t)))) by (apply filter_In; split; [|reflexivity]; apply in_map_iff; exists f; auto). now rewrite E in X. }
  unfold tvf_fill_time. assert (CP0 := count_points t i0 j0 L (Cl _ _ Hi0 Hj0)). assert (M0 := MC i0 j0 fm Ifm Mfm).
  destruct (Nat.ltb_spec (length (tff t)) 3); [lia|]. cbn [guard].
  assert (In0 : In (i0, j0) (to_fill vf_ops t)) by (apply InF; auto).
  destruct (to_fill vf_ops t) as [|c0 l0] eqn:E0; [contradiction|]. rewrite <- E0 in *. clear E0 c0 l0.
  destruct (cells_loop t L I (to_fill vf_ops t) [] t) as (t' & E & P1 & P2 & P3 & P4 & P5).
  - unfold to_fill. apply NoDup_filter, NoDup_prod; apply seq_NoDup.
  - auto.
  - intros [i j] Ic. apply InF in Ic. cbn [fst snd]. repeat split; try tauto; try apply Cl; tauto.
  - do 4 (split; [reflexivity|]). intros k f x Ef Ex. exists f. split; [exact Ef|]. do 2 (split; [reflexivity|]). split; [auto|]. intros a b. split; [intros []|intros _; repeat split].
  - rewrite E. cbn [bind]. exists t', t'. split; [reflexivity|]. do 4 (split; [assumption|]). intros k f x Ef Ex. destruct (P5 k f x Ef Ex) as (f' & Ef' & Vg & Vu & Vw & HH).
    exists f'. split; [exact Ef'|]. split; [exact Vg|]. split; [exact Vu|]. destruct (W f (nth_error_In _ _ Ef)) as (_ & Wf & _). split; [auto|]. intros i j Hi Hj.
    rewrite app_nil_r in HH. destruct (HH i j) as [H1 H2].
    assert (Dec : In (i, j) (to_fill vf_ops t) \/ ~ In (i, j) (to_fill vf_ops t)).
    { destruct (in_dec (fun a b : nat * nat => ltac:(decide equality; apply Nat.eq_dec)) (i, j) (to_fill vf_ops t)); auto. }
    destruct Dec as [D|D]; [now apply H1|]. specialize (H2 D). unfold filled_in_time. destruct (at_ (vmsk f) i j) eqn:M; [|exact H2]. split; [|intros _; exact H2].
    intros N B. exfalso. apply D, InF. split; [exact Hi|]. split; [exact Hj|]. split; [apply (MC i j f); auto; exact (nth_error_In _ _ Ef)|exact N].
Qed.

(** ** injection of a profile *)
Lemma inject_lemma t i j p u : tf_ok t -> i < length (ax (tfg t)) -> j < length (ay (tfg t)) -> (forall f, In f (tff t) -> sg f = tfg t /\ sf_wf f) -> prof_ok p -> length (px p) = length (tff t) ->
  exists t', inject_sf t i j p = Ok t' /\ tft t' = tft t /\ tfu t' = tfu t /\ tfg t' = tfg t /\ length (tff t') = length (tff t) /\
    (forall k f v, nth_error (tff t) k = Some f -> nth_error (yv p) k = Some v -> exists f', nth_error (tff t') k = Some f' /\ sg f' = sg f /\ uv f' = uv f /\ sf_wf f' /\
       (at_ (msk f) i j = false -> at_ (values f') i j = v) /\ (at_ (msk f) i j = true -> at_ (values f') i j = None) /\
       (forall a b, at_ (msk f') a b = at_ (msk f) a b /\ ((a, b) <> (i, j) -> at_ (values f') a b = at_ (values f) a b))) /\
    ((forall f, In f (tff t) -> at_ (msk f) i j = false) -> exists q, cell_profile sf_ops values u t' i j = Ok q /\ px q = tft t /\ yv q = yv p).
Proof.
  intros O Hi Hj W Op Lp. destruct (ok_lengths p Op) as (Ly & Lm & _). unfold inject_sf.
  replace (negb _) with false by (symmetry; apply negb_false_iff, andb_true_iff; rewrite !Nat.ltb_lt; auto). cbn [guard]. rewrite Lp, Nat.eqb_refl. cbn [negb guard].
  replace (existsb _ (tff t)) with false.
  2:{ symmetry. apply not_true_iff_false. intro X. apply existsb_exists in X. destruct X as (f & If & X). destruct (W f If) as (G & (R0 & R1) & _). apply negb_true_iff in X.
      apply andb_false_iff in X. rewrite !Nat.ltb_ge, R0, R1, G in X. lia. }
  cbn [guard]. set (up := fun q : sfield * onum => let f := read_values (fst q) in mksf (sg f) (aput (raw f) i j (snd q)) (msk f) (uv f)).
  eexists. split; [reflexivity|]. cbn [tft tfu tfg tff]. do 3 (split; [reflexivity|]). split; [rewrite map_length, combine_length; lia|].
  assert (N : forall k f v, nth_error (tff t) k = Some f -> nth_error (yv p) k = Some v -> nth_error (map up (combine (tff t) (yv p))) k = Some (up (f, v))).
  { intros k f v Ef Ev. rewrite nth_error_map. assert (X : nth_error (combine (tff t) (yv p)) k = Some (f, v)).
    { revert Ef Ev. clear. revert k. generalize (yv p) as y. induction (tff t) as [|a l IH]; intros [|b y] [|k]; cbn; try discriminate; [congruence|apply IH]. }
    rewrite X. reflexivity. }
  assert (V : forall f v a b, at_ (values (up (f, v))) a b = if at_ (msk f) a b then None else if (Nat.eqb a i && Nat.eqb b j)%bool then v else at_ (values f) a b).
  { intros f v a b. unfold up, read_values, values, aput. cbn. destruct (at_ (msk f) a b); [reflexivity|]. reflexivity. }
  split.
  - intros k f v Ef Ev. exists (up (f, v)). split; [now apply N|]. split; [reflexivity|]. split; [reflexivity|]. destruct (W f (nth_error_In _ _ Ef)) as (G & ((R0 & R1) & M)).
    split; [split; [split; [exact R0|exact R1]|exact M]|]. rewrite V, !Nat.eqb_refl. cbn [andb]. split; [intros ->; reflexivity|]. split; [intros ->; reflexivity|].
    intros a b. split; [reflexivity|]. intro Nab. rewrite V. destruct (at_ (msk f) a b) eqn:M1; [unfold values; cbn; now rewrite M1|].
    destruct (Nat.eqb_spec a i) as [->|]; [|reflexivity]. destruct (Nat.eqb_spec b j) as [->|]; [congruence|reflexivity].
  - intro U. set (t' := mktf _ _ _ _ _).
    destruct (cell_profile_lemma sf_ops values u t' i j Hi Hj) as (q & Eq & _ & _ & _ & Xq & _ & Yq & _).
    { destruct O as [O1 O2]. split; [cbn; rewrite map_length, combine_length; lia|exact O2]. }
    exists q. split; [exact Eq|]. split; [exact Xq|]. rewrite Yq. subst t'. cbn [tff]. rewrite map_map.
    assert (Z : forall l y, length y = length l -> (forall f, In f l -> at_ (msk f) i j = false) -> map (fun x => cell_seen sf_ops values i j (up x)) (combine l y) = y).
    { induction l as [|f l IH]; intros [|v y] Ll Hu; cbn in Ll; try discriminate; [reflexivity|]. cbn [combine map]. rewrite IH by (try lia; intros; apply Hu; now right). f_equal.
      unfold cell_seen. change (o_mask sf_ops (up (f, v))) with (msk f). rewrite V, !Nat.eqb_refl, (Hu f (or_introl eq_refl)). reflexivity. }
    apply Z; [lia|exact U].
Qed.
