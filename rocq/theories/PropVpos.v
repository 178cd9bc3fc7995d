(** * PropVpos: the properties C318 to C320: the positions of vortices found from a criterion. *)
From Coq Require Import Permutation Lia.
From Verif Require Import FieldProofs3 MirrorProofs10 Num Res ListLib SortLib SeqSpec Arr FieldModel ScalarFieldModel VectorFieldModel FieldSpec Concrete ProfileModel ProfileSpec PointsModel PointsSpec
  TemporalModel TemporalEx BlModel BlSpec VpropModel VpropSpec VpropProofs2 Sf2Model Sf2Spec Sf2Proofs4 Sf2Proofs5 CritModel CritSpec CritProofs6 VposModel VposSpec VposProofs.
#[local] Ltac vmr := vm_compute; reflexivity.

(** ** C318: on a vector field, get_vortex_position gives as foc the centres of the zones where the criterion reaches the threshold, as foc_c
    the centres of those where its opposite does, and no other point. *)
Theorem C318_zones pick asort criterion f threshold rel s m dx dy :
  picks pick -> is_argsort asort -> crit_field criterion f = Ok s -> sf_wf s -> sf_clean s -> regular_axis (ax (sg s)) dx -> regular_axis (ay (sg s)) dy ->
  strongest s m -> (0 < threshold)%num -> (rel = true -> (threshold <= 1)%num) -> (0 < level rel threshold m)%num ->
  exists c up down, vortex_position pick asort criterion f threshold rel = Ok c /\ ctimes c = [qz 0] /\
    centres_of s (reaches_up s (level rel threshold m)) up /\ centres_of s (reaches_down s (level rel threshold m)) down /\
    forall k, exists p, cpts c k = [p] /\ match (match k with Foc => up | FocC => down | _ => None end) with Some q => p = q | None => xy p = [] end.
Proof.
  intros PK A E W C RX RY M T0 T1 L0. assert (K1 : (qq 1 100000 < 1)%num) by reflexivity.
  assert (N0 : (0 < nearly (level rel threshold m))%num) by (unfold nearly; qnra).
  destruct (vort_lemma pick criterion f threshold rel s m dx dy PK E W C RX RY M) as (down & up & EV & CU & CD).
  { qlra. } { exact T1. } { right. exact L0. }
  { intros c H. exists c. split; [apply joined_here, H|]. destruct H as (v & Sv & G). intros Z. assert (v = qz 0) as -> by (destruct Sv as (_ & _ & _ & E1), Z as (_ & _ & _ & E2); congruence). change (qz 0) with 0%num in G. qlra. }
  { intros c H. exists c. split; [apply joined_here, H|]. destruct H as (v & Sv & G). intros Z. assert (v = qz 0) as -> by (destruct Sv as (_ & _ & _ & E1), Z as (_ & _ & _ & E2); congruence). change (qz 0) with 0%num in G. qlra. }
  assert (UN : units_agree (crit_new no_unit) (vort_args (down, up))).
  { exists (ux (sg s)), (uy (sg s)). split; [intros N; now destruct N|]. intros k p EK. destruct CU as (? & ? & _ & _ & U), CD as (? & ? & _ & _ & D). destruct k; cbn in EK; try discriminate EK; subst; tauto. }
  destruct (crit_add_accepts asort (crit_new no_unit) (vort_args (down, up)) 0%num (fun I => match I with end) UN) as (c & AD).
  assert (O : crit_ok (crit_new no_unit)) by (split; [intros i j _ J; cbn in J; lia|reflexivity]).
  destruct (crit_add_lemma asort _ _ _ c A O AD) as ([IT L] & _ & F).
  exists c, up, down. split; [unfold vortex_position, vort_add; rewrite EV; cbn [bind]; now rewrite AD|].
  assert (ONE : forall k, exists p, given_set (vort_args (down, up)) k p /\ ctimes c = [0%num] /\ cpts c k = [p]).
  { intros k. destruct (F k) as (p & G & P). exists p. split; [exact G|]. apply Permutation_sym in P. cbn in P. apply Permutation_length_1_inv in P. unfold frames in P. specialize (L k).
    destruct (ctimes c) as [|t [|t' r]], (cpts c k) as [|q [|q' r']]; try discriminate; cbn in P; injection P as -> ->; split; reflexivity. }
  split; [destruct (ONE Foc) as (_ & _ & T & _); exact T|]. split; [exact CU|]. split; [exact CD|]. intros k. destruct (ONE k) as (p & G & _ & EP). exists p. split; [exact EP|].
  unfold given_set, vort_args in G. destruct k; cbn in G |- *; try exact (proj1 G); [destruct up|destruct down]; try exact G; exact (proj1 G).
Qed.
Print Assumptions C318_zones.
(** the criterion is the first component; two vortices of opposite signs *)
Definition first_comp (f : vfield) : res sfield := Ok (mksf (vg f) (cx f) (vmsk f) (vuv f)).
Definition pair_vf : vfield := vf_of [0; 1; 2]%Z [0; 1; 2]%Z [[oz 4; oz 4; oz 0]; [oz 0; oz 1; oz 0]; [oz 0; oz 0; oz (-3)]] [[oz 0; oz 0; oz 0]; [oz 0; oz 0; oz 0]; [oz 0; oz 0; oz 0]] [].
Definition hd_cell (l : list cell) : cell := hd (0, 0) l.
Lemma hd_picks : picks hd_cell. Proof. intros [|c l] N; [congruence|now left]. Qed.
Example C318_example : exists s m, crit_field first_comp pair_vf = Ok s /\ sf_wf s /\ sf_clean s /\ regular_axis (ax (sg s)) (qz 1) /\ regular_axis (ay (sg s)) (qz 1) /\ strongest s m /\
  (0 < level true (qq 1 2) m)%num /\
  match vortex_position hd_cell argsort first_comp pair_vf (qq 1 2) true with
  | Ok c => match cpts c Foc, cpts c FocC with [p], [q] => match xy p, xy q with [(a, b)], [(a', b')] => (qeqb a 0 && qeqb b (qq 1 2) && qeqb a' 2 && qeqb b' 2)%num%bool | _, _ => false end | _, _ => false end
  | Err _ => false end = true.
Proof.
  exists (mksf (vg pair_vf) (cx pair_vf) (vmsk pair_vf) (vuv pair_vf)), (qz 4). split; [reflexivity|].
  split; [repeat split|]. split; [apply clean_b_ok; vmr|].
  split; [split; [reflexivity|]; split; [cbn; lia|]; intros i Hi; cbn in Hi; destruct i as [|[|[|i]]]; [qc|qc|qc|lia]|].
  split; [split; [reflexivity|]; split; [cbn; lia|]; intros i Hi; cbn in Hi; destruct i as [|[|[|i]]]; [qc|qc|qc|lia]|].
  split; [split; [exists (0, 0), (qz 4); split; [split; [cbn; lia|split; [cbn; lia|split; reflexivity]]|reflexivity]|]|].
  { intros [i j] v (Hi & Hj & _ & E). cbn in Hi, Hj. cbn [fst snd] in E. destruct i as [|[|[|i]]]; [| | |lia]; (destruct j as [|[|[|j]]]; [| | |lia]); cbn in E; injection E as <-; apply qleb_le; vmr. }
  split; [reflexivity|vmr].
Qed.

(** [s] shows the values of the criterion, all of them and no other: only masked borders are left out *)
Theorem C318_criterion criterion f s0 : criterion f = Ok s0 -> sf_wf s0 -> grid_sorted (sg s0) ->
  (exists i j, 0 < i /\ cell_in s0 i j /\ at_ (msk s0) i j = false) -> (exists i j, 0 < j /\ cell_in s0 i j /\ at_ (msk s0) i j = false) ->
  exists s, crit_field criterion f = Ok s /\ sf_wf s /\ forall x y v, sf_shows s x y v false <-> sf_shows s0 x y v false.
Proof.
  intros E W G HI HJ. unfold crit_field. rewrite E. cbn [bind]. destruct (any_masked s0) eqn:A.
  - assert (HM : exists i j, cell_in s0 i j /\ at_ (msk s0) i j = true).
    { destruct W as [W0 [M0 M1]]. unfold any_masked in A. apply existsb_exists in A. destruct A as (b & I & ->). unfold flatten in I. apply in_map_iff in I. destruct I as ([i j] & J & I).
      apply in_aidx in I. exists i, j. split; [|exact J]. unfold cell_in. cbn in I. lia. }
    destruct (soft_crop_api s0 W HM HI HJ) as (s & C & SG & W' & K & _). rewrite C. cbn [bind]. exists s. split; [reflexivity|]. split; [exact W'|]. intros x y v. split; [apply (sub_shows _ _ _ _ _ _ SG)|apply (K G)].
  - unfold crop_masked_border. rewrite A. cbn [bind negb]. exists s0. split; [reflexivity|]. split; [exact W|]. intros; reflexivity.
Qed.
Print Assumptions C318_criterion.
(** a criterion with a masked line and a masked cell inside *)
Definition edge_vf : vfield := vf_of [0; 1; 2]%Z [0; 1; 2]%Z [[None; None; None]; [oz 0; oz 1; oz 0]; [oz 0; None; oz (-3)]] [[oz 0; oz 0; oz 0]; [oz 0; oz 0; oz 0]; [oz 0; oz 0; oz 0]]
  [[true; true; true]; [false; false; false]; [false; true; false]].
Example C318_criterion_example : exists s0 s, first_comp edge_vf = Ok s0 /\ sf_wf s0 /\ grid_sorted (sg s0) /\ (exists i j, 0 < i /\ cell_in s0 i j /\ at_ (msk s0) i j = false) /\
  (exists i j, 0 < j /\ cell_in s0 i j /\ at_ (msk s0) i j = false) /\ crit_field first_comp edge_vf = Ok s /\ length (ax (sg s)) = 2 /\ length (ay (sg s)) = 3.
Proof.
  exists (mksf (vg edge_vf) (cx edge_vf) (vmsk edge_vf) (vuv edge_vf)). destruct (ok_ex (crit_field first_comp edge_vf) (fun s => (Nat.eqb (length (ax (sg s))) 2 && Nat.eqb (length (ay (sg s))) 3)%bool)) as (s & E & H); [vmr|].
  apply andb_true_iff in H. destruct H as [H1 H2]. apply Nat.eqb_eq in H1, H2. exists s. split; [reflexivity|]. split; [repeat split|]. split; [split; incr|].
  split; [exists 1, 1; split; [lia|]; split; [split; cbn; lia|reflexivity]|]. split; [exists 1, 1; split; [lia|]; split; [split; cbn; lia|reflexivity]|]. now split; [exact E|].
Qed.

(** ** C319: on temporal fields, the points of each time are those of the field of that time.  Refuted: the search stops with a ValueError when
    vortices only appear after the first field, because the units stay without dimension. *)
Theorem C319_times_partial pick asort criterion u l threshold rel c : is_argsort asort -> vortex_positions pick asort criterion u l threshold rel = Ok c ->
  crit_ok c /\ NoDup (map fst l) /\
  exists rs, Forall2 (fun tf r => vort_on_vf pick criterion (snd tf) threshold rel = Ok r) l rs /\
    forall k, exists ps, Permutation (frames c k) (combine (map fst l) ps) /\
      Forall2 (fun r p => match (match k with Foc => snd r | FocC => fst r | _ => None end) with Some q => p = q | None => xy p = [] end) rs ps.
Proof.
  intros A E. assert (O : crit_ok (crit_new u)) by (split; [intros i j _ J; cbn in J; lia|reflexivity]).
  destruct (track_lemma pick asort criterion threshold rel l A _ c O E) as (OC & rs & RS & _ & ND & PS). split; [exact OC|]. split; [exact ND|]. exists rs. split; [exact RS|].
  intros k. destruct (PS k) as (ps & FP & PP). exists ps. cbn in PP. rewrite app_nil_r in PP. split; [exact PP|].
  clear PP RS PS. induction FP as [|r p rs ps G FP IH]; [constructor|]. constructor; [|exact IH]. unfold given_set, vort_args in G. destruct k; cbn in G |- *; try exact (proj1 G); [destruct (snd r)|destruct (fst r)]; try exact G; exact (proj1 G).
Qed.
Print Assumptions C319_times_partial.
(** it succeeds when each field can be treated, at different times, with points in the same units, and the first field shows a vortex *)
Theorem C319_accepts_partial pick asort criterion u l threshold rel ux uy : is_argsort asort -> NoDup (map fst l) ->
  (forall t f, In (t, f) l -> exists up down, vort_on_vf pick criterion f threshold rel = Ok (down, up) /\
     forall p, up = Some p \/ down = Some p -> ptx p = ux /\ pty p = uy) ->
  (forall t f r, l = (t, f) :: r -> vort_on_vf pick criterion f threshold rel <> Ok (None, None)) ->
  exists c, vortex_positions pick asort criterion u l threshold rel = Ok c.
Proof.
  intros A ND OK FI. assert (O : crit_ok (crit_new u)) by (split; [intros i j _ J; cbn in J; lia|reflexivity]).
  apply (track_accepts pick asort criterion threshold rel l ux uy A (crit_new u) O).
  - intros N. now destruct N.
  - intros _. destruct l as [|[t f] l]; [exact I|]. destruct (OK t f (or_introl eq_refl)) as (up & down & E & _). specialize (FI t f l eq_refl). rewrite E in FI. exists (down, up).
    destruct up as [p|]; [exists Foc, p; split; [exact E|reflexivity]|]. destruct down as [p|]; [exists FocC, p; split; [exact E|reflexivity]|]. now destruct FI.
  - exact ND.
  - intros t _ H. destruct H.
  - intros t f H. destruct (OK t f H) as (up & down & E & U). exists (down, up). split; [exact E|]. intros k p K. apply U. destruct k; cbn in K; try discriminate K; auto.
Qed.
Print Assumptions C319_accepts_partial.
Definition rest_vf : vfield := vf_of [0; 1; 2]%Z [0; 1; 2]%Z [[oz 0; oz 0; oz 0]; [oz 0; oz 1; oz 0]; [oz 0; oz 0; oz 0]] [[oz 0; oz 0; oz 0]; [oz 0; oz 0; oz 0]; [oz 0; oz 0; oz 0]] [].
Theorem C319_late_refuted : exists pick criterion u l threshold, picks pick /\ NoDup (map fst l) /\
  (forall t f, In (t, f) l -> exists c, vortex_position pick argsort criterion f threshold false = Ok c) /\
  vortex_positions pick argsort criterion u l threshold false = Err ValueErr.
Proof.
  exists hd_cell, first_comp, second, [(qz 0, rest_vf); (qz 1, pair_vf)], (qz 2). split; [exact hd_picks|]. split; [constructor; [intros [H|[]]; discriminate H|constructor; [intros []|constructor]]|].
  split; [|vmr]. intros t f H.
  assert (G : match vortex_position hd_cell argsort first_comp f (qz 2) false with Ok _ => true | Err _ => false end = true) by (destruct H as [H|[H|[]]]; injection H as <- <-; vmr).
  destruct (vortex_position hd_cell argsort first_comp f (qz 2) false) as [c|]; [exists c; reflexivity|discriminate G].
Qed.
Print Assumptions C319_late_refuted.
(** the other order works *)
Example C319_example : match vortex_positions hd_cell argsort first_comp second [(qz 0, pair_vf); (qz 1, rest_vf)] (qz 2) false with
  | Ok c => Nat.eqb (length (ctimes c)) 2 && match map (fun p => length (xy p)) (cpts c Foc) with [1; 0] => true | _ => false end | Err _ => false end%bool = true.
Proof. vmr. Qed.

(** ** C320: every threshold from 0 to 1 is accepted.  Refuted for 0: a zone of null values has no centre of mass (ValueError). *)
Definition still_vf : vfield := vf_of [0; 1; 2]%Z [0; 1]%Z [[oz 4; oz 4]; [oz (-1); oz (-1)]; [oz 0; oz 0]] [[oz 0; oz 0]; [oz 0; oz 0]; [oz 0; oz 0]] [].
Theorem C320_null_refuted : exists pick criterion f rel, picks pick /\ (exists c, vortex_position pick argsort criterion f (qq 1 2) rel = Ok c) /\ vortex_position pick argsort criterion f 0%num rel = Err ValueErr.
Proof.
  exists hd_cell, first_comp, still_vf, true. split; [exact hd_picks|]. split; [|vmr].
  assert (G : match vortex_position hd_cell argsort first_comp still_vf (qq 1 2) true with Ok _ => true | Err _ => false end = true) by vmr.
  destruct (vortex_position hd_cell argsort first_comp still_vf (qq 1 2) true) as [c|]; [exists c; reflexivity|discriminate G].
Qed.
Print Assumptions C320_null_refuted.
(** what holds: it works when each zone has a value that is not null *)
Theorem C320_null_partial pick criterion f rel s m dx dy : picks pick -> crit_field criterion f = Ok s -> sf_wf s -> sf_clean s -> regular_axis (ax (sg s)) dx -> regular_axis (ay (sg s)) dy ->
  strongest s m -> (0 < m)%num ->
  (forall c, reaches_up s 0%num c -> exists d, joined (reaches_up s 0%num) c d /\ ~ shows_at s d (qz 0)) ->
  (forall c, reaches_down s 0%num c -> exists d, joined (reaches_down s 0%num) c d /\ ~ shows_at s d (qz 0)) ->
  exists down up, vort_on_vf pick criterion f 0%num rel = Ok (down, up) /\ centres_of s (reaches_up s 0%num) up /\ centres_of s (reaches_down s 0%num) down.
Proof.
  intros PK E W C RX RY M M0 HU HD. assert (L : level rel 0%num m = 0%num) by (unfold level; destruct rel; [qring|reflexivity]).
  destruct (vort_lemma pick criterion f 0%num rel s m dx dy PK E W C RX RY M) as (down & up & R); rewrite ?L in *; [apply qle_refl| |left; exact M0|exact HU|exact HD|exists down, up; exact R].
  intros _. qlra.
Qed.
Print Assumptions C320_null_partial.
(** out of [0, 1], relative thresholds are refused, as negative ones are *)
Theorem C320_refused pick asort criterion f threshold : (threshold < 0)%num \/ (1 < threshold)%num -> vortex_position pick asort criterion f threshold true = Err ValueErr.
Proof.
  intros H. unfold vortex_position, vort_add, vort_on_vf. destruct H as [H|H]; [rewrite (proj2 (qltb_lt _ _) H); reflexivity|]. destruct (qltb threshold 0); [reflexivity|]. cbn [guard]. rewrite (proj2 (qltb_lt _ _) H). reflexivity.
Qed.
Print Assumptions C320_refused.
Example C320_example : (qz (-1) < 0)%num /\ (1 < qz 2)%num.
Proof. split; reflexivity. Qed.
