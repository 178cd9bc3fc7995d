(** * PropStab: properties of the Stabilizer (stabilize/stabilize.py) *)
From Coq Require Import Reals List Bool ZArith Lia Lra.
From Verif Require Import Res FtleModel FtleProofs4 StabModel StabSpec StabProofs StabProofs2 StabProofs3.
Import ListNotations.
#[local] Open Scope R_scope.

(** an example: three frames of 8x8 pixels, a dot that moves by one column then stays *)
Definition dot (r c : nat) : frame := mkframe 8 8 (fun i j => if Nat.eqb i r && Nat.eqb j c then 1 else 0).
Definition axis8 : list R := map INR (seq 0 8).
Definition jump : video := mkvideo axis8 axis8 [dot 3 3; dot 3 4; dot 3 4].
Definition jump_estimate (f g : frame) : option motion := if Req_EM_T (pix f 3 3) 1 then if Req_EM_T (pix g 3 4) 1 then Some (mkmotion 1 0 0) else Some still else Some still.
Definition one_found (f : frame) : nat := 1%nat.
Definition keep (l : list R) : list R := l.
Definition example_pad (bt : border) (b : nat) (f : frame) : frame :=
  mkframe (rows f + 2 * b) (cols f + 2 * b) (fun i j => if Nat.leb b i && Nat.leb b j then pix f (i - b) (j - b) else 0).
Definition example_warp (bt : border) (m : matrix) (n p : nat) (f : frame) : frame :=
  mkframe n p (fun i j => let i' := (Z.of_nat i - Int_part (m12 m))%Z in let j' := (Z.of_nat j - Int_part (m02 m))%Z in
                          if (0 <=? i')%Z && (0 <=? j')%Z then pix f (Z.to_nat i') (Z.to_nat j') else 0).
Lemma example_pads : pads example_pad.
Proof.
  intros bt b f _. unfold example_pad. cbn [rows cols pix]. repeat split. intros i j I J. rewrite !Nat.add_sub.
  rewrite (proj2 (Nat.leb_le b (i + b))), (proj2 (Nat.leb_le b (j + b))) by lia. reflexivity.
Qed.
Lemma Int_part_Z z : Int_part (IZR z) = z.
Proof. pose proof (base_Int_part (IZR z)) as [A B]. rewrite <- minus_IZR in B. assert (C : IZR (-1) < IZR (Int_part (IZR z) - z)) by (rewrite minus_IZR in *; lra). apply lt_IZR in C. apply le_IZR in A. lia. Qed.
Lemma example_warps : warps example_warp.
Proof.
  intros bt m n p f _. unfold example_warp. cbn [rows cols pix]. repeat split. intros c r i j i' j' -> I J I' J' Ei Ej. cbn [m12 m02 shift_matrix].
  rewrite !Int_part_Z. replace (Z.of_nat i' - r)%Z with (Z.of_nat i) by lia. replace (Z.of_nat j' - c)%Z with (Z.of_nat j) by lia.
  rewrite (proj2 (Z.leb_le 0 (Z.of_nat i))), (proj2 (Z.leb_le 0 (Z.of_nat j))) by lia. now rewrite !Nat2Z.id.
Qed.
Lemma keep_smooths : smooths keep. Proof. split; reflexivity. Qed.
Lemma axis8_regular : regular_axis 0 1 axis8.
Proof.
  unfold regular_axis, axis8. rewrite map_length, seq_length. split; [lra|]. split; [lia|]. intros k K.
  rewrite (nth_indep _ 0 (INR 0)) by (rewrite map_length, seq_length; exact K). rewrite map_nth, seq_nth by exact K. rewrite Nat.add_0_l. ring.
Qed.
Lemma jump_sized : well_sized jump. Proof. repeat constructor. Qed.
Lemma jump_first : motion_between jump_estimate (dot 3 3) (dot 3 4) = mkmotion 1 0 0.
Proof.
  unfold motion_between, jump_estimate. cbn [pix dot Nat.eqb andb].
  destruct (Req_EM_T 1 1) as [_|N]; [reflexivity|exfalso; apply N; reflexivity].
Qed.
Lemma jump_second : motion_between jump_estimate (dot 3 4) (dot 3 4) = still.
Proof. unfold motion_between, jump_estimate. cbn [pix dot Nat.eqb andb]. destruct (Req_EM_T 0 1) as [N|_]; [lra|reflexivity]. Qed.

Section Stab.
Variable found : frame -> nat.
Variable estimate : frame -> frame -> option motion.
Variable smooth : list R -> list R.
Variable pad : border -> nat -> frame -> frame.
Variable warp : border -> matrix -> nat -> nat -> frame -> frame.
Variable md : mode.
Variable obj : video.
Notation after_calls := (history found estimate smooth pad warp md obj).
Notation get := (get_stabilized_obj found estimate smooth pad warp md obj).

(** ** C243 *)
Lemma tracked cs pts z ls : track_points pts z (after_calls cs) = Ok ls -> z = 0%Z /\ ls = map (fun p => track p (fst (the_raw estimate md obj))) pts /\ frames obj <> [] /\ md <> OtherMode.
Proof.
  unfold track_points. destruct (inv_history found estimate smooth pad warp md obj cs) as [I1 I2].
  destruct (smoothed (after_calls cs)) as [sm|] eqn:Sm; [|discriminate]. destruct I2 as [I2|(_ & R & L)]; [discriminate I2|].
  destruct (Z.eqb z 0) eqn:Z0; [|discriminate]. rewrite R, (surjective_pairing (the_raw estimate md obj)). cbn [negb fst]. intro H; injection H as <-. apply Z.eqb_eq in Z0. repeat split; [exact Z0| |].
  - intro N. unfold the_raw in L. rewrite N in L. cbn in L. lia.
  - destruct I1 as [I1|[_ (n & C)]]; [congruence|]. apply compute_ok in C. tauto.
Qed.
Theorem C243_positions cs pts z ls : track_points pts z (after_calls cs) = Ok ls ->
  length ls = length pts /\ forall n p, nth_error pts n = Some p -> exists l, nth_error ls n = Some l /\ length l = length (frames obj) /\ nth 0 l (0, 0) = p.
Proof.
  intro E. apply tracked in E as (_ & -> & N & _). split; [apply map_length|]. intros n p P. exists (track p (fst (the_raw estimate md obj))).
  split; [rewrite nth_error_map, P; reflexivity|]. split; [|apply track_first]. rewrite track_length. destruct (frames obj) as [|f l] eqn:F; [contradiction|].
  rewrite (proj1 (the_raw_length estimate md obj f l F)). reflexivity.
Qed.
Theorem C243_distances cs pts z ls : track_points pts z (after_calls cs) = Ok ls ->
  forall n m p q l l' k, nth_error pts n = Some p -> nth_error pts m = Some q -> nth_error ls n = Some l -> nth_error ls m = Some l' -> (k < length (frames obj))%nat ->
  distance (nth k l (0, 0)) (nth k l' (0, 0)) = distance p q.
Proof.
  intro E. apply tracked in E as (_ & -> & N & _). intros n m p q l l' k P Q L L' K. rewrite nth_error_map, P in L. rewrite nth_error_map, Q in L'. injection L as <-. injection L' as <-.
  apply track_distance. destruct (frames obj) as [|f fs] eqn:F; [contradiction|]. rewrite (proj1 (the_raw_length estimate md obj f fs F)). cbn [length] in K. lia.
Qed.
Theorem C243_continuous cs pts z ls : md = Continuous -> track_points pts z (after_calls cs) = Ok ls ->
  forall l k f g, In l ls -> nth_error (frames obj) k = Some f -> nth_error (frames obj) (S k) = Some g ->
  nth (S k) l (0, 0) = moved (motion_between estimate f g) (nth k l (0, 0)).
Proof.
  intros M E. apply tracked in E as (_ & -> & N & _). intros l k f g L Hf Hg. apply in_map_iff in L as (p & <- & _).
  destruct (frames obj) as [|f0 fs] eqn:F; [contradiction|]. pose proof (the_raw_length estimate md obj f0 fs F) as [Ln _].
  assert (K : (k < length fs)%nat). { assert (S k < length (f0 :: fs))%nat by (apply nth_error_Some; congruence). cbn [length] in *. lia. }
  rewrite track_next by lia. f_equal. unfold the_raw. rewrite F, M. cbn [fst]. rewrite (between_nth estimate fs f0 k f K).
  rewrite (nth_error_nth _ _ f Hf), (nth_error_nth _ _ f Hg). reflexivity.
Qed.

(** ** C244 *)
Theorem C244_from_first cs pts z ls : md = FromFirst -> (forall f g, In f (frames obj) -> In g (frames obj) -> ma (motion_between estimate f g) = 0) ->
  track_points pts z (after_calls cs) = Ok ls -> forall n p l k f g, nth_error pts n = Some p -> nth_error ls n = Some l -> nth_error (frames obj) 0 = Some f -> nth_error (frames obj) (S k) = Some g ->
  nth (S k) l (0, 0) = moved (motion_between estimate f g) p.
Proof.
  intros M A E. apply tracked in E as (_ & -> & N & _). intros n p l k f g P L Hf Hg. rewrite nth_error_map, P in L. injection L as <-.
  destruct (frames obj) as [|f0 fs] eqn:F; [contradiction|]. injection Hf as ->. cbn [nth_error] in Hg. pose proof (the_raw_length estimate md obj f fs F) as [Ln _].
  assert (K : (k < length fs)%nat) by (apply nth_error_Some; congruence).
  assert (T : total (firstn (S k) (fst (the_raw estimate md obj))) = motion_between estimate f g).
  { pose proof (cumsum_nth (fst (the_raw estimate md obj)) still k) as C. rewrite <- the_raw_cumsum, madd_still in C. rewrite <- C by lia.
    unfold the_raw. rewrite F, M. cbn [snd]. rewrite (from_first_nth estimate f fs k f K), (nth_error_nth _ _ f Hg). reflexivity. }
  rewrite track_translation; [|apply Forall_forall; intros t T'|lia].
  - rewrite T, moved_translation; [reflexivity|]. apply A; [now left|right; eapply nth_error_In; exact Hg].
  - unfold the_raw in T'. rewrite F, M in T'. cbn [fst] in T'. clear - A T'.
    assert (B : forall x, In x (from_first estimate f fs) -> ma x = 0). { intros x X. apply in_map_iff in X as (g & <- & G). apply A; [now left|now right]. }
    clear A. revert T' B. unfold no_rotation. assert (Z : ma still = 0) by reflexivity. revert Z. generalize still. generalize (from_first estimate f fs).
    intro l. induction l as [|u l IH]; intros a Z T B; [contradiction|]. destruct T as [<-|T]; [cbn; rewrite (B u) by (now left); rewrite Z; ring|].
    apply (IH u); [apply B; now left|exact T|intros x X; apply B; now right].
Qed.
Theorem C244_trajectory cs tr tj k : raw (after_calls cs) = Some (tr, tj) -> length tr = length tj /\ ((k < length tr)%nat -> nth k tj still = total (firstn (S k) tr)).
Proof.
  intro E. destruct (inv_history found estimate smooth pad warp md obj cs) as [[I|[I _]] _]; [congruence|]. rewrite I in E. injection E as E.
  assert (T : tj = cumsum still tr). { pose proof (the_raw_cumsum estimate md obj) as H. rewrite E in H. exact H. } subst tj.
  split; [now rewrite cumsum_length|]. intro K. rewrite cumsum_nth by exact K. apply madd_still.
Qed.

(** ** C246, the part that holds *)
Theorem C246_positions_partial bt b s s' v k c r d : pads pad -> warps warp -> smooths smooth -> well_sized obj -> (forall f, In f (frames obj) -> found f <> 0%nat) -> (2 <= length (frames obj))%nat ->
  get false bt b s = (s', Ok (Some v)) -> (S k < length (frames obj))%nat ->
  forall tr tj sm st, raw s' = Some (tr, tj) -> smoothed s' = Some (sm, st) ->
  let t := madd (nth k tr still) (msub (nth k sm still) (nth k tj still)) in ma t = 0 -> mx t = IZR c -> my t = IZR r ->
  seen_at (nth (S k) (frames obj) d) (nth (S k) (frames v) d) (r + Z.of_nat b) (c + Z.of_nat b).
Proof.
  intros P W [Sm C] Ws Fd Nf E K tr tj sm st Rw Sd t A X Y. destruct (get_ok found estimate smooth pad warp md obj _ _ _ _ _ _ E) as (V & R' & S' & _ & B & M & _). injection V as ->.
  rewrite R' in Rw. rewrite S' in Sd. injection Rw as Rw. injection Sd as Sd.
  rewrite (shown_nth estimate smooth pad warp md obj Nf) by assumption. cbn [nth]. unfold well_sized in Ws. rewrite Forall_forall in Ws.
  destruct (Ws (nth (S k) (frames obj) d)) as [Hr Hc]; [apply nth_In; exact K|].
  assert (T : nth k (snd (the_smooth estimate smooth md obj)) still = t).
  { rewrite (smooth_nth estimate smooth md obj k Sm).
    - assert (Fs : fst (the_smooth estimate smooth md obj) = sm) by exact Sd. rewrite Fs, Rw. reflexivity.
    - destruct (frames obj) as [|f l] eqn:F; [cbn in Nf; lia|]. rewrite (proj2 (the_raw_length estimate md obj f l F)). cbn [length] in K. lia. }
  rewrite T. apply transformed_seen; assumption.
Qed.

(** ** C247 *)
Theorem C247_still bt b s a a' h h' d : pads pad -> warps warp -> smooths smooth -> known bt -> md <> OtherMode -> well_sized obj ->
  regular_axis a h (axe_x obj) -> regular_axis a' h' (axe_y obj) -> h <= h' -> (2 <= length (frames obj))%nat -> (forall f, In f (frames obj) -> found f <> 0%nat) ->
  (forall f g, In f (frames obj) -> In g (frames obj) -> motion_between estimate f g = still) ->
  exists v, snd (get false bt b s) = Ok (Some v) /\ length (frames v) = length (frames obj) /\
    length (axe_x v) = (length (axe_x obj) + 2 * b)%nat /\ length (axe_y v) = (length (axe_y obj) + 2 * b)%nat /\
    (forall i, (i < length (axe_x obj))%nat -> nth (i + b) (axe_x v) 0 = nth i (axe_x obj) 0) /\ (forall j, (j < length (axe_y obj))%nat -> nth (j + b) (axe_y v) 0 = nth j (axe_y obj) 0) /\
    forall k i j, (k < length (frames obj))%nat -> (i < length (axe_x obj))%nat -> (j < length (axe_y obj))%nat -> pix (nth k (frames v) d) (i + b) (j + b) = pix (nth k (frames obj) d) i j.
Proof.
  intros P W Sm B M Ws Ax Ay H Nf Fd St. pose proof (proj1 Ax) as H0. pose proof (proj1 Sm) as Sl.
  assert (Lx : length (new_axe_x obj b) = (length (axe_x obj) + 2 * b)%nat). { unfold new_axe_x. rewrite (axis_step a h _ Ax). apply (axis_same a h _ Ax). lra. }
  assert (Ly : length (new_axe_y obj b) = (length (axe_y obj) + 2 * b)%nat). { unfold new_axe_y. rewrite (axis_step a h _ Ax), (axis_step a' h' _ Ay). apply (axis_same a' h' _ Ay). lra. }
  exists (shown pad warp obj bt b (snd (the_smooth estimate smooth md obj))).
  split; [rewrite (get_sizes found estimate smooth pad warp md obj Nf Fd M bt b s Sl W B); rewrite Lx, Ly, !Nat.eqb_refl; reflexivity|].
  split; [apply shown_length; assumption|]. cbn [shown axe_x axe_y]. split; [exact Lx|]. split; [exact Ly|]. split; [|split].
  - intros i I. unfold new_axe_x. rewrite (axis_step a h _ Ax). apply (axis_nth a h _ Ax); [lra|exact I].
  - intros j J. unfold new_axe_y. rewrite (axis_step a h _ Ax), (axis_step a' h' _ Ay). apply (axis_nth a' h' _ Ay); [lra|exact J].
  - intros k i j K I J.
    assert (Rs : fst (the_raw estimate md obj) = repeat still (length (frames obj) - 1) /\ snd (the_raw estimate md obj) = repeat still (length (frames obj) - 1)).
    { assert (Cs : forall n, cumsum still (repeat still n) = repeat still n) by (induction n as [|n IHn]; cbn [repeat cumsum]; [reflexivity|rewrite madd_still, IHn; reflexivity]).
      assert (Ss : forall n, steps still (repeat still n) = repeat still n) by (intro n; rewrite <- (Cs n) at 1; induction n as [|n IHn]; [reflexivity|]; cbn [repeat cumsum steps]; rewrite madd_still, IHn; f_equal; unfold msub, still; cbn; f_equal; ring).
      unfold the_raw. destruct (frames obj) as [|f l]; [cbn in Nf; lia|]. cbn [length]. rewrite Nat.sub_succ, Nat.sub_0_r.
      assert (Bt : between estimate f l = repeat still (length l)).
      { clear - St. assert (G : forall g, In g (f :: l) -> (forall x, In x l -> In x (f :: l)) -> between estimate g l = repeat still (length l)).
        { generalize (f :: l) St. intros L SL. clear St. induction l as [|c l IH]; intros g G I; [reflexivity|]. cbn. rewrite SL by (auto; apply I; now left). f_equal. apply IH; [apply I; now left|intros x X; apply I; now right]. }
        apply G; [now left|intros; now right]. }
      assert (Fs : from_first estimate f l = repeat still (length l)).
      { clear - St. unfold from_first. assert (G : forall x, In x l -> motion_between estimate f x = still) by (intros; apply St; [now left|now right]). clear St.
        induction l as [|c l IH]; [reflexivity|]. cbn. rewrite G by (now left). f_equal. apply IH. intros; apply G; now right. }
      destruct md; [rewrite Bt|rewrite Fs|contradiction]; cbn [fst snd]; rewrite ?Cs, ?Ss; auto. }
    rewrite (shown_nth estimate smooth pad warp md obj Nf) by assumption.
    assert (T : nth k (still :: snd (the_smooth estimate smooth md obj)) still = still).
    { destruct k as [|k]; [reflexivity|]. cbn [nth]. rewrite (smooth_nth estimate smooth md obj k Sl) by (rewrite (proj2 Rs), repeat_length; lia).
      unfold the_smooth. cbn [fst]. rewrite (proj2 Rs), (proj1 Rs), columns_constant by exact Sm. rewrite !nth_repeat. unfold madd, msub, still. cbn. f_equal; ring. }
    rewrite T. unfold well_sized in Ws. rewrite Forall_forall in Ws. destruct (Ws (nth k (frames obj) d)) as [Hr Hc]; [apply nth_In; exact K|].
    destruct (transformed_size pad warp obj bt b still (nth k (frames obj) d) W B) as [Tr Tc].
    apply (transformed_seen pad warp obj bt b still (nth k (frames obj) d) 0 0 P W B Hr Hc eq_refl eq_refl eq_refl); rewrite ?Tr, ?Tc; lia.
Qed.

(** ** C248, the part that holds *)
Theorem C248_steps_partial bt b s a a' h h' : warps warp -> smooths smooth -> known bt -> md <> OtherMode ->
  regular_axis a h (axe_x obj) -> regular_axis a' h' (axe_y obj) -> (2 <= length (frames obj))%nat -> (forall f, In f (frames obj) -> found f <> 0%nat) ->
  if Rle_dec h h' then exists v, snd (get false bt b s) = Ok (Some v) else snd (get false bt b s) = Err ValueErr.
Proof.
  intros W Sm B M Ax Ay Nf Fd. pose proof (proj1 Ax) as H0. rewrite (get_sizes found estimate smooth pad warp md obj Nf Fd M bt b s (proj1 Sm) W B).
  assert (Lx : length (new_axe_x obj b) = (length (axe_x obj) + 2 * b)%nat). { unfold new_axe_x. rewrite (axis_step a h _ Ax). apply (axis_same a h _ Ax). lra. }
  rewrite Lx, Nat.eqb_refl. cbn [andb]. unfold new_axe_y. rewrite (axis_step a h _ Ax), (axis_step a' h' _ Ay). destruct (Rle_dec h h') as [L|L].
  - rewrite (axis_same a' h' _ Ay) by lra. rewrite Nat.eqb_refl. eauto.
  - rewrite (proj2 (Nat.eqb_neq _ _)); [reflexivity|]. pose proof (axis_longer a' h' _ Ay b h ltac:(lra)). lia.
Qed.

(** ** C249 *)
Theorem C249_again d bt b cs : snd (get d bt b (after_calls cs)) = snd (get d bt b new).
Proof. apply get_same. Qed.
Theorem C249_steps cs bt b s : apply_transform pad warp obj bt b (after_calls cs) = (s, Ok tt) -> snd (get false bt b new) = Ok (stabilized s).
Proof. apply apply_history. Qed.
Theorem C249_failure d bt b cs s e : get d bt b (after_calls cs) = (s, Err e) -> stabilized s = stabilized (after_calls cs).
Proof. apply get_err. Qed.
End Stab.
Print Assumptions C243_positions.
Print Assumptions C243_distances.
Print Assumptions C243_continuous.
Print Assumptions C244_from_first.
Print Assumptions C244_trajectory.
Print Assumptions C246_positions_partial.
Print Assumptions C247_still.
Print Assumptions C248_steps_partial.
Print Assumptions C249_again.
Print Assumptions C249_steps.
Print Assumptions C249_failure.

(** ** C246 *)
Theorem C246_follows_refuted : exists (obj : video) (estimate : frame -> frame -> option motion),
  well_sized obj /\ nth 1 (frames obj) (dot 0 0) = nth 2 (frames obj) (dot 0 0) /\
  forall found smooth pad warp md s, (forall f, found f <> 0%nat) -> smooths smooth -> pads pad -> warps warp -> md <> OtherMode ->
  exists v tj, snd (get_stabilized_obj found estimate smooth pad warp md obj false Black 0 s) = Ok (Some v) /\
    raw (fst (get_stabilized_obj found estimate smooth pad warp md obj false Black 0 s)) = Some (tj, [nth 0 tj still; nth 0 tj still]) /\
    pix (nth 1 (frames v) (dot 0 0)) 3 5 = 1 /\ pix (nth 2 (frames v) (dot 0 0)) 3 5 = 0 /\ pix (nth 2 (frames v) (dot 0 0)) 3 4 = 1.
Proof.
  exists jump, jump_estimate. split; [exact jump_sized|]. split; [reflexivity|]. intros found smooth pad warp md s Fd Sm P W M.
  assert (Nf : (2 <= length (frames jump))%nat) by (cbn; lia). assert (Fd' : forall f, In f (frames jump) -> found f <> 0%nat) by auto.
  pose proof (C248_steps_partial found jump_estimate smooth pad warp md jump Black 0 s 0 0 1 1 W Sm ltac:(discriminate) M axis8_regular axis8_regular Nf Fd') as E.
  destruct (Rle_dec 1 1) as [_|N]; [|lra]. destruct E as (v & E).
  destruct (get_stabilized_obj found jump_estimate smooth pad warp md jump false Black 0 s) as [s' r] eqn:G. cbn [snd] in E. subst r.
  destruct (get_ok _ _ _ _ _ _ _ _ _ _ _ _ _ G) as (V0 & Rw & Sd & _).
  assert (V : v = shown pad warp jump Black 0 (snd (the_smooth jump_estimate smooth md jump))) by congruence.
  assert (Raw : the_raw jump_estimate md jump = ([mkmotion 1 0 0; still], [mkmotion 1 0 0; mkmotion 1 0 0])).
  { unfold the_raw. cbn [frames jump]. unfold from_first. cbn [map between steps cumsum].
    rewrite jump_first, jump_second. destruct md; [| |contradiction]; do 2 f_equal; unfold madd, msub, still; cbn; repeat f_equal; ring. }
  exists v, [mkmotion 1 0 0; still]. split; [reflexivity|]. split; [cbn [fst nth]; rewrite Rw, Raw; reflexivity|].
  assert (S1 : the_smooth jump_estimate smooth md jump = ([mkmotion 1 0 0; mkmotion 1 0 0], [mkmotion 1 0 0; still])).
  { unfold the_smooth. rewrite Raw. cbn [fst snd]. pose proof (columns_constant smooth (mkmotion 1 0 0) 2 Sm) as C. cbn [repeat] in C. rewrite C. cbn [combine map fst snd]. f_equal.
    unfold madd, msub, still. cbn. repeat f_equal; ring. }
  assert (Q : forall k c i j j', (S k < 3)%nat -> nth k [mkmotion 1 0 0; still] still = mkmotion (IZR c) 0 0 -> (i < 8)%nat -> (j < 8)%nat -> (j' < 8)%nat -> Z.of_nat j' = (Z.of_nat j + c)%Z ->
      pix (nth (S k) (frames v) (dot 0 0)) i j' = pix (nth (S k) (frames jump) (dot 0 0)) i j).
  { intros k c i j j' K T I J J' Ej. pose proof (shown_nth jump_estimate smooth pad warp md jump Nf Black 0 (S k) (dot 0 0) (proj1 Sm)) as Sh. rewrite <- V in Sh. rewrite Sh by exact K.
    rewrite S1. cbn [snd]. change (nth (S k) [still; mkmotion 1 0 0; still] still) with (nth k [mkmotion 1 0 0; still] still). rewrite T.
    pose proof (transformed_seen pad warp jump Black 0 (mkmotion (IZR c) 0 0) (nth (S k) (frames jump) (dot 0 0)) c 0 P W) as Se.
    assert (Sz : rows (nth (S k) (frames jump) (dot 0 0)) = 8%nat /\ cols (nth (S k) (frames jump) (dot 0 0)) = 8%nat) by (destruct k as [|[|k]]; [split; reflexivity|split; reflexivity|cbn in K; lia]).
    destruct Sz as [Sr Sc]. pose proof (transformed_size pad warp jump Black 0 (mkmotion (IZR c) 0 0) (nth (S k) (frames jump) (dot 0 0)) W ltac:(discriminate)) as [Tr Tc].
    apply Se; try reflexivity; try discriminate; try assumption; rewrite ?Sr, ?Sc, ?Tr, ?Tc; cbn [Z.of_nat]; rewrite ?Z.add_0_r; try assumption; cbn; lia. }
  split; [rewrite (Q 0%nat 1%Z 3 4 5)%nat; cbn; try lia; reflexivity|]. split; [rewrite (Q 1%nat 0%Z 3 5 5)%nat; cbn; try lia; reflexivity|rewrite (Q 1%nat 0%Z 3 4 4)%nat; cbn; try lia; reflexivity].
Qed.
Print Assumptions C246_follows_refuted.

(** ** C245 *)
Theorem C245_rotation_refuted : exists (obj : video) (estimate : frame -> frame -> option motion) (p : R * R) (f g : frame),
  well_sized obj /\ nth_error (frames obj) 0 = Some f /\ nth_error (frames obj) 2 = Some g /\
  forall found smooth pad warp, (forall f, found f <> 0%nat) -> smooths smooth -> pads pad -> warps warp ->
  exists s v l, get_stabilized_obj found estimate smooth pad warp FromFirst obj false Black 0 new = (s, Ok (Some v)) /\
    track_points [p] 0 s = Ok [l] /\ nth 2 l (0, 0) <> moved (motion_between estimate f g) p.
Proof.
  set (est := fun f g : frame => if Req_EM_T (pix g 3 5) 1 then Some (mkmotion 1 0 PI) else Some (mkmotion 1 0 0)).
  set (obj := mkvideo axis8 axis8 [dot 3 3; dot 3 4; dot 3 5]).
  exists obj, est, (0, 0), (dot 3 3), (dot 3 5). split; [repeat constructor|]. split; [reflexivity|]. split; [reflexivity|].
  intros found smooth pad warp Fd Sm P W.
  pose proof (C248_steps_partial found est smooth pad warp FromFirst obj Black 0 new 0 0 1 1 W Sm ltac:(discriminate) ltac:(discriminate) axis8_regular axis8_regular ltac:(cbn; lia) ltac:(auto)) as E.
  destruct (Rle_dec 1 1) as [_|N]; [|lra]. destruct E as (v & E).
  destruct (get_stabilized_obj found est smooth pad warp FromFirst obj false Black 0 new) as [s r] eqn:G. cbn [snd] in E. subst r. exists s, v.
  apply get_ok in G as (_ & R & Sd & _).
  unfold track_points. rewrite Sd, R. cbn [Z.eqb negb]. unfold the_raw. cbn [frames from_first map obj]. eexists. split; [reflexivity|]. split; [reflexivity|].
  assert (E1 : motion_between est (dot 3 3) (dot 3 4) = mkmotion 1 0 0) by (unfold motion_between, est; cbn [pix dot Nat.eqb andb]; destruct (Req_EM_T 0 1); [lra|reflexivity]).
  assert (E2 : motion_between est (dot 3 3) (dot 3 5) = mkmotion 1 0 PI) by (unfold motion_between, est; cbn [pix dot Nat.eqb andb]; destruct (Req_EM_T 1 1); [reflexivity|lra]).
  unfold from_first. cbn [map]. rewrite E1, E2. cbn [steps track nth]. rewrite !next_point_moved. unfold moved, msub, still. cbn [mx my ma].
  rewrite !Rminus_0_r, cos_0, sin_0, cos_PI, sin_PI. intro H. injection H as H1 H2. lra.
Qed.
Print Assumptions C245_rotation_refuted.

(** ** C248 *)
Theorem C248_works_refuted : forall found estimate smooth pad warp md obj bt b s a a' h h', warps warp -> smooths smooth -> known bt -> md <> OtherMode ->
  regular_axis a h (axe_x obj) -> regular_axis a' h' (axe_y obj) -> (2 <= length (frames obj))%nat -> (forall f, In f (frames obj) -> found f <> 0%nat) -> h' < h ->
  snd (get_stabilized_obj found estimate smooth pad warp md obj false bt b s) = Err ValueErr.
Proof.
  intros found estimate smooth pad warp md obj bt b s a a' h h' W Sm B M Ax Ay Nf Fd H.
  pose proof (C248_steps_partial found estimate smooth pad warp md obj bt b s a a' h h' W Sm B M Ax Ay Nf Fd) as E. destruct (Rle_dec h h'); [lra|exact E].
Qed.
Print Assumptions C248_works_refuted.

(** ** the hypotheses are met *)
Lemma example_get md bt b : md <> OtherMode -> known bt -> exists v, snd (get_stabilized_obj one_found jump_estimate keep example_pad example_warp md jump false bt b new) = Ok (Some v).
Proof.
  intros M B. pose proof (C248_steps_partial one_found jump_estimate keep example_pad example_warp md jump bt b new 0 0 1 1 example_warps keep_smooths B M axis8_regular axis8_regular ltac:(cbn; lia) ltac:(discriminate)) as E.
  destruct (Rle_dec 1 1); [exact E|lra].
Qed.
Example C243_example : exists ls, track_points [(1, 2); (3, 4)] 0 (history one_found jump_estimate keep example_pad example_warp Continuous jump [Get false Black 2]) = Ok ls.
Proof.
  destruct (example_get Continuous Black 2 ltac:(discriminate) ltac:(discriminate)) as (v & E). unfold history. cbn [fold_left after].
  destruct (get_stabilized_obj _ _ _ _ _ _ _ _ _ _ new) as [s r] eqn:G. cbn [snd] in E. subst r. apply get_ok in G as (_ & R & S & _). cbn [fst]. unfold track_points. rewrite S, R. cbn. eauto.
Qed.
Example C244_example : exists ls, track_points [(1, 2); (3, 4)] 0 (history one_found jump_estimate keep example_pad example_warp FromFirst jump [Get false Black 2]) = Ok ls.
Proof.
  destruct (example_get FromFirst Black 2 ltac:(discriminate) ltac:(discriminate)) as (v & E). unfold history. cbn [fold_left after].
  destruct (get_stabilized_obj _ _ _ _ _ _ _ _ _ _ new) as [s r] eqn:G. cbn [snd] in E. subst r. apply get_ok in G as (_ & R & S & _). cbn [fst]. unfold track_points. rewrite S, R. cbn. eauto.
Qed.
Example C247_example : exists v, snd (get_stabilized_obj one_found (fun _ _ => None) keep example_pad example_warp Continuous jump false Reflect 3 new) = Ok (Some v) /\ pix (nth 1 (frames v) (dot 0 0)) 6 7 = 1.
Proof.
  destruct (C247_still one_found (fun _ _ => None) keep example_pad example_warp Continuous jump Reflect 3 new 0 0 1 1 (dot 0 0) example_pads example_warps keep_smooths
    ltac:(discriminate) ltac:(discriminate) jump_sized axis8_regular axis8_regular ltac:(lra) ltac:(cbn; lia) ltac:(discriminate) ltac:(reflexivity)) as (v & E & _ & _ & _ & _ & _ & Px).
  exists v. split; [exact E|]. change (pix (nth 1 (frames v) (dot 0 0)) (3 + 3) (4 + 3) = 1). rewrite (Px 1 3 4)%nat; cbn; try lia. reflexivity.
Qed.
Example C248_example : smooths keep /\ warps example_warp /\ regular_axis 0 1 (axe_x jump). Proof. split; [exact keep_smooths|]. split; [exact example_warps|exact axis8_regular]. Qed.
Example C249_example : exists s, apply_transform example_pad example_warp jump Black 1 (history one_found jump_estimate keep example_pad example_warp Continuous jump [Apply Black 1; Compute false; Smooth; Compute true]) = (s, Ok tt).
Proof.
  unfold history. cbn [fold_left after].
  destruct (compute_works one_found jump_estimate Continuous jump ltac:(cbn; lia) ltac:(discriminate) ltac:(discriminate) new) as (n & C).
  change (fst (apply_transform example_pad example_warp jump Black 1 new)) with new. rewrite C. cbn [fst smoothed stabilized new].
  destruct (smooth_transform keep (mkstate n (Some (the_raw jump_estimate Continuous jump)) None None)) as [s2 [[]|e]] eqn:E2.
  2:{ exfalso. revert E2. cbn. discriminate. }
  apply (smooth_ok jump_estimate keep Continuous jump (mkstate n (Some (the_raw jump_estimate Continuous jump)) None None) s2 eq_refl) in E2 as (_ & S2 & _). cbn [fst].
  change (fst (compute_transform one_found jump_estimate Continuous jump true s2)) with s2.
  destruct (example_get Continuous Black 1 ltac:(discriminate) ltac:(discriminate)) as (v & E).
  destruct (get_is_apply one_found jump_estimate keep example_pad example_warp Continuous jump ltac:(cbn; lia) ltac:(discriminate) ltac:(discriminate) Black 1 new) as (t & St & G). rewrite E in G.
  pose proof (apply_same example_pad example_warp jump Black 1 s2 t) as Sa. rewrite S2, St in Sa. specialize (Sa eq_refl).
  destruct (apply_transform example_pad example_warp jump Black 1 t) as [t' [[]|e]]; [|discriminate G]. destruct (apply_transform example_pad example_warp jump Black 1 s2) as [s3 [[]|e]]; [eauto|discriminate Sa].
Qed.
