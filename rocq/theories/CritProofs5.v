(** * CritProofs5: compute_traj on the whole object. *)
From Verif Require Import Num Res ListLib SortLib SeqSpec Arr FieldModel ScalarFieldModel ProfileModel ProfileSpec PointsModel PointsSpec
  CritModel CritSpec CritProofs CritProofs2 CritProofs3 CritProofs4.
From Coq Require Import Permutation Lia.

Lemma kinds_all k : In k kinds.
Proof. destruct k; cbn; tauto. Qed.
Lemma each_ok {X} (get : crit -> kind -> res X) (put : crit -> kind -> X -> crit) (x : kind -> X) ks c :
  NoDup ks -> (forall k, In k ks -> get c k = Ok (x k)) ->
  (forall c k k' v, k' <> k -> get (put c k v) k' = get c k') ->
  each ks (fun c k => match get c k with Ok v => (put c k v, None) | Err e => (c, Some e) end) c =
  (fold_left (fun c k => put c k (x k)) ks c, None).
Proof.
  intros ND. revert c. induction ND as [|k ks N ND IH]; intros c H L; cbn [each fold_left]; [reflexivity|].
  rewrite (H k (or_introl eq_refl)). apply IH; [|exact L].
  intros k' I. rewrite L; [apply H; right; exact I|]. intros ->; contradiction.
Qed.
Lemma kinds_nodup : NoDup kinds.
Proof. repeat constructor; cbn; intuition discriminate. Qed.
Lemma updk_same {A} (f : kind -> A) k v : updk f k v k = v.
Proof. unfold updk. destruct k; reflexivity. Qed.
Lemma updk_other {A} (f : kind -> A) k v k' : k' <> k -> updk f k v k' = f k'.
Proof. unfold updk. destruct k, k'; cbn; congruence. Qed.
Lemma put_pts_all c (x : kind -> list points) :
  let r := fold_left (fun c k => set_pts c (updk (cpts c) k (x k))) kinds c in
  ctimes r = ctimes c /\ ctraj r = ctraj c /\ ceps r = ceps c /\ cux r = cux c /\ cuy r = cuy c /\ cut r = cut c /\
  forall k, cpts r k = x k.
Proof. cbn. repeat split. intro k; destruct k; reflexivity. Qed.
Lemma put_traj_all c (x : kind -> trajs) :
  let r := fold_left (fun c k => set_traj c (updk (ctraj c) k (x k))) kinds c in
  ctimes r = ctimes c /\ cpts r = cpts c /\ ceps r = ceps c /\ cux r = cux c /\ cuy r = cuy c /\ cut r = cut c /\
  forall k, ctraj r k = x k.
Proof. cbn. repeat split. intro k; destruct k; reflexivity. Qed.

(** the point sets with their times as values *)
Definition stampw (f : num * points) : points :=
  match xy (snd f) with
  | [] => snd f
  | _ => mkpts (xy (snd f)) (repeat (fst f) (length (xy (snd f)))) (ptx (snd f)) (pty (snd f)) (ptv (snd f))
  end.
Lemma stamped_ok times l : length l = length times -> stamped times l = Ok (map stampw (combine times l)).
Proof.
  unfold stamped. intro L.
  enough (G : forall pre ts, times = pre ++ ts -> length l = length ts ->
            mapM (fun t => stamp times (fst t) (snd t)) (combine (seq (length pre) (length l)) l) = Ok (map stampw (combine ts l)))
    by (apply (G [] times); auto).
  clear L. induction l as [|p l IH]; intros pre ts E L; destruct ts as [|t ts]; try discriminate L; [reflexivity|].
  cbn [length seq combine mapM map fst snd].
  assert (S1 : stamp times (length pre) p = Ok (stampw (t, p))).
  { unfold stamp, stampw. cbn [fst snd]. destruct (xy p) eqn:Ex; [reflexivity|].
    rewrite E, nth_error_app2 by lia. rewrite Nat.sub_diag. cbn. reflexivity. }
  rewrite S1. cbn [bind]. specialize (IH (pre ++ [t]) ts). rewrite app_length in IH. cbn [length] in IH.
  rewrite Nat.add_1_r in IH. rewrite IH; [reflexivity| |injection L; auto]. rewrite <- app_assoc. exact E.
Qed.
Lemma decompose_ok p : xy p <> [] -> length (pv p) = length (xy p) ->
  exists d, pts_decompose p = Ok d /\ d <> [] /\ flat_map tpoints_of d = combine (xy p) (pv p) /\ forall q, In q d -> same_units q p.
Proof.
  intros N L. unfold pts_decompose. destruct (Nat.eqb_spec (length (xy p)) 1) as [E|E].
  - exists [p]. split; [reflexivity|]. split; [discriminate|]. split; [cbn; apply app_nil_r|].
    intros q [<-|[]]. repeat split.
  - rewrite L, Nat.eqb_refl. cbn [negb].
    exists (map (fun t => mkpts [fst t] [snd t] (ptx p) (pty p) (ptv p)) (combine (xy p) (pv p))). split; [|split; [|split]].
    + generalize (combine (xy p) (pv p)). induction l as [|t l IH]; [reflexivity|]. cbn [mapM map]. rewrite IH. reflexivity.
    + destruct (xy p); [congruence|]. destruct (pv p); [discriminate L|]. discriminate.
    + generalize (combine (xy p) (pv p)). induction l as [|t l IH]; cbn; [reflexivity|]. rewrite IH. destruct t; reflexivity.
    + intros q I. apply in_map_iff in I. destruct I as (t & <- & _). repeat split.
Qed.
Lemma combine_repeat {A B} (l : list A) (t : B) : combine l (repeat t (length l)) = map (fun q => (q, t)) l.
Proof. induction l; cbn; congruence. Qed.
Lemma decomposed_ok fs : exists d, decomposed (map stampw fs) = Ok d /\
  flat_map tpoints_of d = flat_map (fun f => map (fun q => (q, fst f)) (xy (snd f))) fs /\
  (forall q, In q d -> exists f, In f fs /\ same_units q (snd f)).
Proof.
  unfold decomposed. induction fs as [|[t p] fs (d & E & F & U)]; cbn [map filter].
  - exists []. split; [reflexivity|]. split; [reflexivity|]. intros q [].
  - unfold stampw at 1 2. cbn [fst snd flat_map]. destruct (xy p) as [|q0 l] eqn:Ex.
    + rewrite Ex. cbn [length Nat.eqb negb]. exists d. rewrite E. split; [reflexivity|]. split; [cbn; exact F|].
      intros q I. destruct (U q I) as (f & If & S). exists f; split; [right; exact If|exact S].
    + rewrite <- Ex. cbn [xy].
      assert (HL : length (xy p) =? 0 = false) by (rewrite Ex; reflexivity). rewrite HL. cbn [negb mapM].
      destruct (decompose_ok (mkpts (xy p) (repeat t (length (xy p))) (ptx p) (pty p) (ptv p))) as (d1 & E1 & _ & F1 & U1).
      { cbn. rewrite Ex. discriminate. } { cbn. apply repeat_length. }
      rewrite E1. cbn [bind].
      destruct (mapM pts_decompose (filter (fun p => negb (length (xy p) =? 0)) (map stampw fs))) as [r|] eqn:Er; [|discriminate E].
      cbn [bind] in E |- *. injection E as Ed. exists (d1 ++ d). rewrite <- Ed. cbn [concat]. split; [reflexivity|].
      rewrite Ed. rewrite flat_map_app, F, F1. cbn [xy pv]. rewrite combine_repeat. split; [reflexivity|].
      intros q I. apply in_app_iff in I. destruct I as [I|I].
      * exists (t, p). split; [left; reflexivity|]. apply U1 in I. exact I.
      * destruct (U q I) as (f & If & S). exists f; split; [right; exact If|exact S].
Qed.
Lemma located_times c k x : In x (located c k) -> In (snd x) (ctimes c).
Proof.
  unfold located, frames. intro I. apply in_flat_map in I. destruct I as ([t p] & I & J). apply in_map_iff in J.
  destruct J as (q & <- & _). apply in_combine_l in I. exact I.
Qed.
Lemma located_frames c c' : ctimes c' = ctimes c -> (forall k, map xy (cpts c' k) = map xy (cpts c k)) -> forall k, located c' k = located c k.
Proof.
  intros T X k. unfold located, frames. rewrite T. specialize (X k). revert X. generalize (ctimes c) as ts.
  generalize (cpts c k) as l, (cpts c' k) as l'. induction l as [|p l IH]; intros [|p' l'] ts X; try discriminate X; destruct ts; cbn; auto.
  cbn in X. injection X as Xp Xl. rewrite Xp. f_equal. apply IH. exact Xl.
Qed.
Lemma stampw_xy fs : map xy (map stampw fs) = map (fun f => xy (snd f)) fs.
Proof.
  rewrite map_map. apply map_ext. intros [t p]. unfold stampw. cbn [snd fst]. destruct (xy p) eqn:E; [exact E|reflexivity].
Qed.
Lemma combine_map_snd' {A B C} (f : B -> C) (a : list A) (b : list B) : length b = length a -> map (fun t => f (snd t)) (combine a b) = map f b.
Proof. revert b; induction a; intros [|y b] L; cbn in *; try discriminate; f_equal; auto. Qed.

Lemma crit_traj_lemma asort c eps : is_argsort asort -> crit_ok c ->
  exists c', crit_traj asort c eps = (c', None) /\ ctimes c' = ctimes c /\ crit_ok c' /\
    (forall k, map xy (cpts c' k) = map xy (cpts c k)) /\ ceps c' = Some eps /\
    cux c' = cux c /\ cuy c' = cuy c /\ cut c' = cut c /\
    forall k, exists l, trajectories c' k = Some l /\ Permutation (on_trajs l) (located c k) /\
      (forall p, In p l -> contiguous (ctimes c) p /\ steps_within eps (line_of p)) /\
      stable eps (ctimes c) (map line_of l) /\ longest_first l /\
      (forall p q, In p l -> In q l -> same_units p q) /\
      (forall p, In p l -> exists q, In q (cpts c k) /\ same_units p q).
Proof.
  intros A [IT AL]. unfold crit_traj.
  rewrite (each_ok (fun c k => stamped (ctimes c) (cpts c k)) (fun c k l => set_pts c (updk (cpts c) k l))
             (fun k => map stampw (combine (ctimes c) (cpts c k)))).
  2: apply kinds_nodup.
  2:{ intros k _. cbn [ctimes cpts set_eps]. apply stamped_ok. apply AL. }
  2:{ intros c0 k k' v N. cbn. rewrite updk_other by exact N. reflexivity. }
  pose proof (put_pts_all (set_eps c (Some eps)) (fun k => map stampw (combine (ctimes c) (cpts c k)))) as PA. cbv zeta in PA.
  set (c1 := fold_left _ kinds (set_eps c (Some eps))) in *. clearbody c1.
  destruct PA as (T1 & R1 & E1 & U1 & V1 & W1 & P1). cbn [set_eps ctimes ctraj ceps cux cuy cut] in *.
  assert (EV : forall k, exists t l, (let* d := decomposed (cpts c1 k) in time_evolution asort d (ctimes c1) eps) = Ok t /\ traj_list t = Some l /\
      Permutation (on_trajs l) (located c k) /\ (forall p, In p l -> contiguous (ctimes c) p /\ steps_within eps (line_of p)) /\
      stable eps (ctimes c) (map line_of l) /\ longest_first l /\ (forall p q, In p l -> In q l -> same_units p q) /\
      (forall p, In p l -> exists q, In q (cpts c k) /\ same_units p q)).
  { intro k. rewrite P1, T1. destruct (decomposed_ok (combine (ctimes c) (cpts c k))) as (d & Ed & Fd & Ud). rewrite Ed. cbn [bind].
    assert (LO : flat_map tpoints_of d = located c k) by exact Fd.
    destruct (time_evolution_ok asort d (ctimes c) eps A (increasing_NoDup _ IT)) as (t & l & Et & El & Pl & Ol & Sl & Ll & Un).
    - rewrite LO. intros x I. apply (located_times c k). exact I.
    - intros Nd. destruct d as [|q d]; [congruence|]. destruct (Ud q (or_introl eq_refl)) as ([t p] & If & _).
      apply in_combine_l in If. intro H; rewrite H in If; destruct If.
    - exists t, l. rewrite LO in Pl. split; [exact Et|]. split; [exact El|]. split; [exact Pl|]. split; [exact Ol|].
      split; [exact Sl|]. split; [exact Ll|]. destruct d as [|p0 r].
      + assert (HL : l = []).
        { cbn in LO. rewrite <- LO in Pl. apply Permutation_sym, Permutation_nil in Pl.
          destruct l as [|p l]; [reflexivity|]. exfalso. destruct (Ol p (or_introl eq_refl)) as [(Nx & Lx & _) _].
          cbn in Pl. destruct (xy p); [congruence|]. destruct (pv p); [discriminate Lx|]. discriminate Pl. }
        subst l. split; [intros ? ? []|intros ? []].
      + split.
        * intros p q Ip Iq. destruct (Un p0 r eq_refl p Ip) as (A1 & A2 & A3). destruct (Un p0 r eq_refl q Iq) as (B1 & B2 & B3).
          repeat split; congruence.
        * intros p Ip. destruct (Un p0 r eq_refl p Ip) as (A1 & A2 & A3). destruct (Ud p0 (or_introl eq_refl)) as ([t' q] & If & B1 & B2 & B3).
          exists q. apply in_combine_r in If. split; [exact If|]. cbn [snd] in *. repeat split; congruence. }
  set (tk := fun k => match (let* d := decomposed (cpts c1 k) in time_evolution asort d (ctimes c1) eps) with Ok t => t | Err _ => TNone end).
  rewrite (each_ok (fun c k => let* d := decomposed (cpts c k) in time_evolution asort d (ctimes c) eps)
                   (fun c k t => set_traj c (updk (ctraj c) k t)) tk).
  2: apply kinds_nodup.
  2:{ intros k _. unfold tk. destruct (EV k) as (t & l & E & _). rewrite E. reflexivity. }
  2:{ intros; reflexivity. }
  pose proof (put_traj_all c1 tk) as PA. cbv zeta in PA.
  set (c2 := fold_left _ kinds c1) in *. clearbody c2.
  destruct PA as (T2 & R2 & E2 & U2 & V2 & W2 & P2).
  assert (X2 : forall k, map xy (cpts c2 k) = map xy (cpts c k)).
  { intro k. rewrite R2, P1, stampw_xy. apply (combine_map_snd' xy). apply AL. }
  exists c2. split; [reflexivity|]. split; [congruence|]. split; [|split; [exact X2|]].
  { split; [rewrite T2, T1; exact IT|]. intro k. rewrite T2, T1. rewrite <- (map_length xy), X2, map_length. apply AL. }
  repeat (split; [congruence|]). intro k. destruct (EV k) as (t & l & Et & El & Q). exists l. split; [|exact Q].
  unfold trajectories. rewrite P2. unfold tk. rewrite Et. destruct t; exact El.
Qed.
