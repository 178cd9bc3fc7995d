(** * MirrorProofs: one line of a mirrored field *)
From Verif Require Import Num Res ListLib Arr FieldModel FieldSpec FieldProofs ScalarFieldModel ScalarProofs BlModel MirrorModel.
Open Scope num_scope.

(** the value get_value reads along a grid line *)
Definition lval (A : list num) (w : nat -> onum) (q : num) : onum :=
  let (i0, i1) := axis_bounds A q in
  if Nat.eqb i0 i1 then w i0 else ointerp1 (nths A i0) (nths A i1) q (w i0) (w i1).

Lemma bounds_cases A q : increasing A -> A <> [] -> nths A 0 <= q -> q <= last A (qz 0) ->
  (exists i, (i < length A)%nat /\ nths A i = q /\ axis_bounds A q = (i, i)) \/
  (exists i, (S i < length A)%nat /\ nths A i < q /\ q < nths A (S i) /\ axis_bounds A q = (i, S i)).
Proof.
  intros H N B1 B2. pose proof (axis_bounds_spec A q H N B1 B2) as Q. destruct (axis_bounds A q) as [a b].
  destruct Q as (La & Lb & [[-> E2]|(-> & E2 & E3)]).
  - left. exists b. auto.
  - right. exists a. auto.
Qed.
Lemma lval_node A w i : increasing A -> (i < length A)%nat -> lval A w (nths A i) = w i.
Proof.
  intros H L. unfold lval. rewrite (axis_bounds_node (fun _ _ _ _ _ => None) A (nths A i) i H) by now apply nths_nth_error.
  now rewrite Nat.eqb_refl.
Qed.
Lemma lval_between A w q i : increasing A -> (S i < length A)%nat -> nths A i < q -> q < nths A (S i) ->
  lval A w q = ointerp1 (nths A i) (nths A (S i)) q (w i) (w (S i)).
Proof.
  intros H L B1 B2. unfold lval. rewrite (axis_bounds_between (fun _ _ _ _ _ => None) A q i H L B1 B2).
  destruct (Nat.eqb_spec i (S i)); [lia|reflexivity].
Qed.
Lemma ointerp1_some a b q u v x : ointerp1 a b q u v = Some x -> u <> None /\ v <> None.
Proof. destruct u, v; cbn; try discriminate. split; discriminate. Qed.

Lemma gv_line_x ci f q y j : grid_sorted (sg f) -> ax (sg f) <> [] -> nth_error (ay (sg f)) j = Some y ->
  nths (ax (sg f)) 0 <= q -> q <= last (ax (sg f)) (qz 0) ->
  get_value ci f q y = Ok (lval (ax (sg f)) (fun i => at_ (values f) i j) q).
Proof.
  intros [HX HY] NX Ey B1 B2.
  assert (ay (sg f) <> []) as NY by (intros Q; rewrite Q in Ey; destruct j; discriminate).
  pose proof (nth_error_nths _ _ _ Ey) as Vj. pose proof (nth_error_Some_lt _ _ _ Ey) as Lj.
  assert (inside f q y) as I.
  { repeat split; auto.
    - rewrite <- Vj. apply increasing_nondecreasing; auto; lia.
    - rewrite last_nths, <- Vj by exact NY. apply increasing_nondecreasing; auto; lia. }
  rewrite get_value_unfold by assumption. rewrite (axis_bounds_node ci _ y j HY Ey). unfold lval.
  destruct (axis_bounds (ax (sg f)) q) as [i0 i1]. rewrite Nat.eqb_refl, andb_true_r. cbn [values at_].
  destruct (at_ (msk f) i0 j) eqn:M0; cbn [orb].
  { destruct (Nat.eqb i0 i1); reflexivity. }
  destruct (at_ (msk f) i1 j) eqn:M1.
  { destruct (Nat.eqb_spec i0 i1) as [->|]; [congruence|]. now destruct (at_ (raw f) i0 j). }
  destruct (Nat.eqb i0 i1); reflexivity.
Qed.
Lemma gv_line_y ci f q x i : grid_sorted (sg f) -> ay (sg f) <> [] -> nth_error (ax (sg f)) i = Some x ->
  nths (ay (sg f)) 0 <= q -> q <= last (ay (sg f)) (qz 0) ->
  get_value ci f x q = Ok (lval (ay (sg f)) (fun j => at_ (values f) i j) q).
Proof.
  intros [HX HY] NY Ex B1 B2.
  assert (ax (sg f) <> []) as NX by (intros Q; rewrite Q in Ex; destruct i; discriminate).
  pose proof (nth_error_nths _ _ _ Ex) as Vj. pose proof (nth_error_Some_lt _ _ _ Ex) as Lj.
  assert (inside f x q) as I.
  { repeat split; auto.
    - rewrite <- Vj. apply increasing_nondecreasing; auto; lia.
    - rewrite last_nths, <- Vj by exact NX. apply increasing_nondecreasing; auto; lia. }
  rewrite get_value_unfold by assumption. rewrite (axis_bounds_node ci _ x i HX Ex). unfold lval.
  destruct (axis_bounds (ay (sg f)) q) as [j0 j1]. rewrite Nat.eqb_refl. cbn [andb values at_].
  destruct (at_ (msk f) i j0) eqn:M0; cbn [orb].
  { destruct (Nat.eqb j0 j1); reflexivity. }
  destruct (at_ (msk f) i j1) eqn:M1.
  { destruct (Nat.eqb_spec j0 j1) as [->|]; [congruence|]. now destruct (at_ (raw f) i j0). }
  destruct (Nat.eqb j0 j1); reflexivity.
Qed.

(** ** The line: kept nodes are those at a signed distance of the plane at least [beta] *)
Section Line.
Variables (A : list num) (dl p sg beta coef : num) (b : nat) (s0 : nat -> onum).
Hypothesis (HA : increasing A) (Hd : 0 < dl) (HE : axis_evenly A dl) (Hs : sg = 1 \/ sg = - (1)).
Hypothesis (Hb : (b < length A)%nat) (Hbe : beta = sg * (nths A b - p)) (Hb0 : 0 <= beta).
Definition kept (i : nat) : bool := qleb beta (sg * (nths A i - p)).
Definition mpos (i : nat) : num := p - (nths A i - p).
Definition onax (q : num) : bool := (qleb (nths A 0) q && qleb q (last A (qz 0)))%bool.
Definition hull (q : num) : bool := (qleb beta (sg * (q - p)) && onax q)%bool.
Definition final (i : nat) : onum :=
  if kept i then s0 i else if hull (mpos i) then oscale coef (lval A s0 (mpos i)) else None.
Hypothesis (H0 : forall i, (i < length A)%nat -> kept i = false -> s0 i = None).
Definition good (w : nat -> onum) : Prop := forall i, (i < length A)%nat -> w i = s0 i \/ w i = final i.

Lemma kept_iff i : kept i = true <-> beta <= sg * (nths A i - p).
Proof. clear Hbe Hb0 Hd HE Hs Hb HA H0. unfold kept. destruct (qleb_spec beta (sg * (nths A i - p))); split; auto; try discriminate. intros. qlra. Qed.
Lemma kept_no i : kept i = false <-> sg * (nths A i - p) < beta.
Proof. clear Hbe Hb0 Hd HE Hs Hb HA H0. unfold kept. destruct (qleb_spec beta (sg * (nths A i - p))); split; auto; try discriminate. intros. qlra. Qed.
Lemma onax_iff q : onax q = true <-> nths A 0 <= q /\ q <= last A (qz 0).
Proof. clear Hbe Hb0 Hd HE Hs Hb HA H0.
  unfold onax. rewrite andb_true_iff.
  destruct (qleb_spec (nths A 0) q), (qleb_spec q (last A (qz 0))); split; intros [? ?]; split; auto; try discriminate; qlra.
Qed.
Lemma hull_iff q : hull q = true <-> beta <= sg * (q - p) /\ onax q = true.
Proof. clear Hbe Hb0 Hd HE Hs Hb HA H0. unfold hull. rewrite andb_true_iff. destruct (qleb_spec beta (sg * (q - p))); split; intros [? ?]; split; auto; try discriminate; qlra. Qed.
Lemma final_kept i : kept i = true -> final i = s0 i.
Proof. unfold final. now intros ->. Qed.
Lemma step_of i : (S i < length A)%nat -> nths A (S i) - nths A i = dl.
Proof. apply HE. Qed.
Lemma no_node_between i k : (S i < length A)%nat -> (k < length A)%nat -> nths A i < nths A k -> nths A k < nths A (S i) -> False.
Proof. intros L1 L2 B1 B2. apply increasing_lt_inv in B1; auto; try lia. apply increasing_lt_inv in B2; auto; lia. Qed.
Lemma Ane : A <> [].
Proof. intros ->. cbn in Hb. lia. Qed.

(** nodes around a point of the hull are kept *)
Lemma hull_nodes i q : (S i < length A)%nat -> nths A i < q -> q < nths A (S i) -> beta <= sg * (q - p) ->
  kept i = true /\ kept (S i) = true.
Proof.
  intros L B1 B2 Hq. rewrite !kept_iff.
  pose proof (fun h1 h2 => no_node_between i b L Hb h1 h2) as NB.
  assert (nths A b <= nths A i \/ nths A (S i) <= nths A b) as [C|C].
  { destruct (qltb_spec (nths A i) (nths A b)) as [C1|C1]; [|left; exact C1].
    destruct (qltb_spec (nths A b) (nths A (S i))) as [C2|C2]; [destruct (NB C1 C2)|right; exact C2]. }
  - destruct Hs as [-> | ->]; split; qlra.
  - destruct Hs as [-> | ->]; split; qlra.
Qed.
Lemma good_kept w i : good w -> (i < length A)%nat -> kept i = true -> w i = s0 i.
Proof. intros G L K. destruct (G i L) as [E|E]; [exact E|]. now rewrite E, final_kept. Qed.
(** a node that is not kept and has a value lies beyond the image of the border, and its sources are known *)
Lemma good_added w i : good w -> (i < length A)%nat -> kept i = false -> w i <> None ->
  hull (mpos i) = true /\ lval A s0 (mpos i) <> None.
Proof.
  intros G L K N. destruct (G i L) as [E|E].
  - rewrite (H0 i L K) in E. congruence.
  - unfold final in E. rewrite K in E. destruct (hull (mpos i)); [|congruence]. split; [reflexivity|].
    intro Q. rewrite Q in E. cbn in E. congruence.
Qed.
(** reading in the hull gives what the kept nodes give *)
Lemma read_hull w q : good w -> hull q = true -> lval A w q = lval A s0 q.
Proof.
  intros G Hq. apply hull_iff in Hq. destruct Hq as [Hq Hx]. apply onax_iff in Hx. destruct Hx as [X1 X2].
  destruct (bounds_cases A q HA Ane X1 X2) as [(i & L & <- & _)|(i & L & B1 & B2 & _)].
  - rewrite !lval_node by assumption. apply good_kept; auto. now apply kept_iff.
  - rewrite !(lval_between A _ q i) by assumption. destruct (hull_nodes i q L B1 B2 Hq) as [K1 K2].
    now rewrite !(good_kept w) by (auto; lia).
Qed.
Lemma mpos_dist i : sg * (mpos i - p) = - (sg * (nths A i - p)).
Proof. unfold mpos. destruct Hs as [-> | ->]; qlra. Qed.
Lemma mpos_close i k : mpos k - nths A i = mpos i - nths A k.
Proof. unfold mpos. qlra. Qed.
(** the values used to know a point *)
Lemma lval_sources w q : onax q = true -> lval A w q <> None ->
  (exists i, (i < length A)%nat /\ nths A i = q /\ w i <> None) \/
  (exists i, (S i < length A)%nat /\ nths A i < q /\ q < nths A (S i) /\ w i <> None /\ w (S i) <> None).
Proof.
  intros Hx N. apply onax_iff in Hx. destruct Hx as [X1 X2].
  destruct (bounds_cases A q HA Ane X1 X2) as [(i & L & <- & _)|(i & L & B1 & B2 & _)].
  - left. exists i. rewrite lval_node in N by assumption. auto.
  - right. exists i. rewrite (lval_between A _ q i) in N by assumption.
    destruct (ointerp1 (nths A i) (nths A (S i)) q (w i) (w (S i))) as [x|] eqn:E; [|congruence].
    apply ointerp1_some in E. destruct E. auto.
Qed.

(** when the mirror image of a node without value can be read, the node is not a kept one and the image is in the hull *)
Lemma read_sound w i : good w -> (i < length A)%nat -> w i = None -> onax (mpos i) = true -> lval A w (mpos i) <> None ->
  kept i = false /\ hull (mpos i) = true.
Proof.
  intros G L Wi Hx N.
  destruct (hull (mpos i)) eqn:Hh.
  - split; [|reflexivity]. destruct (kept i) eqn:K; [|reflexivity]. exfalso.
    (* the node lies on the plane *)
    apply kept_iff in K. apply hull_iff in Hh. destruct Hh as [Hh _]. rewrite mpos_dist in Hh.
    assert (mpos i = nths A i) as Q. { unfold mpos. destruct Hs as [-> | ->]; qlra. }
    rewrite Q, lval_node in N by assumption. contradiction.
  - exfalso. assert (sg * (mpos i - p) < beta) as Hq.
    { destruct (qleb_spec beta (sg * (mpos i - p))) as [C|C]; [|exact C].
      assert (hull (mpos i) = true) by (apply hull_iff; auto). congruence. }
    assert (forall k, (k < length A)%nat -> w k <> None -> sg * (nths A k - p) < beta ->
              sg * (nths A k - p) <= - beta /\ lval A s0 (mpos k) <> None /\ onax (mpos k) = true) as AD.
    { intros k Lk Nk Bk. apply kept_no in Bk. destruct (good_added w k G Lk Bk Nk) as [Q1 Q2]. apply hull_iff in Q1.
      destruct Q1 as [Q1 Q3]. rewrite mpos_dist in Q1. split; [qlra|]. auto. }
    assert (forall k, (k < length A)%nat -> w k <> None -> (sg * (nths A k - p) <= - beta /\ lval A s0 (mpos k) <> None /\ onax (mpos k) = true)
              \/ beta <= sg * (nths A k - p)) as CS.
    { intros k Lk Nk. destruct (qleb_spec beta (sg * (nths A k - p))) as [C|C]; [right; exact C|left]. now apply AD. }
    pose proof (mpos_dist i) as MD.
    (* whether the node has a kept position *)
    destruct (kept i) eqn:K.
    + pose proof (good_kept w i G L K) as S0. rewrite Wi in S0. apply kept_iff in K.
      assert (forall k, (k < length A)%nat -> lval A s0 (mpos k) <> None -> onax (mpos k) = true ->
                nths A i - dl < mpos k -> mpos k < nths A i + dl -> False) as RD1.
      { intros k Lk Nk Ok B1 B2.
        assert (forall h, (h < length A)%nat -> (i < h)%nat -> nths A i + dl <= nths A h) as UP.
        { intros h Lh T. assert (nths A (S i) <= nths A h) by (apply increasing_nondecreasing; auto; lia).
          pose proof (step_of i ltac:(lia)). qlra. }
        assert (forall h, (h < i)%nat -> nths A h <= nths A i - dl) as DW.
        { intros h T. destruct i as [|i']; [lia|].
          assert (nths A h <= nths A i') by (apply increasing_nondecreasing; auto; lia).
          pose proof (step_of i' ltac:(lia)). qlra. }
        destruct (lval_sources s0 (mpos k) Ok Nk) as [(h & Lh & Eh & Nh)|(h & Lh & Eh1 & Eh2 & Nh1 & Nh2)].
        - destruct (Nat.lt_trichotomy h i) as [T|[->|T]]; [|congruence|].
          + pose proof (DW h T). qlra.
          + pose proof (UP h Lh T). qlra.
        - destruct (Nat.lt_trichotomy (S h) i) as [T|[<-|T]]; [|congruence|].
          + pose proof (DW (S h) T). qlra.
          + destruct (Nat.eq_dec h i) as [->|T2]; [congruence|]. pose proof (UP h ltac:(lia) ltac:(lia)). qlra. }
      destruct (lval_sources w (mpos i) Hx N) as [(k & Lk & Ek & Nk)|(k & Lk & B1 & B2 & Nk1 & Nk2)].
      * rewrite <- Ek in Hq, MD. destruct (AD k Lk Nk Hq) as (Q1 & Q2 & Q3).
        pose proof (mpos_close i k). apply (RD1 k Lk Q2 Q3); qlra.
      * pose proof (step_of k Lk) as SK. pose proof (mpos_close i k) as MC.
        assert (sg * (nths A k - p) < beta \/ sg * (nths A (S k) - p) < beta) as [C|C].
        { destruct Hs as [-> | ->]; [left|right]; qlra. }
        -- destruct (AD k ltac:(lia) Nk1 C) as (Q1 & Q2 & Q3). apply (RD1 k ltac:(lia) Q2 Q3); qlra.
        -- destruct (AD (S k) Lk Nk2 C) as (Q1 & Q2 & Q3). pose proof (mpos_close i (S k)) as MC2.
           apply (RD1 (S k) Lk Q2 Q3); qlra.
    + apply kept_no in K.
      destruct (lval_sources w (mpos i) Hx N) as [(k & Lk & Ek & Nk)|(k & Lk & B1 & B2 & Nk1 & Nk2)].
      * rewrite <- Ek in Hq, MD. destruct (AD k Lk Nk Hq) as (Q1 & Q2 & Q3). qlra.
      * destruct (CS k ltac:(lia) Nk1) as [(Q1 & _)|Q1], (CS (S k) Lk Nk2) as [(Q2 & _)|Q2].
        -- destruct Hs as [-> | ->]; qlra.
        -- apply (no_node_between k i); auto; destruct Hs as [-> | ->]; qlra.
        -- apply (no_node_between k i); auto; destruct Hs as [-> | ->]; qlra.
        -- destruct Hs as [-> | ->]; qlra.
Qed.

(** one step of the loop on a line: the cell takes its final value, the others do not change *)
Lemma line_step w i : good w -> (i < length A)%nat -> (w i <> None -> w i = final i) /\
  (w i = None -> onax (mpos i) = false -> final i = None) /\
  (w i = None -> onax (mpos i) = true -> final i = oscale coef (lval A w (mpos i))).
Proof.
  intros G L. split; [|split].
  - intro N. destruct (G i L) as [E|E]; [|exact E]. destruct (kept i) eqn:K; [now rewrite final_kept|].
    rewrite (H0 i L K) in E. contradiction.
  - intros Wi Hx. unfold final. destruct (kept i) eqn:K; [now rewrite <- (good_kept w i G L K)|].
    unfold hull. now rewrite Hx, andb_false_r.
  - intros Wi Hx. destruct (lval A w (mpos i)) as [v|] eqn:E.
    + destruct (read_sound w i G L Wi Hx ltac:(congruence)) as [K Hh]. unfold final. rewrite K, Hh.
      now rewrite <- (read_hull w (mpos i) G Hh), E.
    + cbn. unfold final. destruct (kept i) eqn:K; [now rewrite <- (good_kept w i G L K)|].
      destruct (hull (mpos i)) eqn:Hh; [|reflexivity]. now rewrite <- (read_hull w (mpos i) G Hh), E.
Qed.
End Line.
