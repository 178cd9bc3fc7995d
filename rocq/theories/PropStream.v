(** * PropStream: stream lines, field lines and track lines, over the real numbers (C224-C233).
    Statements, examples and counterexamples; the proofs are in StreamProofs*.v.  The vocabulary is in StreamSpec.
    Everywhere [flow] stands for the solver, [vel] for the interpolated velocity and [masked] for the masked places: any functions. *)
From Coq Require Import Reals List Bool ZArith Lra Lia.
From Verif Require Import Res StreamModel StreamSpec StreamProofs StreamProofs2 StreamProofs3.
Import ListNotations.
#[local] Open Scope R_scope.

(** a field over [0, 2] x [0, 1] *)
Definition wide : extent := mkext 0 2 0 1.

(** ** C224 *)
Theorem C224_starts e flow vel masked dxy l n k r h : proper e ->
  map (fun x => nth_error x 0) (all_lines (get_streamlines e flow vel masked dxy (Floats l) n k r h)) = map (fun p => Some (p, Some 0)) (filter (fun p => negb (is_outside e p)) l).
Proof. exact (stream_starts e flow vel masked dxy l n k r h). Qed.
Print Assumptions C224_starts.
Theorem C224_outside e p : is_outside e p = false <-> inside e p.
Proof. exact (outside_inside e p). Qed.
Print Assumptions C224_outside.
Theorem C224_one e flow vel masked dxy p n k r h : proper e -> inside e p ->
  exists x, get_streamlines e flow vel masked dxy (One p) n k r h = Single x /\ nth_error x 0 = Some (p, Some 0).
Proof. exact (stream_one e flow vel masked dxy p n k r h). Qed.
Print Assumptions C224_one.
Theorem C224_bounded e flow vel masked dxy s n k r h x : In x (all_lines (get_streamlines e flow vel masked dxy s n k r h)) -> (1 <= length x <= S n)%nat.
Proof. exact (stream_bounded e flow vel masked dxy s n k r h x). Qed.
Print Assumptions C224_bounded.
Example C224_example : proper wide /\ inside wide (1, / 2) /\ ~ inside wide (3, 0).
Proof. unfold proper, inside, wide. cbn. repeat split; lra. Qed.

(** ** C225 *)
Theorem C225_inside e flow vel masked dxy s n r h x i p t : proper e ->
  In x (all_lines (get_streamlines e flow vel masked dxy s n Length r h)) -> nth_error x i = Some (p, t) -> (S i < length x)%nat ->
  inside e p /\ masked (scaled e p) = false.
Proof. exact (stream_inside e flow vel masked dxy s n r h x i p t). Qed.
Print Assumptions C225_inside.
Example C225_example : exists x p t, get_streamlines wide to_the_right (fun _ => (1, 0)) (fun _ => false) (/ 10) (One (2, / 2)) 1 Length 1 false = Single x
  /\ nth_error x 0 = Some (p, t) /\ (1 < length x)%nat.
Proof.
  destruct (stream_leaves wide (/ 10) 1 (/ 2) 0 false) as (q & t & E & _); [unfold proper, wide; cbn; lra|cbn; lra|lra|lra|].
  eexists. exists (2, / 2), (Some 0). split; [exact E|]. split; [reflexivity|cbn; lia].
Qed.

(** ** C226 *)
Theorem C226_time_refuted e vel masked dxy r p h : proper e -> inside e p -> 0 < dxy -> dxy / 40 <= r -> forall far,
  exists n x q t, get_streamlines e to_the_right vel masked dxy (One p) n Time r h = Single x /\ In (q, t) x /\ xb e + far < fst q.
Proof. exact (stream_time_refuted e vel masked dxy r p h). Qed.
Print Assumptions C226_time_refuted.
Example C226_example : proper wide /\ inside wide (1, / 2) /\ / 10 / 40 <= / 4.
Proof. unfold proper, inside, wide. cbn. repeat split; lra. Qed.

(** ** C227 *)
Theorem C227_hide_refuted e dxy r y n : proper e -> ya e <= y <= yb e -> 0 < dxy -> 0 < r ->
  exists q t, get_streamlines e to_the_right (fun _ => (1, 0)) (fun _ => false) dxy (One (xb e, y)) (S n) Length r true = Single [((xb e, y), Some 0); (q, t)] /\ ~ inside e q.
Proof. exact (stream_leaves e dxy r y n true). Qed.
Print Assumptions C227_hide_refuted.
Example C227_example : proper wide /\ ya wide <= / 2 <= yb wide.
Proof. unfold proper, wide. cbn. lra. Qed.

(** ** C228 *)
Theorem C228_integers_refuted e flow vel masked dxy (z : Z * Z) n k r h : xa e < IZR (fst z) < xb e -> ya e < IZR (snd z) < yb e ->
  exists x, get_streamlines e flow vel masked dxy (Ints [z]) n k r h = Single x /\ nth_error x 0 = Some ((xa e, ya e), Some 0) /\ (xa e, ya e) <> (IZR (fst z), IZR (snd z)).
Proof.
  intros A B. destruct (stream_ints e flow vel masked dxy z n k r h A B) as (x & X & Y). exists x. split; [exact X|]. split; [exact Y|].
  intro E. injection E as E _. lra.
Qed.
Print Assumptions C228_integers_refuted.
Example C228_example : let e := mkext 0 10 0 5 in xa e < IZR 3 < xb e /\ ya e < IZR 4 < yb e.
Proof. cbn. lra. Qed.

(** ** C229 *)
Theorem C229_stream e ad v : proper e -> 0 < ad ->
  same_way v (stretched e (followed Streamlines e ad false v)) /\ same_way (opposite v) (stretched e (followed Streamlines e ad true v)).
Proof. exact (followed_stream e ad v). Qed.
Print Assumptions C229_stream.
Theorem C229_orthogonal w e ad rev v : proper e -> 0 < ad -> w <> Streamlines -> dot v (stretched e (followed w e ad rev v)) = 0.
Proof. exact (followed_ortho w e ad rev v). Qed.
Print Assumptions C229_orthogonal.
Theorem C229_field e ad v : proper e -> 0 < ad ->
  same_way (snd v, - fst v) (stretched e (followed Fieldlines e ad false v)) /\ same_way (- snd v, fst v) (stretched e (followed Fieldlines e ad true v)).
Proof.
  intros P D. destruct (followed_field e ad v P D) as [A B]. split; [exact A|]. unfold opposite, field_velocity in B. cbn [fst snd] in B. rewrite Ropp_involutive in B. exact B.
Qed.
Print Assumptions C229_field.
Example C229_example : same_way (1, 1) (stretched wide (followed Streamlines wide 3 false (1, 1))).
Proof. apply followed_stream; [unfold proper, wide; cbn; lra|lra]. Qed.

(** ** C230 *)
Theorem C230_track_refuted e ad v : proper e -> 0 < ad -> v <> (0, 0) ->
  same_way (- snd v, fst v) (stretched e (followed Tracklines e ad true v)) /\ ~ same_way (opposite (- snd v, fst v)) (stretched e (followed Tracklines e ad true v)).
Proof. exact (followed_track e ad v). Qed.
Print Assumptions C230_track_refuted.
Example C230_example : proper wide /\ (1, 0) <> (0, 0).
Proof. split; [unfold proper, wide; cbn; lra|]. intro E. injection E as E. lra. Qed.

(** ** C231 *)
Theorem C231_line e vel delta longmax reverse p : 0 < delta -> inside e p -> let s := fast_line e vel delta longmax reverse longmax [p] in
  nth_error s 0 = Some p /\ (1 <= length s <= Nat.max 1 (longmax - 1))%nat /\
  (forall i q, nth_error s i = Some q -> (S i < length s)%nat -> inside e q) /\
  chain (fun a b => dist a b = delta /\ same_way (if reverse then opposite (vel a) else vel a) (fst b - fst a, snd b - snd a)) s.
Proof. exact (fast_spec e vel delta longmax reverse p). Qed.
Print Assumptions C231_line.
Theorem C231_none e vel delta longmax reverse xy : fast_streamlines e vel delta longmax reverse xy = None <-> (forall p, In p xy -> ~ inside e p).
Proof. exact (fast_seeds e vel delta longmax reverse xy). Qed.
Print Assumptions C231_none.
Theorem C231_each e vel delta longmax reverse xy ls : fast_streamlines e vel delta longmax reverse xy = Some ls ->
  ls = map (fun p => fast_line e vel delta longmax reverse longmax [p]) (filter (fun p => negb (is_outside e p)) xy).
Proof. unfold fast_streamlines. destruct (map _ _) as [|a l]; intro H; [discriminate H|injection H as <-; reflexivity]. Qed.
Print Assumptions C231_each.
Example C231_example : 0 < / 10 /\ inside wide (1, / 2) /\ fast_streamlines wide (fun _ => (1, 0)) (/ 10) 20 false [(1, / 2)] <> None.
Proof.
  assert (I : inside wide (1, / 2)) by (unfold inside, wide; cbn; lra). split; [lra|]. split; [exact I|].
  intro H. exact (proj1 (fast_seeds _ _ _ _ _ _) H (1, / 2) (or_introl eq_refl) I).
Qed.

(** ** C232 *)
Theorem C232_stops e vel delta longmax reverse p : (1 <= longmax)%nat ->
  let r := fast_line e vel delta longmax reverse longmax [p] in let z := nth_pt r (length r - 1) in
  vel z = (0, 0) \/ (longmax - 1 <= length r)%nat \/ back delta r (length r - 1) \/ ~ inside e z.
Proof. intro K. apply fast_end; [discriminate|exact K|cbn [length]; lia]. Qed.
Print Assumptions C232_stops.
Theorem C232_not_back e vel delta longmax reverse p : let r := fast_line e vel delta longmax reverse longmax [p] in
  forall i, (S i < length r)%nat -> ~ back delta r i.
Proof. apply fast_not_back; [discriminate|cbn; intros; lia]. Qed.
Print Assumptions C232_not_back.
Theorem C232_any_bound e vel delta longmax reverse p f : (1 <= longmax)%nat -> (longmax <= f)%nat ->
  fast_line e vel delta longmax reverse f [p] = fast_line e vel delta longmax reverse longmax [p].
Proof. exact (fast_bound e vel delta longmax reverse p f). Qed.
Print Assumptions C232_any_bound.
Example C232_example : back 1 (repeat (0, 0) 20) 15.
Proof. split; [lia|]. exists 0%nat. split; [lia|]. unfold nth_pt. cbn. lra. Qed.

(** ** C233 *)
Theorem C233_reverse e vel delta longmax xy :
  fast_streamlines e vel delta longmax true xy = fast_streamlines e (fun p => opposite (vel p)) delta longmax false xy.
Proof. unfold fast_streamlines. rewrite (map_ext _ (fun p => fast_line e (fun p => opposite (vel p)) delta longmax false longmax [p])); [reflexivity|]. intro p. apply fast_reverse. Qed.
Print Assumptions C233_reverse.
Example C233_example : nth_error (fast_line wide (fun _ => (1, 0)) (/ 10) 20 true 20 [(1, / 2)]) 0 = Some (1, / 2).
Proof. apply fast_spec; [lra|unfold inside, wide; cbn; lra]. Qed.
