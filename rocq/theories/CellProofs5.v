(** * CellProofs5: the whole list of positions. *)
From Coq Require Import Reals Lra Psatz List ZArith Lia Bool.
From Verif Require Import Res PbiModel PbiSpec PbiProofs PbiProofs2 PbiProofs3 CellModel CellSpec CellProofs CellProofs2 CellProofs3 CellProofs4.
Import ListNotations.
#[local] Open Scope R_scope.

Lemma centre_eq f i j : centre f (i, j) = centre_of f i j.
Proof. reflexivity. Qed.
Lemma critical_list f : exists l, NoDup l /\ (forall i j, In (i, j) l <-> critical f i j) /\
  (regular f -> forall eig, cp_cells eig f = map (fun p => (centre_of f (fst p) (snd p), cp_type eig (cell_of f (fst p) (snd p)))) l).
Proof.
  exists (filter (fun p => nzb (cell_index (ftheta f) (fst p) (snd p))) (cells (rows f) (cols f))). split; [apply NoDup_filter, cells_nodup|]. split.
  - intros i j. rewrite filter_In, cells_in. cbn [fst snd]. unfold critical, a_cell, nzb. destruct (Req_EM_T (cell_index (ftheta f) i j) 0) as [E|N]; split.
    + intros [_ X]. discriminate X.
    + intros [_ X]. contradiction.
    + intros [X _]. split; assumption.
    + intros [X _]. split; [exact X|reflexivity].
  - intros R eig. rewrite (cp_cells_regular eig f R). apply map_ext. intros [i j]. reflexivity.
Qed.
Lemma positions_zeros eig f : regular f -> even_axes f -> (forall i j, critical f i j -> plain_corners f i j /\ bent f i j) ->
  exists cs l, NoDup cs /\ (forall i j, In (i, j) cs <-> critical f i j) /\ cp_positions eig f = Ok l /\ map snd l = map snd (cp_cells eig f) /\
    Forall2 (fun c p => exists u v, null_at f (fst c) (snd c) u v /\ fst p = place f (fst c) (snd c) u v) cs l.
Proof.
  intros R EA H. destruct (critical_list f) as (cs & ND & M & C). specialize (C R eig). exists cs.
  unfold cp_positions. rewrite C. clear C.
  assert (G : forall k, (forall i j, In (i, j) k -> critical f i j) ->
    exists l, cp_moved f (map (fun p => (centre_of f (fst p) (snd p), cp_type eig (cell_of f (fst p) (snd p)))) k) = Ok l /\
      map snd l = map snd (map (fun p => (centre_of f (fst p) (snd p), cp_type eig (cell_of f (fst p) (snd p)))) k) /\
      Forall2 (fun c p => exists u v, null_at f (fst c) (snd c) u v /\ fst p = place f (fst c) (snd c) u v) k l).
  { induction k as [|[i j] k IH]; intro K; [exists []; repeat split; constructor|].
    destruct IH as (l & E1 & E2 & E3); [intros; apply K; right; assumption|]. assert (CR : critical f i j) by (apply K; left; reflexivity).
    destruct (H i j CR) as [PC B]. destruct (critical_zero f i j R CR) as [(u & v & U & V & N) _].
    exists ((place f i j u v, cp_type eig (cell_of f i j)) :: l). cbn [map cp_moved fst snd].
    rewrite (in_cell_zero f i j u v R EA CR PC B N). cbn [bind]. rewrite E1. cbn [bind]. split; [reflexivity|]. split; [cbn [map fst snd]; rewrite E2; reflexivity|].
    constructor; [exists u, v; split; [exact N|reflexivity]|exact E3]. }
  destruct (G cs) as (l & E1 & E2 & E3); [intros i j I; apply M; exact I|]. exists l. split; [exact ND|]. split; [exact M|]. split; [exact E1|]. split; [exact E2|exact E3].
Qed.
(** ** no point leaves its cell *)
Lemma keep_cases dx dy p : keep dx dy p = true -> (exists x y, p = (Fin x, Fin y) /\ 0 <= x <= dx /\ 0 <= y <= dy) \/ is_nan (fst p) = true \/ is_nan (snd p) = true.
Proof.
  destruct p as [[x| | |] [y| | |]]; cbn [fst snd is_nan]; intro K; try (right; left; reflexivity); try (right; right; reflexivity);
    try (unfold keep in K; cbn [fst snd eltb egtb orb negb] in K; rewrite ?orb_true_r in K; cbn [orb negb] in K; discriminate K).
  apply keep_fin in K. left. exists x, y. auto.
Qed.
Lemma at_sol_in dx dy x0 y0 p q : keep dx dy p = true -> at_sol x0 y0 p = Some q -> x0 <= fst q <= x0 + dx /\ y0 <= snd q <= y0 + dy.
Proof.
  intros K A. destruct (keep_cases dx dy p K) as [(x & y & -> & X & Y)|N].
  - cbn in A. injection A as <-. cbn [fst snd]. lra.
  - destruct p as [[x| | |] [y| | |]]; cbn in A, N; try discriminate A. destruct N; discriminate.
Qed.
Lemma pick_in dx dy x0 y0 pos l q : 0 <= dx -> 0 <= dy -> (forall p, In p l -> keep dx dy p = true) -> pick_sol x0 y0 pos l = Ok (Some q) ->
  q = pos \/ (x0 <= fst q <= x0 + dx /\ y0 <= snd q <= y0 + dy).
Proof.
  intros DX DY K E. unfold pick_sol in E. destruct l as [|s [|t l]].
  - injection E as <-. left. reflexivity.
  - right. injection E as E. apply (at_sol_in dx dy x0 y0 s); [apply K; left; reflexivity|exact E].
  - right. set (L := filter (fun p => negb (is_nan (fst p) || is_nan (snd p))) (s :: t :: l)) in E.
    assert (F : forall p, In p L -> exists x y, p = (Fin x, Fin y) /\ 0 <= x <= dx /\ 0 <= y <= dy).
    { intros p I. apply filter_In in I. destruct I as [I N]. destruct (keep_cases dx dy p (K p I)) as [X|[X|X]]; [exact X|rewrite X in N; discriminate N|rewrite X, orb_true_r in N; discriminate N]. }
    destruct L as [|a [|b m]]; [discriminate E| |].
    + destruct (F a (or_introl eq_refl)) as (x & y & -> & X & Y). injection E as <-. cbn [fst snd]. lra.
    + destruct (F a (or_introl eq_refl)) as (x & y & -> & X & Y). destruct (F b (or_intror (or_introl eq_refl))) as (x' & y' & -> & X' & Y').
      cbn [fst snd] in E. destruct (er_eqb (Fin x) (Fin x') && er_eqb (Fin y) (Fin y')).
      * injection E as <-. cbn [fst snd]. lra.
      * injection E as <-. cbn [fst snd]. lra.
Qed.
Lemma null_sum_in c a b : null_sum c = [(a, b)] -> (a < 2 /\ b < 2)%nat.
Proof.
  intro E. assert (I : In (a, b) (null_sum c)) by (rewrite E; left; reflexivity). apply filter_In in I. destruct I as [I _]. cbn [In] in I.
  destruct I as [I|[I|[I|[I|[]]]]]; injection I as <- <-; lia.
Qed.
Lemma in_cell_near f i j q dx dy : 0 < dx -> 0 < dy -> even_axis (cols f) (fax f) dx -> even_axis (rows f) (fay f) dy -> a_cell f i j ->
  in_cell f (centre_of f i j) = Ok (Some q) -> Rabs (fst q - fst (centre_of f i j)) <= dx / 2 /\ Rabs (snd q - snd (centre_of f i j)) <= dy / 2.
Proof.
  intros DX DY EX EY [I J]. unfold in_cell, centre_of. cbn [fst snd]. rewrite !(EX 0%nat), !(EY 0%nat) by lia.
  rewrite (first_above_even (cols f) (fax f) dx j DX EX J), (first_above_even (rows f) (fay f) dy i DY EY I). cbn [pred].
  assert (S0 : forall q', q' = (fax f j + dx / 2, fay f i + dy / 2) \/ (fax f j <= fst q' <= fax f j + dx /\ fay f i <= snd q' <= fay f i + dy) ->
    Rabs (fst q' - (fax f j + dx / 2)) <= dx / 2 /\ Rabs (snd q' - (fay f i + dy / 2)) <= dy / 2).
  { intros q' [-> |[A B]]; cbn [fst snd]; split; apply Rabs_le; lra. }
  destruct (any_corner _); [intro E; injection E as <-; apply S0; left; reflexivity|].
  destruct (null_sum (cell_of f i j)) as [|[a b] [|c l]] eqn:NS.
  - destruct (_ || _); [discriminate 1|]. intro E. apply S0.
    apply (pick_in dx dy _ _ _ (inside_sols (cell_of f i j) dx dy)); [lra|lra| |exact E].
    intros p P. unfold inside_sols in P. apply filter_In in P. exact (proj2 P).
  - intro E. injection E as <-. apply S0. right. cbn [fst snd]. destruct (null_sum_in _ _ _ NS) as [A B].
    specialize (EX j J). specialize (EY i I). destruct a as [|[|a]]; [| |lia]; destruct b as [|[|b]]; try lia; rewrite ?Nat.add_0_r, ?Nat.add_1_r; lra.
  - intro E. injection E as <-. apply S0. left. reflexivity.
Qed.
Lemma positions_moved eig f l dx dy : 0 < dx -> 0 < dy -> even_axis (cols f) (fax f) dx -> even_axis (rows f) (fay f) dy ->
  cp_positions eig f = Ok l -> moved (dx / 2) (dy / 2) (cp_cells eig f) l.
Proof.
  intros DX DY EX EY. unfold cp_positions.
  assert (P : forall p, In p (cp_cells eig f) -> exists i j, a_cell f i j /\ fst p = centre_of f i j).
  { intros [pos t] I. destruct (cp_sound_lemma eig f pos t I) as (i & j & A & B & _ & _ & _ & _ & _ & E & _). exists i, j. split; [split; assumption|exact E]. }
  revert l. induction (cp_cells eig f) as [|[p t] r IH]; intros l E; cbn [cp_moved] in E.
  - injection E as <-. constructor.
  - destruct (in_cell f p) as [q|e] eqn:C; [|discriminate E]. cbn [bind] in E. destruct (cp_moved f r) as [s|e] eqn:M; [|discriminate E]. cbn [bind] in E.
    injection E as <-. specialize (IH ltac:(intros; apply P; right; assumption) s eq_refl). destruct q as [q|]; [|constructor; exact IH].
    destruct (P (p, t) (or_introl eq_refl)) as (i & j & A & E). cbn [fst] in E. subst p.
    destruct (in_cell_near f i j q dx dy DX DY EX EY A C) as [X Y]. constructor; assumption.
Qed.
(** ** a regular field never makes it fail *)
Lemma in_cell_total f i j : regular f -> even_axes f -> critical f i j -> exists q, in_cell f (centre_of f i j) = Ok q.
Proof.
  intros R EA CR. pose proof EA as (dx & dy & DX & DY & EX & EY). pose proof CR as [[I J] _].
  unfold in_cell, centre_of. cbn [fst snd]. rewrite !(EX 0%nat), !(EY 0%nat) by lia.
  rewrite (first_above_even (cols f) (fax f) dx j DX EX J), (first_above_even (rows f) (fay f) dy i DY EY I). cbn [pred].
  destruct (any_corner _) eqn:M1; [eexists; reflexivity|]. destruct (null_sum (cell_of f i j)) as [|[a b] [|c l]] eqn:NS; try (eexists; reflexivity).
  destruct (_ || _) eqn:Z; [eexists; reflexivity|].
  assert (PC : plain_corners f i j).
  { apply orb_false_iff in Z. destruct Z as [Z1 Z2]. unfold any_corner, is_zero in Z1, Z2. cbn [fvx fvy cell_of] in Z1, Z2.
    unfold null_sum in NS. cbn [filter fst snd fvx fvy cell_of] in NS.
    intros a b A B. repeat match goal with H : context [Req_EM_T ?x 0] |- _ => destruct (Req_EM_T x 0) in H; [discriminate H|] end.
    destruct a as [|[|a]]; [| |lia]; (destruct b as [|[|b]]; [| |lia]); auto. }
  destruct (Req_dec (cross (g_x f i j) (g_xy f i j)) 0) as [E|N]; [|destruct (Req_dec (cross (g_y f i j) (g_xy f i j)) 0) as [E|N']].
  - pose proof (in_cell_lost f i j R EA CR PC ltac:(intros [X _]; contradiction)) as H. rewrite in_cell_plain in H;
      [|exact EA|split; assumption|intros a b A1 B1; apply R; lia|exact PC]. unfold centre_of in H. rewrite !(EX 0%nat), !(EY 0%nat), (EX j J), (EY i I) in H by lia. eexists. exact H.
  - pose proof (in_cell_lost f i j R EA CR PC ltac:(intros [_ X]; contradiction)) as H. rewrite in_cell_plain in H;
      [|exact EA|split; assumption|intros a b A1 B1; apply R; lia|exact PC]. unfold centre_of in H. rewrite !(EX 0%nat), !(EY 0%nat), (EX j J), (EY i I) in H by lia. eexists. exact H.
  - destruct (critical_zero f i j R CR) as [(u & v & U & V & NA) _].
    pose proof (in_cell_zero f i j u v R EA CR PC (conj N N') NA) as H. rewrite in_cell_plain in H;
      [|exact EA|split; assumption|intros a b A1 B1; apply R; lia|exact PC]. unfold centre_of in H. rewrite !(EX 0%nat), !(EY 0%nat), (EX j J), (EY i I) in H by lia. eexists. exact H.
Qed.
Lemma positions_total eig f : regular f -> even_axes f -> exists l, cp_positions eig f = Ok l.
Proof.
  intros R EA. unfold cp_positions. destruct (critical_list f) as (cs & _ & M & C). rewrite (C R eig). clear C.
  assert (G : forall k, (forall i j, In (i, j) k -> critical f i j) -> exists l, cp_moved f (map (fun p => (centre_of f (fst p) (snd p), cp_type eig (cell_of f (fst p) (snd p)))) k) = Ok l).
  { induction k as [|[i j] k IH]; intro K; [eexists; reflexivity|]. destruct IH as (l & E1); [intros; apply K; right; assumption|].
    destruct (in_cell_total f i j R EA (K i j (or_introl eq_refl))) as [q Q]. cbn [map cp_moved fst snd]. rewrite Q. cbn [bind]. rewrite E1. eexists. reflexivity. }
  apply G. intros i j I. apply M. exact I.
Qed.
(** ** linear fields *)
Lemma linear_flat m n ax ay a b c d cx cy i j : even_axes (linear_vf m n ax ay a b c d cx cy) -> a_cell (linear_vf m n ax ay a b c d cx cy) i j -> ~ bent (linear_vf m n ax ay a b c d cx cy) i j.
Proof.
  intros _ _ [B _]. apply B. unfold cross, g_xy, g_x, minus, vel. cbn [fst snd fvx fvy linear_vf vf_of]. ring.
Qed.
Lemma linear_lost eig m n ax ay a b c d cx cy i j : let f := linear_vf m n ax ay a b c d cx cy in
  a * d - b * c <> 0 -> even_axes f -> (S i < m)%nat -> (S j < n)%nat -> ax j < cx < ax (S j) -> ay i < cy < ay (S i) -> plain_corners f i j ->
  (exists pos t, cp_cells eig f = [(pos, t)]) /\ cp_positions eig f = Ok [].
Proof.
  intros f D EA I J BX BY PC. pose proof EA as (dx & dy & DX & DY & EX & EY).
  pose proof (even_increasing n ax dx DX EX) as IX. pose proof (even_increasing m ay dy DY EY) as IY.
  pose proof (linear_list eig m n ax ay a b c d cx cy i j D IX IY I J BX BY) as L. cbv zeta in L. fold f in L.
  destruct (linear_cell m n ax ay a b c d cx cy i j D IX IY I J BX BY) as (R & CI & _). fold f in R, CI.
  split; [do 2 eexists; exact L|]. unfold cp_positions. rewrite L. cbn [cp_moved].
  change (ax j + (ax 1%nat - ax 0%nat) / 2, ay i + (ay 1%nat - ay 0%nat) / 2) with (centre_of f i j).
  assert (CR : critical f i j) by (split; [split; assumption|rewrite CI; destruct (Rlt_dec (a * d - b * c) 0); lra]).
  rewrite (in_cell_lost f i j R EA CR PC); [reflexivity|]. apply linear_flat; [exact EA|split; assumption].
Qed.
(** the cells that are bent keep their point, the others lose it *)
Lemma bent_dec f i j : {bent f i j} + {~ bent f i j}.
Proof.
  unfold bent. destruct (Req_EM_T (cross (g_x f i j) (g_xy f i j)) 0) as [A|A]; [right; intros [X _]; contradiction|].
  destruct (Req_EM_T (cross (g_y f i j) (g_xy f i j)) 0) as [B|B]; [right; intros [_ X]; contradiction|left; split; assumption].
Qed.
Lemma positions_bent eig f : regular f -> even_axes f -> (forall i j, critical f i j -> plain_corners f i j) ->
  exists cs l, NoDup cs /\ (forall i j, In (i, j) cs <-> critical f i j /\ bent f i j) /\ cp_positions eig f = Ok l /\
    Forall2 (fun c p => exists u v, null_at f (fst c) (snd c) u v /\ fst p = place f (fst c) (snd c) u v) cs l.
Proof.
  intros R EA H. destruct (critical_list f) as (cs & ND & M & C). specialize (C R eig).
  set (B := fun p : nat * nat => if bent_dec f (fst p) (snd p) then true else false). exists (filter B cs).
  unfold cp_positions. rewrite C. clear C.
  assert (G : forall k, (forall i j, In (i, j) k -> critical f i j) ->
    exists l, cp_moved f (map (fun p => (centre_of f (fst p) (snd p), cp_type eig (cell_of f (fst p) (snd p)))) k) = Ok l /\
      Forall2 (fun c p => exists u v, null_at f (fst c) (snd c) u v /\ fst p = place f (fst c) (snd c) u v) (filter B k) l).
  { induction k as [|[i j] k IH]; intro K; [exists []; repeat split; constructor|].
    destruct IH as (l & E1 & E3); [intros; apply K; right; assumption|]. assert (CR : critical f i j) by (apply K; left; reflexivity).
    cbn [map cp_moved fst snd filter]. unfold B at 1. cbn [fst snd]. destruct (bent_dec f i j) as [Y|N].
    - destruct (critical_zero f i j R CR) as [(u & v & U & V & Z) _].
      exists ((place f i j u v, cp_type eig (cell_of f i j)) :: l). rewrite (in_cell_zero f i j u v R EA CR (H i j CR) Y Z). cbn [bind]. rewrite E1. split; [reflexivity|].
      constructor; [exists u, v; split; [exact Z|reflexivity]|exact E3].
    - exists l. rewrite (in_cell_lost f i j R EA CR (H i j CR) N). cbn [bind]. rewrite E1. split; [reflexivity|exact E3]. }
  destruct (G cs) as (l & E1 & E3); [intros i j I; apply M; exact I|]. exists l. split; [apply NoDup_filter; exact ND|]. split; [|split; assumption].
  intros i j. rewrite filter_In, M. unfold B. cbn [fst snd]. destruct (bent_dec f i j) as [Y|N]; split; intros [X1 X2]; split; try assumption; try reflexivity; try discriminate X2; contradiction.
Qed.
(** the cells found by the first step hold exactly one zero *)
Lemma detected_zero eig f pos t : regular f -> In (pos, t) (cp_cells eig f) ->
  exists i j u v, a_cell f i j /\ pos = (fax f j + (fax f 1 - fax f 0) / 2, fay f i + (fay f 1 - fay f 0) / 2) /\ 0 < u < 1 /\ 0 < v < 1 /\ null_at f i j u v /\
    forall u' v', null_at f i j u' v' -> u' = u /\ v' = v.
Proof.
  intros R I. destruct (cp_sound_lemma eig f pos t I) as (i & j & A & B & CI & _ & _ & _ & _ & E & _).
  destruct (critical_zero f i j R (conj (conj A B) CI)) as [(u & v & U & V & N) UN]. exists i, j, u, v. split; [split; assumption|]. split; [exact E|]. split; [exact U|]. split; [exact V|].
  split; [exact N|]. intros u' v' N'. apply UN; assumption.
Qed.
