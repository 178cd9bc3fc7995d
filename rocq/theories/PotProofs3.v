(** * PotProofs3: the strengths of the panels, the walls, the histories, the scaling and the grids. *)
From Coq Require Import Reals List Bool Lra Lia Psatz.
From Verif Require Import Res PotModel PotSpec PotProofs PotProofs2.
Import ListNotations.
#[local] Open Scope R_scope.

Lemma dot_times : forall a b, dot_list a b = times a b.
Proof. induction a as [|x a IH]; intros [|y b]; cbn; reflexivity. Qed.
Lemma app_inj_l : forall {X} (a c b d : list X), length a = length c -> a ++ b = c ++ d -> a = c /\ b = d.
Proof. induction a as [|x a IH]; intros [|y c] b d L E; cbn in L; try discriminate L; cbn in E; [split; [reflexivity|exact E]|]. injection E as -> E. destruct (IH c b d) as [-> ->]; [lia|exact E|]. split; reflexivity. Qed.
Lemma indexed_length : forall {X} (l : list X) k, length (indexed k l) = length l.
Proof. induction l as [|x l IH]; intro k; cbn; [reflexivity|]. rewrite IH. reflexivity. Qed.
Lemma indexed_map : forall {X Y} (f : X -> Y) l k, indexed k (map f l) = map (fun q => (fst q, f (snd q))) (indexed k l).
Proof. intros X Y f. induction l as [|x l IH]; intro k; cbn; [reflexivity|]. rewrite IH. reflexivity. Qed.
Lemma indexed_app : forall {X} (l m : list X) k, indexed k (l ++ m) = indexed k l ++ indexed (k + length l) m.
Proof.
  induction l as [|x l IH]; intros m k; cbn [app indexed length].
  - replace (k + 0)%nat with k by lia. reflexivity.
  - rewrite IH. cbn [app]. do 3 f_equal. lia.
Qed.
Lemma indexed_snd : forall {X} (l : list X) k, map snd (indexed k l) = l.
Proof. induction l as [|x l IH]; intro k; cbn; [reflexivity|]. rewrite IH. reflexivity. Qed.
Lemma indexed_range : forall {X} (l : list X) k q, In q (indexed k l) -> (k <= fst q < k + length l)%nat.
Proof. induction l as [|x l IH]; intros k q I; [destruct I|]. destruct I as [<-|I]; cbn; [lia|]. apply IH in I. cbn. lia. Qed.
Lemma sum_app : forall a b, sum_list (a ++ b) = sum_list a + sum_list b.
Proof. induction a as [|x a IH]; intro b; cbn; [ring|]. rewrite IH. ring. Qed.
Lemma times_app : forall a s b t, length a = length s -> times (a ++ b) (s ++ t) = times a s + times b t.
Proof. induction a as [|x a IH]; intros [|y s] b t E; cbn in E; try discriminate E; cbn; [ring|]. injection E as E. rewrite IH by exact E. ring. Qed.

(** ** a panel without its strength *)
Definition blank (p : panel) : panel := mkpanel (p_a p) (p_b p) 0 0.
Lemma blank_new : forall a b p, new_panel a b = Ok p -> p = mkpanel a b 0 0.
Proof. intros a b p. unfold new_panel. destruct (Req_EM_T (fst a) (fst b)); [destruct (Req_EM_T (snd a) (snd b)); [discriminate|]|]; intro E; injection E as <-; reflexivity. Qed.

Section Solve.
Variable quad : (R -> R) -> R -> R -> R.
Variable solve : list (list R) -> list R -> res (list R).

Lemma integral_blank : forall x y p dx dy, integral quad x y (blank p) dx dy = integral quad x y p dx dy.
Proof. reflexivity. Qed.
Lemma normal_blank : forall ps, normal_matrix quad (map blank ps) = normal_matrix quad ps.
Proof. intros. unfold normal_matrix. rewrite indexed_map, map_map. apply map_ext. intros [i p]. cbn [fst snd]. rewrite map_map. apply map_ext. intros [j q]. reflexivity. Qed.
Lemma tangent_blank : forall ps, tangent_matrix quad (map blank ps) = tangent_matrix quad ps.
Proof. intros. unfold tangent_matrix. rewrite indexed_map, map_map. apply map_ext. intros [i p]. cbn [fst snd]. rewrite map_map. apply map_ext. intros [j q]. reflexivity. Qed.
Lemma combine_blank_l : forall {Y} (f : panel -> Y -> R) ps (l : list Y), (forall p y, f (blank p) y = f p y) ->
  map (fun rp => f (snd rp) (fst rp)) (combine l (map blank ps)) = map (fun rp => f (snd rp) (fst rp)) (combine l ps).
Proof. intros Y f ps. induction ps as [|p ps IH]; intros [|y l] H; cbn; try reflexivity. rewrite H, IH by exact H. reflexivity. Qed.
Lemma combine_blank_r : forall {Y Z} (f : panel -> Y -> Z) ps (l : list Y), (forall p y, f (blank p) y = f p y) ->
  map (fun q => f (fst q) (snd q)) (combine (map blank ps) l) = map (fun q => f (fst q) (snd q)) (combine ps l).
Proof. intros Y Z f ps. induction ps as [|p ps IH]; intros [|y l] H; cbn; try reflexivity. rewrite H, IH by exact H. reflexivity. Qed.
Lemma solved_blank : forall u alpha ps, solved_panels quad solve u alpha (map blank ps) = solved_panels quad solve u alpha ps.
Proof.
  intros. unfold solved_panels. rewrite normal_blank, tangent_blank, map_map. unfold blank at 1. cbn [p_a p_b].
  replace (map (fun x : panel => - u * cos (alpha - p_beta {| p_a := p_a x; p_b := p_b x; p_sigma := 0; p_vt := 0 |})) ps) with (map (fun p => - u * cos (alpha - p_beta p)) ps) by (apply map_ext; reflexivity).
  destruct (solve (normal_matrix quad ps) (map (fun p => - u * cos (alpha - p_beta p)) ps)) as [sg|e]; [|reflexivity]. cbn [bind].
  rewrite (combine_blank_l (fun p r => dot_list r sg + u * sin (alpha - p_beta p)) ps) by reflexivity.
  rewrite (combine_blank_r (fun p y => mkpanel (p_a p) (p_b p) (fst y) (snd y)) ps) by reflexivity. reflexivity.
Qed.

Hypothesis EX : exact_solve solve.
Lemma solved_length : forall u alpha ps qs, solved_panels quad solve u alpha ps = Ok qs -> length qs = length ps /\ map blank qs = map blank ps.
Proof.
  intros u alpha ps qs E. unfold solved_panels in E. destruct (solve _ _) as [sg|e] eqn:S; cbn [bind] in E; [|discriminate E]. injection E as <-.
  apply EX in S as [L _]. rewrite map_length in L.
  set (vt := map _ (combine (tangent_matrix quad ps) ps)).
  assert (V : length vt = length ps).
  { unfold vt. rewrite map_length, combine_length. unfold tangent_matrix. rewrite map_length, indexed_length. lia. }
  assert (C : length (combine sg vt) = length ps) by (rewrite combine_length; lia).
  split; [rewrite map_length, combine_length, C; lia|]. rewrite map_map. unfold blank at 1. cbn [p_a p_b].
  clearbody vt. clear - C. revert C. generalize (combine sg vt) as l. induction ps as [|p ps IH]; intros [|y l] C; cbn in C; try discriminate C; [reflexivity|].
  cbn [combine map fst]. f_equal. apply IH. lia.
Qed.

(** ** the state of a system *)
Definition same_obj (o o' : obj) : Prop :=
  o_nodes o = o_nodes o' /\ o_wall o = o_wall o' /\ map blank (o_panels o) = map blank (o_panels o') /\ (o_wall o = false -> o_panels o = o_panels o').
Definition same_sys (s t : system) : Prop := s_u s = s_u t /\ s_alpha s = s_alpha t /\ Forall2 same_obj (s_1d s) (s_1d t) /\ Forall2 same_obj (s_2d s) (s_2d t).
Lemma same_obj_refl : forall o, same_obj o o.
Proof. intro o. repeat split; reflexivity. Qed.
Lemma same_objs_refl : forall os, Forall2 same_obj os os.
Proof. induction os; constructor; [apply same_obj_refl|assumption]. Qed.
Lemma same_obj_len : forall o o', same_obj o o' -> length (o_panels o) = length (o_panels o').
Proof. intros o o' [_ [_ [E _]]]. rewrite <- (map_length blank (o_panels o)), E, map_length. reflexivity. Qed.
Lemma wall_panels_same : forall os os', Forall2 same_obj os os' -> map blank (wall_panels os) = map blank (wall_panels os').
Proof.
  induction 1 as [|o o' os os' S _ IH]; [reflexivity|]. unfold wall_panels. cbn [flat_map]. rewrite !map_app. fold (wall_panels os) (wall_panels os'). rewrite IH.
  destruct S as [_ [W [P _]]]. rewrite <- W. destruct (o_wall o); [rewrite P|]; reflexivity.
Qed.
Lemma wall_panels_len : forall os os', Forall2 same_obj os os' -> length (wall_panels os) = length (wall_panels os').
Proof. intros os os' F. rewrite <- (map_length blank (wall_panels os)), (wall_panels_same _ _ F), map_length. reflexivity. Qed.
Lemma put_same : forall os os', Forall2 same_obj os os' -> forall l, put_panels l os = put_panels l os'.
Proof.
  induction 1 as [|o o' os os' S _ IH]; intro l; [reflexivity|]. cbn [put_panels]. pose proof (same_obj_len _ _ S) as L. destruct S as [N [W [P B]]]. rewrite <- W, L.
  destruct (o_wall o) eqn:Z; rewrite IH; [rewrite N; reflexivity|]. f_equal. destruct o, o'. cbn in *. subst. rewrite B by reflexivity. reflexivity.
Qed.
Lemma solving_same : forall s t, same_sys s t -> solving_sigma quad solve s = solving_sigma quad solve t.
Proof.
  intros s t [U [A [F1 F2]]]. unfold solving_sigma. rewrite <- (solved_blank (s_u s)), <- (solved_blank (s_u t)). unfold solid_panels. rewrite !map_app.
  rewrite (wall_panels_same _ _ F1), (wall_panels_same _ _ F2), U, A, (wall_panels_len _ _ F1).
  destruct (solved_panels _ _ _ _ _) as [ps|e]; [|reflexivity]. cbn [bind]. rewrite (put_same _ _ F1), (put_same _ _ F2). reflexivity.
Qed.
Lemma put_keeps : forall os l, length l = length (wall_panels os) -> map blank l = map blank (wall_panels os) -> Forall2 same_obj (put_panels l os) os /\ wall_panels (put_panels l os) = l.
Proof.
  induction os as [|o os IH]; intros l L B.
  - cbn in *. destruct l; [split; [constructor|reflexivity]|discriminate L].
  - unfold wall_panels in L, B |- *. cbn [flat_map put_panels] in *. fold (wall_panels os) in *. destruct (o_wall o) eqn:W.
    + rewrite app_length in L. rewrite map_app in B.
      set (n := length (o_panels o)) in *.
      assert (F : length (firstn n l) = n) by (rewrite firstn_length; lia).
      rewrite <- (firstn_skipn n l) in B. rewrite map_app in B. apply app_inj_l in B; [|rewrite !map_length; unfold n in *; exact F].
      destruct B as [B1 B2]. destruct (IH (skipn n l)) as [I1 I2]; [rewrite skipn_length; lia|exact B2|]. split.
      * constructor; [|exact I1]. repeat split; cbn; try assumption; try (symmetry; assumption). discriminate.
      * cbn [flat_map o_wall o_panels]. unfold wall_panels in I2. rewrite I2. apply firstn_skipn.
    + cbn [app] in L, B. destruct (IH l L B) as [I1 I2]. split; [constructor; [apply same_obj_refl|exact I1]|]. cbn [flat_map]. rewrite W. exact I2.
Qed.
End Solve.
