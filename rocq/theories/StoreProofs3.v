(** * StoreProofs3: concatenation of files in a series; concrete cases. *)
From Coq Require Import String Ascii Permutation.
From Verif Require Import Num Res ListLib SortLib SeqSpec Arr FieldModel ScalarFieldModel VectorFieldModel FilesModel FilesSpec FilesProofs FilesProofs2
  TemporalModel TemporalSpec TemporalProofs SpatialModel StoreModel StoreSpec StoreProofs StoreProofs2.
#[local] Open Scope string_scope.
#[local] Open Scope list_scope.

Fixpoint add_all {S F} (add : S -> F -> res S) (s : S) (l : list F) : res S :=
  match l with [] => Ok s | f :: r => match add s f with Ok s1 => add_all add s1 r | Err e => Err e end end.
Lemma imts_loop {O B F S} (cd : codec O B) (pick : O -> option F) (add : S -> F -> res S) (d : store B) l os : reads cd d l os ->
  forall w s s', wdisk w = d -> add_all add s (flat_map (fun o => match pick o with Some f => [f] | None => [] end) os) = Ok s' ->
  exists w', (fix loop (w : world B) (s : S) (l : list path) : world B * outcome S :=
      match l with
      | [] => (w, Done s)
      | p :: r =>
        if (String.eqb (ext_of p) ".imt" || String.eqb (ext_of p) ".cimt")%bool then
          match import cd w p with
          | (w1, Done o) => match pick o with
                            | None => loop w1 s r
                            | Some f => match add s f with Ok s1 => loop w1 s1 r | Err e => (w1, Fails e) end
                            end
          | (w1, Missing n d) => (w1, Missing n d)
          | (w1, Fails e) => (w1, Fails e)
          end
        else loop w s r
      end) w s l = (w', Done s') /\ wdisk w' = d.
Proof.
  induction 1 as [|p l os N1 N2 R IH|p l o os E I R IH]; intros w s s' W A.
  - injection A as <-. eauto.
  - assert (X : (String.eqb (ext_of p) ".imt" || String.eqb (ext_of p) ".cimt")%bool = false).
    { apply orb_false_intro; apply not_true_is_false; intro H; apply String.eqb_eq in H; contradiction. }
    rewrite X. now apply IH.
  - assert (X : (String.eqb (ext_of p) ".imt" || String.eqb (ext_of p) ".cimt")%bool = true).
    { destruct E as [E|E]; rewrite E; reflexivity. }
    rewrite X. pose proof (I true) as I1. rewrite (import_ext cd (mkworld d true) w p) in I1 by (cbn; congruence).
    pose proof (import_disk cd w p) as D. destruct (import cd w p) as [w1 oc]. cbn in I1, D. subst oc. cbn [flat_map] in A.
    destruct (pick o) as [f|]; cbn [app] in A.
    + cbn [add_all] in A. destruct (add s f) as [s1|]; [|discriminate]. apply IH; congruence.
    + apply IH; [congruence|exact A].
Qed.
(** when all the files are read and all their fields of the right kind are accepted, the new file holds them all *)
Lemma imts_lemma {O B F S} (cd : codec O B) (pick : O -> option F) (add : S -> F -> res S) (wrap : S -> O) init listing w src dst q os s :
  src <> [] -> present (wdisk w) src -> stored_as true dst q -> plain dst -> writable_at (wdisk w) q ->
  reads cd (wdisk w) (listing src) os ->
  add_all add init (flat_map (fun o => match pick o with Some f => [f] | None => [] end) os) = Ok s ->
  saves cd true (wrap s) ->
  exists w', imts_to_imt cd pick add wrap init listing w src dst = (w', Done tt) /\ snd (import cd w' q) = Done (wrap s) /\
    forall r, r <> q -> wdisk w' r = wdisk w r.
Proof.
  intros NS PS ST P W R A V. unfold imts_to_imt. destruct (check_old_lemma (wdisk w) src NS) as [C _]. rewrite (C PS).
  assert (D : check_path (wdisk w) true dst = inl dst).
  { destruct ST as (d & n & -> & ST). destruct (check_new_lemma (wdisk w) d n) as [X _]. apply X. destruct W as [_ W].
    assert (RD : removelast q = d) by (destruct ST as [[_ ->]|[_ ->]]; now rewrite removelast_snoc). rewrite RD in W. destruct W as [->|W]; [now left|right; unfold present; rewrite W; discriminate]. }
  rewrite D. destruct (imts_loop cd pick add (wdisk w) (listing src) os R w init s eq_refl A) as (w1 & E & DW). rewrite E.
  assert (X : snd (export cd w1 (wrap s) dst true) = Done tt) by (apply (export_done cd w1 (wrap s) dst true q ST); rewrite DW; split; [exact W|apply V]).
  exists (after_export cd w1 (wrap s) dst true). split; [now rewrite X|split].
  - apply (store_round_trip cd w1 (wrap s) dst true q [] ST P V X). intros x [].
  - intros r N. rewrite (export_frame cd w1 (wrap s) dst true q (after_export cd w1 (wrap s) dst true) r ST (after_in _ _ _ _ _) N). now rewrite DW.
Qed.
(** the fields of a series so made are all at the time 0 *)
Lemma series_of {F} (ops : fops F) asort l : is_argsort asort -> forall t g, tf_ok t -> (tff t = [] \/ (tfu t = one_unit /\ tfg t = g)) -> (forall x, In x (tft t) -> x = 0%num) ->
  (forall f, In f l -> o_grid ops f = g) -> l <> [] ->
  exists t', add_all (add_to_series ops asort) t l = Ok t' /\ Permutation (tff t') (l ++ tff t) /\ tfg t' = g /\ length (tft t') = length (tff t') /\ (forall x, In x (tft t') -> x = 0%num).
Proof.
  intro AS. induction l as [|f l IH]; intros t g TO U Z G N; [congruence|]. cbn [add_all]. unfold add_to_series at 1.
  destruct (tf_add_lemma ops asort t f 0%num one_unit AS TO) as (t1 & E & O1 & U1 & G1 & P1).
  { reflexivity. } { destruct U as [U|[U1 U2]]; [now left|right]. split; [now symmetry|]. rewrite U2. apply G. now left. }
  rewrite E. assert (Pf : Permutation (tff t1) (f :: tff t)).
  { apply (Permutation_map snd) in P1. unfold frames in P1. cbn [map snd] in P1. destruct TO as [L1 _], O1 as [L2 _].
    assert (SC : forall (a : list num) (b : list F), length a = length b -> map snd (combine a b) = b).
    { induction a as [|x a IHa]; intros [|y b]; cbn; try discriminate; [reflexivity|]. intros [= H]. now rewrite IHa. }
    now rewrite !SC in P1. }
  assert (Z1 : forall x, In x (tft t1) -> x = 0%num).
  { intros x I. apply (Permutation_map fst) in P1. unfold frames in P1. cbn [map fst] in P1. destruct TO as [L1 _], O1 as [L2 _].
    assert (SC : forall (a : list num) (b : list F), length a = length b -> map fst (combine a b) = a).
    { induction a as [|y a IHa]; intros [|z b]; cbn; try discriminate; [reflexivity|]. intros [= H]. now rewrite IHa. }
    rewrite !SC in P1 by assumption. apply (Permutation_in _ P1) in I. destruct I as [<-|I]; [reflexivity|now apply Z]. }
  assert (Gf : tfg t1 = g) by (rewrite G1; apply G; now left).
  destruct l as [|f2 l].
  - exists t1. split; [reflexivity|split; [exact Pf|split; [exact Gf|split; [apply O1|exact Z1]]]].
  - destruct (IH t1 g O1) as (t' & E' & P' & G' & L' & Z'); [right; auto|exact Z1|intros; apply G; now right|discriminate|].
    exists t'. split; [exact E'|split; [|auto]]. etransitivity; [exact P'|].
    etransitivity; [apply Permutation_app_head, Pf|]. symmetry. apply (Permutation_middle (f2 :: l)).
Qed.
Lemma imts_series {F} (ops : fops F) asort l g : is_argsort asort -> (forall f, In f l -> o_grid ops f = g) -> l <> [] ->
  exists t, add_all (add_to_series ops asort) tf_new l = Ok t /\ Permutation (tff t) l /\ tfg t = g /\ length (tft t) = length (tff t) /\ (forall x, In x (tft t) -> x = 0%num).
Proof.
  intros AS G N. destruct (series_of ops asort l AS tf_new g) as (t & E & P & X); [|now left|intros x []|exact G|exact N|].
  - split; [reflexivity|]. intros i j A C. cbn in C. lia.
  - exists t. rewrite app_nil_r in P. auto.
Qed.
