From Coq Require Import List Bool ZArith Lia.
From Verif Require Import Res ProtModel ProtSpec ProtProofs ProtProofs2.
Import ListNotations.

Section More.
Context {P V : Type}.
Variable w : work P V.

(** done once, not done again, whatever the parameters *)
Lemma prot_again o mem d o' mem' : snd (start w Compute o mem d) = Ok tt -> (detailled o' = true -> detailled o = true) ->
  let d' := dsk (snd (fst (start w Compute o mem d))) in start w Compute o' mem' d' = ([], mkrun d' (threads o'), Ok tt).
Proof.
  intros H D d'. unfold start. apply compute_nothing. intros f F. cbn [dsk]. apply (gives_compute w o mem f); [|exact H].
  unfold results in *. apply in_app_iff in F. apply in_app_iff. destruct F as [F|F]; [left; exact F|right]. destruct (detailled o'); [rewrite D by reflexivity; exact F|contradiction F].
Qed.

(** recompute_everything, whatever was there *)
Lemma recompute_run o mem d raw : threads_alike w -> d Raw = Some (Whole raw) -> snd (start w Recompute o mem d) = Ok tt ->
  forall f, In f [Cln; Mean; Pod; Rec; Traj] -> holds w (par o) raw (dsk (snd (fst (start w Recompute o mem d)))) f.
Proof.
  intros A R H f F. unfold start, recompute_everything, seq, prepare_data, import, calc in H |- *. cbn [dsk] in H |- *. rewrite R in H |- *.
  destruct (w_clean w (par o) raw) as [c|] eqn:C; [|discriminate H]. destruct (w_mean w (par o) c) as [m|] eqn:M; [|discriminate H].
  unfold seq, export, pod_decomp, pod_reconstr, CP_detection, import, calc, put in H |- *. cbn in H |- *.
  destruct (w_pod w (par o) c) as [x|] eqn:X; [|discriminate H]. cbn in H |- *.
  destruct (w_rec w (par o) false x) as [r|] eqn:Y; [|discriminate H]. cbn in H |- *.
  destruct (thread_limit _ _ _) as [n|] eqn:N; [|discriminate H].
  destruct (w_traj w (par o) n r) as [t|] eqn:T; [|discriminate H]. cbn.
  unfold holds. cbn in F. destruct F as [<-|[<-|[<-|[<-|[<-|[]]]]]]; eexists; cbn; rewrite C; cbn; rewrite ?X; cbn; rewrite ?Y; cbn; rewrite ?(A _ 1%Z n); eauto.
Qed.

(** ** What a program does not write *)
Definition frame (m : prog V) (f : slot) : Prop := forall s, final (m s) f = dsk s f.
Lemma frame_skip f : frame skip f.
Proof. intro s. reflexivity. Qed.
Lemma frame_seq m n f : frame m f -> frame n f -> frame (seq m n) f.
Proof.
  intros A B s. unfold seq. specialize (A s). destruct (m s) as [[l t] [u|e]] eqn:E; [|exact A]. specialize (B t). destruct (n t) as [[l' u'] r]. unfold final in *. cbn in *. congruence.
Qed.
Lemma frame_there g m n f : frame m f -> frame n f -> frame (there g m n) f.
Proof. intros A B s. unfold there. destruct (dsk s g); auto. Qed.
Lemma frame_prepare o f : f <> Cln -> f <> Mean -> frame (prepare_data w o) f.
Proof.
  intros N M s. unfold prepare_data, import, calc. destruct (dsk s Raw) as [[v|]|]; try reflexivity. destruct (w_clean w (par o) v); try reflexivity. destruct (w_mean w (par o) _); try reflexivity.
  cbn. rewrite put_other by exact M. apply put_other. exact N.
Qed.
Lemma frame_pod o f : f <> Pod -> frame (pod_decomp w o) f.
Proof. intros N s. unfold pod_decomp, import, calc. destruct (dsk s Cln) as [[v|]|]; try reflexivity. destruct (w_pod w (par o) v); try reflexivity. cbn. apply put_other. exact N. Qed.
Lemma frame_rec o (det : bool) f : f <> (if det then RecDet else Rec) -> frame (pod_reconstr w o det) f.
Proof. intros N s. unfold pod_reconstr, import, calc. destruct (dsk s Pod) as [[v|]|]; try reflexivity. destruct (w_rec w (par o) det v); try reflexivity. cbn. apply put_other. exact N. Qed.
Lemma frame_traj o mem (det : bool) f : f <> (if det then TrajDet else Traj) -> frame (CP_detection w o mem det) f.
Proof.
  intros N s. unfold CP_detection, import, calc. destruct (dsk s (if det then RecDet else Rec)) as [[v|]|]; try reflexivity. destruct (thread_limit _ _ _); try reflexivity.
  destruct (w_traj w (par o) _ v); try reflexivity. cbn. apply put_other. exact N.
Qed.
Ltac fr := repeat first [apply frame_there|apply frame_seq|apply frame_skip|apply frame_prepare|apply frame_pod|apply frame_rec|apply frame_traj|discriminate].

Lemma prot_details_kept o mem d f : f = RecDet \/ f = TrajDet -> dsk (snd (fst (start w Recompute o mem d))) f = d f.
Proof. intro F. apply (fun H : frame (recompute_everything w o mem) f => H (mkrun d (threads o))). destruct F as [-> | ->]; unfold recompute_everything; fr. Qed.

(** what is there and comes after what is there is not written again *)
Definition upto (f : slot) : list slot :=
  match f with Cln | Mean => [Cln] | Pod => [Cln; Pod] | Rec => [Cln; Pod; Rec] | Traj => [Cln; Pod; Rec; Traj] | _ => [] end.
Lemma compute_keeps o mem d f : In f [Cln; Mean; Pod; Rec; Traj] -> (forall g, In g (upto f) -> d g <> None) ->
  dsk (snd (fst (start w Compute o mem d))) f = d f.
Proof.
  intros F U. unfold start, compute_everything. set (s := mkrun d (threads o)). change (d f) with (dsk s f). assert (U' : forall g, In g (upto f) -> dsk s g <> None) by exact U. clearbody s. clear U d.
  match goal with |- context [seq ?a ?b s] => set (A := a); set (B := b) end.
  assert (FB : frame B f) by (unfold B; cbn in F; destruct F as [<-|[<-|[<-|[<-|[<-|[]]]]]]; destruct (detailled o); fr).
  assert (FA : final (A s) f = dsk s f).
  { unfold A. clear A B FB. unfold there at 1. destruct (dsk s Cln) eqn:X1; [|exfalso; apply (U' Cln); [cbn in F; destruct F as [<-|[<-|[<-|[<-|[<-|[]]]]]]; cbn; auto|exact X1]].
    cbn in F. destruct F as [<-|[<-|F]]; [|shelve|].
    - revert s U' X1. intros s U' X1. match goal with |- final (?m s) ?g = _ => enough (Z : frame m g) by apply Z end. fr.
    - unfold there at 1. destruct (dsk s Pod) eqn:X2; [|exfalso; apply (U' Pod); [destruct F as [<-|[<-|[<-|[]]]]; cbn; auto|exact X2]].
      destruct F as [<-|F]; [match goal with |- final (?m s) ?g = _ => enough (Z : frame m g) by apply Z end; fr|].
      unfold there at 1. destruct (dsk s Rec) eqn:X3; [|exfalso; apply (U' Rec); [destruct F as [<-|[<-|[]]]; cbn; auto|exact X3]].
      destruct F as [<-|[<-|[]]]; [match goal with |- final (?m s) ?g = _ => enough (Z : frame m g) by apply Z end; fr|].
      unfold there. destruct (dsk s Traj) eqn:X4; [cbn; exact X4|exfalso; apply (U' Traj); [cbn; auto|exact X4]].
    Unshelve. match goal with |- final (?m s) ?g = _ => enough (Z : frame m g) by apply Z end. fr. }
  unfold seq. unfold final in FA. destruct (A s) as [[l t] [u|e]]; [|exact FA]. specialize (FB t). unfold final in FB. destruct (B t) as [[l' u'] r]. cbn in *. congruence.
Qed.
Lemma compute_grows o mem d f : d f <> None -> dsk (snd (fst (start w Compute o mem d))) f <> None.
Proof.
  intro H. apply (safe_mono (compute_everything w o mem) (safe_compute w o mem _ (fun _ _ _ _ _ => Logic.I)) (mkrun d (threads o)) f H).
Qed.
(** an event that is a run of compute_everything to its end or exception *)
Definition plain_run (e : event P V) : Prop := match e with Run Compute _ _ => True | _ => False end.
Lemma runs_keep l : (forall e, In e l -> plain_run e) -> forall d f, In f [Cln; Mean; Pod; Rec; Traj] -> (forall g, In g (upto f) -> d g <> None) ->
  history w d l f = d f.
Proof.
  induction l as [|e l IH]; intros H d f F U; [reflexivity|]. change (history w (after_event w d e) l f = d f). rewrite IH; [|intros; apply H; right; assumption|exact F|].
  - pose proof (H e (or_introl eq_refl)) as X. destruct e as [[|] o mem| | | | ]; try contradiction X. apply compute_keeps; assumption.
  - intros g G. pose proof (H e (or_introl eq_refl)) as X. destruct e as [[|] o mem| | | | ]; try contradiction X. apply compute_grows. apply U. exact G.
Qed.

(** ** Interruptions *)
Lemma first_run o mem raw : snd (start w Compute o mem (only_source raw)) = Ok tt ->
  exists c m x r t rest, fst (fst (start w Compute o mem (only_source raw))) =
    let d0 := only_source raw in
    let d1 := put d0 Cln (Some (Whole c)) in let d2 := put d1 Mean (Some (Whole m)) in let d3 := put d2 Pod (Some (Whole x)) in let d4 := put d3 Rec (Some (Whole r)) in
    [put d0 Cln (Some Broken); d1; put d1 Mean (Some Broken); d2; put d2 Pod (Some Broken); d3; put d3 Rec (Some Broken); d4; put d4 Traj (Some Broken); put d4 Traj (Some (Whole t))] ++ rest.
Proof.
  intro H. unfold start, compute_everything in H |- *. apply seq_ok in H as (s & A & -> & B & _ & T0). unfold trace in T0. rewrite T0. clear T0.
  match goal with |- context [_ ++ ?z] => generalize z end. intro rest. clear B. unfold there in A |- *. cbn [only_source dsk] in A |- *.
  unfold seq, prepare_data, export, pod_decomp, pod_reconstr, CP_detection, import, calc in A |- *. cbn [only_source dsk] in A |- *.
  destruct (w_clean w (par o) raw) as [c|] eqn:C; [|discriminate A]. destruct (w_mean w (par o) c) as [m|] eqn:M; [|discriminate A]. cbn in A |- *.
  destruct (w_pod w (par o) c) as [x|] eqn:X; [|discriminate A]. cbn in A |- *.
  destruct (w_rec w (par o) false x) as [r|] eqn:Y; [|discriminate A]. cbn in A |- *.
  destruct (thread_limit _ _ _) as [n|] eqn:N; [|discriminate A].
  destruct (w_traj w (par o) n r) as [t|] eqn:T; [|discriminate A]. cbn.
  exists c, m, x, r, t, rest. reflexivity.
Qed.
Lemma prot_broken o mem raw k : snd (start w Compute o mem (only_source raw)) = Ok tt -> (k < 5)%nat ->
  exists f, In f [Cln; Mean; Pod; Rec; Traj] /\ forall l, (forall e, In e l -> plain_run e) -> history w (only_source raw) (Killed_in Compute o mem k :: l) f = Some Broken.
Proof.
  intros H K. destruct (first_run o mem raw H) as (c & m & x & r & t & rest & E). cbv zeta in E.
  set (d := after_event w (only_source raw) (Killed_in Compute o mem k)).
  assert (Ed : d = nth (2 * k + 1) (only_source raw :: fst (fst (start w Compute o mem (only_source raw)))) (last (only_source raw :: fst (fst (start w Compute o mem (only_source raw)))) (only_source raw))) by reflexivity.
  rewrite E in Ed. clearbody d.
  assert (Q : exists f, In f [Cln; Mean; Pod; Rec; Traj] /\ d f = Some Broken /\ forall g, In g (upto f) -> d g <> None).
  { destruct k as [|[|[|[|[|k]]]]]; [..|lia]; cbn [Nat.mul Nat.add nth app] in Ed; subst d.
    - exists Cln. split; [cbn; auto|]. split; [reflexivity|]. intros g [<-|[]]. cbn. discriminate.
    - exists Mean. split; [cbn; auto|]. split; [reflexivity|]. intros g [<-|[]]. cbn. discriminate.
    - exists Pod. split; [cbn; auto|]. split; [reflexivity|]. intros g [<-|[<-|[]]]; cbn; discriminate.
    - exists Rec. split; [cbn; auto|]. split; [reflexivity|]. intros g [<-|[<-|[<-|[]]]]; cbn; discriminate.
    - exists Traj. split; [cbn; auto 6|]. split; [reflexivity|]. intros g [<-|[<-|[<-|[<-|[]]]]]; cbn; discriminate. }
  destruct Q as (f & F & B & U). exists f. split; [exact F|]. intros l L.
  change (history w (only_source raw) (Killed_in Compute o mem k :: l)) with (history w (after_event w (only_source raw) (Killed_in Compute o mem k)) l).
  rewrite runs_keep; [|exact L|exact F|].
  - change (after_event w (only_source raw) (Killed_in Compute o mem k)) with (nth (2 * k + 1) (only_source raw :: fst (fst (start w Compute o mem (only_source raw)))) (last (only_source raw :: fst (fst (start w Compute o mem (only_source raw)))) (only_source raw))).
    rewrite E. rewrite <- Ed. exact B.
  - change (after_event w (only_source raw) (Killed_in Compute o mem k)) with (nth (2 * k + 1) (only_source raw :: fst (fst (start w Compute o mem (only_source raw)))) (last (only_source raw :: fst (fst (start w Compute o mem (only_source raw)))) (only_source raw))).
    rewrite E. rewrite <- Ed. exact U.
Qed.
(** the mean field *)
Lemma prot_mean_lost o mem raw : snd (start w Compute o mem (only_source raw)) = Ok tt ->
  forall l, (forall e, In e l -> plain_run e) -> history w (only_source raw) (Killed Compute o mem 1 :: l) Mean = None.
Proof.
  intros H l L. destruct (first_run o mem raw H) as (c & m & x & r & t & rest & E). cbv zeta in E.
  change (history w (only_source raw) (Killed Compute o mem 1 :: l)) with (history w (after_event w (only_source raw) (Killed Compute o mem 1)) l).
  rewrite runs_keep; [|exact L|cbn; auto|].
  - unfold after_event. cbv zeta. rewrite E. reflexivity.
  - intros g [<-|[]]. unfold after_event. cbv zeta. rewrite E. cbn. discriminate.
Qed.
(** a broken first file makes every run fail *)
Lemma prot_stuck d o mem : d Cln = Some Broken -> d Pod = None -> start w Compute o mem d = ([], mkrun d (threads o), Err EOFErr).
Proof. intros A B. unfold start, compute_everything, seq, there, pod_decomp, import. cbn [dsk]. rewrite A, B. reflexivity. Qed.
End More.

Lemma limit_spec before after n m : thread_limit before after n = Ok m -> (1 <= n)%Z -> (1 <= m <= n)%Z.
Proof.
  unfold thread_limit. intros H N. apply guard_ok in H as [_ H]. injection H as <-.
  destruct (Z.ltb_spec (Z.quot before ((before - after) * 2)) 1) as [A|A].
  - destruct (Z.ltb_spec 1 n); lia.
  - destruct (Z.ltb_spec (Z.quot before ((before - after) * 2)) n); lia.
Qed.
Lemma limit_memory before after n m : thread_limit before after n = Ok m -> (0 <= after < before)%Z -> (1 < m)%Z -> (m * (2 * (before - after)) <= before)%Z.
Proof.
  unfold thread_limit. intros H N M. apply guard_ok in H as [_ H]. injection H as <-.
  assert (D : (Z.quot before ((before - after) * 2) * ((before - after) * 2) <= before)%Z).
  { rewrite Z.mul_comm. apply Z.mul_quot_le; lia. }
  destruct (Z.ltb_spec (Z.quot before ((before - after) * 2)) 1) as [A|A].
  - exfalso. destruct (Z.ltb_spec 1 n) in M; lia.
  - destruct (Z.ltb_spec (Z.quot before ((before - after) * 2)) n) in M |- *; nia.
Qed.
Lemma limit_zero before n : thread_limit before before n = Err GenericErr.
Proof. unfold thread_limit. rewrite Z.sub_diag. reflexivity. Qed.
Lemma prot_unnoticed {P V} (w : work P V) o mem raw raw' o' mem' : threads_alike w -> snd (start w Compute o mem (only_source raw)) = Ok tt -> (detailled o' = true -> detailled o = true) ->
  let d := history w (only_source raw) [Run Compute o mem; Replace raw'] in
  start w Compute o' mem' d = ([], mkrun d (threads o'), Ok tt) /\ forall f, In f (results (detailled o)) -> holds w (par o) raw (history w d [Run Compute o' mem']) f.
Proof.
  intros A H D d.
  assert (G : forall f, In f (results (detailled o)) -> holds w (par o) raw d f).
  { intros f F. pose proof (prot_results w A (par o) raw [] o mem f (fun e X => match X with end) eq_refl H F) as (v & X & Y). exists v. split; [exact X|].
    unfold d. cbn [history fold_left after_event]. rewrite put_other; [exact Y|]. intros ->. unfold results in F. destruct (detailled o); cbn in F; intuition discriminate. }
  assert (N : start w Compute o' mem' d = ([], mkrun d (threads o'), Ok tt)).
  { unfold start. apply compute_nothing. intros f F. cbn [dsk]. destruct (G f) as (v & _ & ->); [|discriminate].
    unfold results in *. apply in_app_iff in F. apply in_app_iff. destruct F as [F|F]; [left; exact F|right]. destruct (detailled o'); [rewrite D by reflexivity; exact F|contradiction F]. }
  split; [exact N|]. intros f F. change (history w d [Run Compute o' mem']) with (dsk (snd (fst (start w Compute o' mem' d)))). rewrite N. apply G. exact F.
Qed.
Lemma prot_details_stale {P V} (w : work P V) o mem raw raw' mem' f : threads_alike w -> snd (start w Compute o mem (only_source raw)) = Ok tt -> detailled o = true -> f = RecDet \/ f = TrajDet ->
  expected w (par o) raw f <> expected w (par o) raw' f -> ~ holds w (par o) raw' (history w (only_source raw) [Run Compute o mem; Replace raw'; Run Recompute o mem']) f.
Proof.
  intros A H D F N (v & X & Y).
  assert (FR : In f (results (detailled o))) by (rewrite D; destruct F as [-> | ->]; cbn; auto 9).
  pose proof (prot_results w A (par o) raw [] o mem f (fun e X => match X with end) eq_refl H FR) as (u & U & Z).
  change (history w (only_source raw) [Run Compute o mem; Replace raw'; Run Recompute o mem']) with
    (dsk (snd (fst (start w Recompute o mem' (put (history w (only_source raw) [Run Compute o mem]) Raw (Some (Whole raw'))))))) in Y.
  rewrite prot_details_kept in Y by exact F. rewrite put_other in Y by (destruct F as [-> | ->]; discriminate). cbn [app] in Z. rewrite Z in Y. congruence.
Qed.
(** ** A protocol on numbers *)
Definition toy : work nat nat :=
  mkwork nat nat (fun p v => Ok (v + p)) (fun _ v => Ok (2 * v)) (fun p v => if v <? 100 then Ok (v * 10) else Err ValueErr) (fun _ det v => Ok (if det then v + 2 else v + 1)) (fun p _ v => Ok (v + 1000 * p)).
Lemma toy_alike : threads_alike toy.
Proof. intros p n m v. reflexivity. Qed.
