(** * VpropProofs6: evolutions in time (C154). *)
From Coq Require Import Lia.
From Verif Require Import Num Res ListLib SortLib Arr FieldModel ScalarFieldModel VectorFieldModel FieldSpec ProfileModel ProfileSpec PointsModel TemporalModel TemporalSpec
  ProfileProofs AsciiProofs4 PodProofs TemporalProofs2 VpropModel VpropSpec.

Lemma filter_unique {A} (l : list (num * A)) t a : NoDup (map fst l) -> In (t, a) l -> filter (fun s => qeqb (fst s) t) l = [(t, a)].
Proof.
  induction l as [|[u b] l IH]; intros N I; [contradiction|]. cbn [map fst] in N. inversion N as [|? ? N1 N2]; subst. cbn [filter fst]. destruct I as [I|I].
  - injection I as -> ->. rewrite qeqb_refl. f_equal. clear IH N N2. induction l as [|[u b] l IH]; [reflexivity|]. cbn [filter fst map] in *.
    destruct (qeqb_spec u t) as [->|]; [exfalso; apply N1; now left|]. apply IH. intro; apply N1; now right.
  - destruct (qeqb_spec u t) as [->|]; [exfalso; apply N1; apply in_map_iff; now exists (t, a)|]. auto.
Qed.
Lemma combine_fst {A B} (l : list A) (k : list B) : length l = length k -> map fst (combine l k) = l.
Proof. revert k; induction l as [|a l IH]; intros [|b k]; cbn; intro L; try congruence; try lia. now rewrite IH by lia. Qed.
Lemma combine_snd {A B} (l : list A) (k : list B) : length l = length k -> map snd (combine l k) = k.
Proof. revert k; induction l as [|a l IH]; intros [|b k]; cbn; intro L; try congruence; try lia. now rewrite IH by lia. Qed.
Lemma in_combine_iff {A B} (l : list A) (k : list B) a b : In (a, b) (combine l k) <-> exists i, nth_error l i = Some a /\ nth_error k i = Some b.
Proof.
  revert k; induction l as [|x l IH]; intros [|y k]; cbn [combine].
  - split; [contradiction|intros ([|i] & H1 & _); discriminate].
  - split; [contradiction|intros ([|i] & H1 & _); discriminate].
  - split; [contradiction|intros ([|i] & _ & H1); discriminate].
  - split.
    + intros [E|I]; [injection E as -> ->; now exists O|]. apply IH in I. destruct I as (i & H). now exists (S i).
    + intros ([|i] & H1 & H2); [left; cbn in *; congruence|right; apply IH; now exists i].
Qed.
Lemma field_at_iff t x f : NoDup (tft t) -> length (tft t) = length (tff t) -> (field_at t x = Ok f <-> tracked_frame t x f).
Proof.
  intros N L. unfold field_at, tracked_frame. rewrite <- in_combine_iff. split.
  - destruct (filter _ _) as [|[u g] l] eqn:E; [discriminate|]. intro Q. injection Q as <-. assert (I : In (u, g) (filter (fun s => qeqb (fst s) x) (combine (tft t) (tff t)))) by (rewrite E; now left).
    apply filter_In in I. destruct I as [I Q]. cbn in Q. apply qeqb_eq in Q. now subst.
  - intro I. rewrite (filter_unique _ x f); [reflexivity|now rewrite combine_fst|exact I].
Qed.
Lemma field_at_none t x : (forall f, ~ tracked_frame t x f) -> field_at t x = Err IndexErr.
Proof.
  intro H. unfold field_at. destruct (filter _ _) as [|[u g] l] eqn:E; [reflexivity|]. exfalso. assert (I : In (u, g) (filter (fun s => qeqb (fst s) x) (combine (tft t) (tff t)))) by (rewrite E; now left).
  apply filter_In in I. destruct I as [I Q]. cbn in Q. apply qeqb_eq in Q. subst u. apply (H g). now apply in_combine_iff.
Qed.

Lemma radius_evolution_lemma crit rad t p eps rs : NoDup (tft t) -> length (tft t) = length (tff t) -> length (pv p) = length (xy p) -> length rs = length (xy p) ->
  (forall k x y d r, nth_error (xy p) k = Some (x, y) -> nth_error (pv p) k = Some d -> nth_error rs k = Some r -> exists f c, tracked_frame t d f /\ vortex_radius crit rad f x y eps = Ok (r, c)) ->
  exists q, radius_evolution crit rad t p eps = Ok q /\ prof_ok q /\ pux q = tfu t /\ puy q = ux (tfg t) /\
    Permutation (samples q) (map (fun s => (fst s, (if qeqb (snd s) 0 then None else Some (snd s)), qeqb (snd s) 0)) (combine (pv p) rs)).
Proof.
  intros N L LP LR H. unfold radius_evolution. rewrite LP, Nat.ltb_irrefl. cbn [guard].
  assert (E : mapM (fun s => let* f := field_at t (snd s) in let* r := vortex_radius crit rad f (fst (fst s)) (snd (fst s)) eps in Ok (fst r)) (combine (xy p) (pv p)) = Ok rs).
  { apply mapM_forall2. revert LP LR H. generalize (xy p) (pv p). intros l0 l1 LP LR. revert rs l1 LP LR. induction l0 as [|[x y] l0 IH]; intros [|r rs] [|d l1] LP LR H; cbn in LP, LR; try lia; cbn [combine]; constructor.
    - destruct (H O x y d r eq_refl eq_refl eq_refl) as (f & c & T & R). cbn [fst snd]. rewrite (proj2 (field_at_iff _ _ _ N L) T). cbn [bind]. rewrite R. reflexivity.
    - apply IH; try lia. intros k. exact (H (S k)). }
  rewrite E. cbn [bind].
  destruct (new_lemma (pv p) (map Some rs) (Some (map (fun r => qeqb r 0%num) rs)) (tfu t) (ux (tfg t))) as (q & EQ & OK & U1 & U2 & P & _); [rewrite map_length; lia|rewrite map_length; lia|].
  exists q. split; [exact EQ|]. split; [exact OK|]. split; [exact U1|]. split; [exact U2|]. rewrite P.
  assert (Q : map (fun t0 => (sx t0, if smask t0 then None else sy t0, (smask t0 || isnan (sy t0))%bool)) (zip3 (pv p) (map Some rs) (map (fun r => qeqb r 0%num) rs)) = map (fun s => (fst s, (if qeqb (snd s) 0 then None else Some (snd s)), qeqb (snd s) 0)) (combine (pv p) rs)).
  { generalize (pv p) as l. clear. induction rs as [|r rs IH]; intros [|d l]; try reflexivity. cbn [map combine zip3]. unfold zip3 in *. cbn [combine map]. rewrite IH. f_equal. unfold sx, sy, smask. cbn. now rewrite orb_false_r. }
  rewrite Q. reflexivity.
Qed.
Lemma radius_evolution_missing crit rad t p eps k x y d : nth_error (xy p) k = Some (x, y) -> nth_error (pv p) k = Some d -> (forall f, ~ tracked_frame t d f) ->
  exists e, radius_evolution crit rad t p eps = Err e.
Proof.
  intros H1 H2 H3. unfold radius_evolution. destruct (Nat.ltb (length (pv p)) (length (xy p))); [eexists; reflexivity|]. cbn [guard].
  destruct (mapM _ (combine (xy p) (pv p))) as [rs|e] eqn:E; [|eexists; reflexivity]. exfalso. apply mapM_forall2 in E.
  assert (I : In ((x, y), d) (combine (xy p) (pv p))) by (apply in_combine_iff; now exists k).
  clear H1 H2. induction E as [|a b l l' Q E IH]; [contradiction|]. destruct I as [->|I]; [|auto]. cbn [fst snd] in Q. rewrite (field_at_none _ _ H3) in Q. discriminate.
Qed.

Lemma loop_lemma size prop lim p l r : NoDup (pv p) -> length (pv p) = length (xy p) -> property_loop size prop lim p l = Ok r ->
  subseq (map fst r) (map fst l) /\ forall x v, In (x, v) r <-> exists f pt, In (x, f) l /\ tracked (xy p) (pv p) x pt /\ vortex_property size prop f (fst pt) (snd pt) lim = Ok v.
Proof.
  intros N L. 
  assert (FT : forall x s k, filter (fun s => qeqb (snd s) x) (combine (xy p) (pv p)) = s :: k -> k = [] /\ tracked (xy p) (pv p) x (fst s) /\ forall pt, tracked (xy p) (pv p) x pt -> pt = fst s).
  { intros x s k E. assert (K : forall l0 l1, length l1 = length l0 -> NoDup l1 -> filter (fun s0 : num * num * num => qeqb (snd s0) x) (combine l0 l1) = s :: k -> k = [] /\ tracked l0 l1 x (fst s) /\ forall pt, tracked l0 l1 x pt -> pt = fst s).
    { clear. induction l0 as [|a l0 IH]; intros [|b l1] L N E; cbn in L; try lia; cbn [combine filter snd] in E; [discriminate|]. inversion N as [|? ? N1 N2]; subst. destruct (qeqb_spec b x) as [->|D].
      - injection E as <- E. assert (Z : forall l0, filter (fun s0 : num * num * num => qeqb (snd s0) x) (combine l0 l1) = []).
        { clear - N1. induction l1 as [|b l1 IH]; intros [|a l0]; try reflexivity. cbn [combine filter snd]. destruct (qeqb_spec b x) as [->|]; [exfalso; apply N1; now left|]. apply IH. intro; apply N1; now right. }
        rewrite Z in E. split; [congruence|]. split; [exists O; auto|]. intros pt ([|i] & H1 & H2); [cbn in *; congruence|]. cbn in H1. exfalso. apply N1. now apply nth_error_In in H1.
      - destruct (IH l1 ltac:(lia) N2 E) as (Q1 & (i & Q2) & Q3). split; [exact Q1|]. split; [exists (S i); exact Q2|]. intros pt ([|i'] & H1 & H2); [cbn in H1; congruence|]. apply Q3. now exists i'. }
    now apply K. }
  assert (FN : forall x, filter (fun s => qeqb (snd s) x) (combine (xy p) (pv p)) = [] -> forall pt, ~ tracked (xy p) (pv p) x pt).
  { intros x E pt (i & H1 & H2). assert (I : In (pt, x) (filter (fun s => qeqb (snd s) x) (combine (xy p) (pv p)))) by (apply filter_In; split; [apply in_combine_iff; now exists i|apply qeqb_refl]). now rewrite E in I. }
  revert r; induction l as [|[x f] l IH]; intros r E; cbn [property_loop] in E.
  - injection E as <-. split; [exists []; split; reflexivity|]. intros; split; [contradiction|intros (? & ? & [] & _)].
  - destruct (filter _ _) as [|s k] eqn:EF.
    + destruct (IH _ E) as [(filt & Q1 & Q2) Q]. split; [exists (false :: filt); cbn; split; [lia|exact Q2]|]. intros y v. rewrite Q. split; intros (g & pt & I & T & R); exists g, pt; [split; [now right|auto]|].
      destruct I as [I|I]; [|auto]. injection I as -> ->. exfalso. now apply (FN _ EF pt).
    + apply bind_ok in E. destruct E as (v & EV & E). apply bind_ok in E. destruct E as (w & EW & E). injection E as <-. destruct (IH _ EW) as [(filt & Q1 & Q2) Q]. destruct (FT _ _ _ EF) as (_ & T & U).
      split; [exists (true :: filt); cbn; split; [lia|now f_equal]|]. intros y u. cbn [In]. rewrite Q. split.
      * intros [I|(g & pt & I & TT & R)]; [injection I as <- <-; exists f, (fst s); auto|exists g, pt; auto].
      * intros (g & pt & [I|I] & TT & R); [|right; exists g, pt; auto]. injection I as <- <-. left. rewrite (U _ TT), EV in R. congruence.
Qed.
Lemma property_evolution_lemma size prop t p lim q : NoDup (tft t) -> length (tft t) = length (tff t) -> NoDup (pv p) -> length (pv p) = length (xy p) ->
  property_evolution size prop t p lim = Ok q ->
  exists l, prof_ok q /\ pux q = tfu t /\ Permutation (samples q) (map (fun s => (fst s, snd s, isnan (snd s))) l) /\ l <> [] /\ NoDup (map fst l) /\
    forall x v, In (x, v) l <-> exists f pt u, tracked_frame t x f /\ tracked (xy p) (pv p) x pt /\ vortex_property size prop f (fst pt) (snd pt) lim = Ok (v, u).
Proof.
  intros N L NP LP E. unfold property_evolution in E. apply bind_ok in E. destruct E as (r & ER & E). destruct (loop_lemma _ _ _ _ _ _ NP LP ER) as [(filt & F1 & F2) Q].
  destruct (rev r) as [|[x0 [v0 u0]] rr] eqn:RR; [discriminate|].
  destruct (new_lemma (map fst r) (map (fun s => fst (snd s)) r) None (tfu t) u0) as (q' & EQ & OK & U1 & U2 & P & _); [now rewrite !map_length|exact I|].
  rewrite EQ in E. injection E as <-. exists (map (fun s => (fst s, fst (snd s))) r). split; [exact OK|]. split; [exact U1|]. split.
  { rewrite P. rewrite map_map. cbn [fst snd]. match goal with |- Permutation ?a ?b => enough (X : a = b) by (rewrite X; reflexivity) end.
    clear. rewrite map_length. induction r as [|[x [v u]] r IH]; [reflexivity|]. unfold zip3 in *. cbn [map length repeat combine]. rewrite IH. reflexivity. }
  split; [destruct r; [discriminate|discriminate]|]. split.
  { rewrite map_map. cbn [fst]. rewrite combine_fst in F1, F2 by exact L. match goal with |- NoDup ?a => change a with (map fst r) end. rewrite F2. clear - N F1. revert filt F1; induction N as [|x l H N IH]; intros [|b filt] F; cbn in F; try lia; cbn; [constructor|].
    destruct b; [constructor|]; try (apply IH; lia). intro I. apply H. clear - I. revert filt I; induction l as [|y l IHl]; intros [|b filt] I; cbn in I; try contradiction. destruct b; [destruct I as [->|I]; [now left|right; eauto]|right; eauto]. }
  intros x v. rewrite in_map_iff. split.
  - intros ([y [w u]] & E & I). cbn in E. injection E as -> ->. apply Q in I. destruct I as (f & pt & I & T & R). exists f, pt, u. split; [now apply in_combine_iff|auto].
  - intros (f & pt & u & I & T & R). exists (x, (v, u)). split; [reflexivity|]. apply Q. exists f, pt. split; [now apply in_combine_iff|auto].
Qed.
Lemma property_evolution_disjoint size prop t p lim : (forall x f pt, tracked_frame t x f -> ~ tracked (xy p) (pv p) x pt) -> property_evolution size prop t p lim = Err UnboundErr.
Proof.
  intro H. unfold property_evolution. enough (X : property_loop size prop lim p (combine (tft t) (tff t)) = Ok []) by (rewrite X; reflexivity).
  assert (K : forall x f, In (x, f) (combine (tft t) (tff t)) -> forall pt, ~ tracked (xy p) (pv p) x pt) by (intros x f I pt; apply (H x f); now apply in_combine_iff).
  revert K; generalize (combine (tft t) (tff t)). induction l as [|[x f] l IH]; intro K; [reflexivity|]. cbn [property_loop].
  destruct (filter _ _) as [|s k] eqn:EF; [apply IH; intros; eapply K; right; eauto|]. exfalso.
  assert (I : In s (filter (fun s => qeqb (snd s) x) (combine (xy p) (pv p)))) by (rewrite EF; now left). apply filter_In in I. destruct I as [I Q]. apply qeqb_eq in Q. destruct s as [pt y]. cbn in Q. subst y.
  apply (K x f (or_introl eq_refl) pt). apply in_combine_iff in I. destruct I as (i & H1 & H2). now exists i.
Qed.
