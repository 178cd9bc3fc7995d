(** * CritProofs6: histories of sets of critical points. *)
From Verif Require Import Num Res ListLib SortLib SeqSpec Arr FieldModel ScalarFieldModel ProfileModel ProfileSpec PointsModel PointsSpec PointsProofs2
  FieldProofs FieldProofs2 ScalarProofs CritModel CritSpec CritProofs CritProofs2 CritProofs3 CritProofs4 CritProofs5.
From Coq Require Import Permutation Lia Sorted.

Lemma increasing_of_sorted l : nondecreasing l -> NoDup l -> increasing l.
Proof.
  induction l as [|x l IH]; intros N D.
  - intros i j _ H. cbn in H; lia.
  - apply nondecreasing_cons in N. inversion D as [|? ? D1 D2]; subst. apply increasing_cons. destruct N as [N1 N2]. split; [apply IH; assumption|].
    intros y I. specialize (N2 y I). assert (x <> y) by (intros ->; contradiction).
    destruct (Qclt_le_dec x y) as [|G]; [assumption|]. exfalso. apply H. apply Qcle_antisym; assumption.
Qed.
Lemma increasing_keeps P l l' : increasing l -> keeps P l l' -> increasing l'.
Proof.
  intros I (o & S & _ & F). revert S. induction F as [|i x o l' E F IH]; intro S.
  - intros a b _ H; cbn in H; lia.
  - inversion S as [|? ? S1 S2]; subst. apply increasing_cons. split; [apply IH; exact S1|].
    intros y Iy. assert (exists j, i < j /\ nth_error l j = Some y) as (j & Hj & Ej).
    { clear -F S2 Iy. rewrite Forall_forall in S2. induction F as [|j z o l' E F IH]; [destruct Iy|].
      destruct Iy as [<-|Iy]; [exists j; split; [apply S2; left; reflexivity|exact E]|].
      apply IH; [|exact Iy]. intros; apply S2; right; assumption. }
    rewrite <- (nth_error_nths _ _ _ E), <- (nth_error_nths _ _ _ Ej). apply I; [exact Hj|]. apply nth_error_Some_lt in Ej; exact Ej.
Qed.
Lemma unit_eqb_refl u : unit_eqb u u = true.
Proof. unfold unit_eqb. rewrite qeqb_refl. rewrite (proj2 (dim_eqb_eq _ _) eq_refl). reflexivity. Qed.

Lemma crit_sort_frames asort c k : is_argsort asort -> length (cpts c k) = length (ctimes c) ->
  length (cpts (crit_sort asort c) k) = length (ctimes (crit_sort asort c)) /\
  nondecreasing (ctimes (crit_sort asort c)) /\ Permutation (ctimes (crit_sort asort c)) (ctimes c) /\
  Permutation (frames (crit_sort asort c) k) (frames c k).
Proof.
  intros A L. unfold frames, crit_sort. cbn [ctimes cpts]. destruct (A (ctimes c)) as [P N].
  split; [rewrite !gather_length; reflexivity|]. split; [exact N|]. split; [apply gather_perm; exact P|].
  rewrite (gather_combine (qz 0) tp_dflt _ _ _ (eq_sym L)).
  - apply gather_perm. rewrite combine_length, L, Nat.min_id. exact P.
  - intros i I. apply (Permutation_in _ P) in I. apply in_seq in I. lia.
Qed.

(** add_point *)
Lemma existsb_time t l : existsb (qeqb t) l = true <-> In t l.
Proof.
  rewrite existsb_exists. split.
  - intros (x & I & E). apply qeqb_eq in E. subst; exact I.
  - intro I. exists t. split; [exact I|apply qeqb_refl].
Qed.
Lemma first_given_in new p : first_given new = Some p -> exists k, new k = Some p.
Proof.
  unfold first_given. cbn. intro H.
  destruct (new Foc) eqn:E1; [exists Foc; congruence|]. destruct (new FocC) eqn:E2; [exists FocC; congruence|].
  destruct (new NodeI) eqn:E3; [exists NodeI; congruence|]. destruct (new NodeO) eqn:E4; [exists NodeO; congruence|].
  destruct (new Sadd) eqn:E5; [exists Sadd; congruence|discriminate].
Qed.
Lemma first_given_none new : first_given new = None -> forall k, new k = None.
Proof.
  unfold first_given. cbn. intro H.
  destruct (new Foc) eqn:E1; [discriminate|]. destruct (new FocC) eqn:E2; [discriminate|]. destruct (new NodeI) eqn:E3; [discriminate|].
  destruct (new NodeO) eqn:E4; [discriminate|]. destruct (new Sadd) eqn:E5; [discriminate|]. intros []; assumption.
Qed.
Lemma crit_add_dup asort c new t : In t (ctimes c) -> crit_add asort c new t = (c, Some ValueErr).
Proof. intro I. unfold crit_add. rewrite (proj2 (existsb_time _ _) I). reflexivity. Qed.
Lemma crit_add_form asort c new t : ~ In t (ctimes c) -> exists c1,
  ctimes c1 = ctimes c /\ cpts c1 = cpts c /\ ctraj c1 = ctraj c /\ ceps c1 = ceps c /\
  (crit_add asort c new t = (c1, Some ValueErr) \/
   exists g, (forall k, given_set new k (g k)) /\
     crit_add asort c new t = (crit_forget (crit_sort asort (set_times (set_pts c1 (fun k => cpts c1 k ++ [g k])) (ctimes c1 ++ [t]))), None)) /\
  (units_agree c new -> snd (crit_add asort c new t) = None) /\
  (snd (crit_add asort c new t) = None -> forall k p, new k = Some p -> ptx p = cux c1 /\ pty p = cuy c1).
Proof.
  intro N. unfold crit_add. destruct (existsb (qeqb t) (ctimes c)) eqn:E; [apply existsb_time in E; contradiction|].
  set (c1 := match ctimes c with [] => match first_given new with Some p => set_uxy c (ptx p) (pty p) | None => c end | _ :: _ => c end).
  assert (H : ctimes c1 = ctimes c /\ cpts c1 = cpts c /\ ctraj c1 = ctraj c /\ ceps c1 = ceps c).
  { unfold c1. destruct (ctimes c) eqn:Et; [destruct (first_given new)|]; cbn; rewrite ?Et; auto. }
  assert (HU : units_agree c new -> forall k p, new k = Some p -> ptx p = cux c1 /\ pty p = cuy c1).
  { intros (u & w & HC & HG) k p Ek. destruct (HG k p Ek) as [-> ->]. unfold c1. destruct (ctimes c) as [|a l] eqn:Et.
    - destruct (first_given new) as [q|] eqn:F.
      + destruct (first_given_in _ _ F) as (k' & Ek'). destruct (HG k' q Ek') as [<- <-]. cbn. auto.
      + rewrite (first_given_none _ F k) in Ek. discriminate.
    - destruct HC as [-> ->]; [discriminate|auto]. }
  assert (EQ : existsb (fun k => negb (unit_eqb (ptx (match new k with Some p => p | None => mkpts [] [] (cux c1) (cuy c1) (cut c1) end)) (cux c1)) ||
                       negb (unit_eqb (pty (match new k with Some p => p | None => mkpts [] [] (cux c1) (cuy c1) (cut c1) end)) (cuy c1)))%bool kinds = false <->
               forall k p, new k = Some p -> ptx p = cux c1 /\ pty p = cuy c1).
  { split.
    - intros X k p Ek. rewrite <- not_true_iff_false, existsb_exists in X.
      destruct (unit_eqb (ptx p) (cux c1)) eqn:A1; [|exfalso; apply X; exists k; split; [apply kinds_all|rewrite Ek, A1; reflexivity]].
      destruct (unit_eqb (pty p) (cuy c1)) eqn:A2; [|exfalso; apply X; exists k; split; [apply kinds_all|rewrite Ek, A1, A2; reflexivity]].
      split; apply unit_eqb_eq; assumption.
    - intro X. rewrite <- not_true_iff_false, existsb_exists. intros (k & _ & B).
      destruct (new k) as [p|] eqn:Ek; cbn [ptx pty] in B.
      + destruct (X k p Ek) as [U1 U2]. rewrite U1, U2, !unit_eqb_refl in B. discriminate.
      + rewrite !unit_eqb_refl in B. discriminate. }
  exists c1. destruct H as (H1 & H2 & H3 & H4). repeat (split; [assumption|]).
  destruct (existsb _ kinds) eqn:X; (split; [|split]).
  - left; reflexivity.
  - intro U. pose proof (proj2 EQ (HU U)) as Q. discriminate Q.
  - intro Y; discriminate Y.
  - right. exists (fun k => match new k with Some p => p | None => mkpts [] [] (cux c1) (cuy c1) (cut c1) end).
    split; [|reflexivity]. intro k. unfold given_set. destruct (new k); cbn; auto.
  - reflexivity.
  - intros _. apply EQ. reflexivity.
Qed.
Lemma crit_add_lemma asort c new t c' : is_argsort asort -> crit_ok c -> crit_add asort c new t = (c', None) ->
  crit_ok c' /\ ~ In t (ctimes c) /\
  forall k, exists p, given_set new k p /\ Permutation (frames c' k) ((t, p) :: frames c k).
Proof.
  intros A [IT AL] E.
  destruct (in_dec Qc_eq_dec t (ctimes c)) as [I|NI]; [rewrite crit_add_dup in E by exact I; discriminate|].
  destruct (crit_add_form asort c new t NI) as (c1 & H1 & H2 & H3 & H4 & [F|(g & G & F)] & _ & _); rewrite F in E; [discriminate|].
  injection E as <-. set (c2 := set_times (set_pts c1 (fun k => cpts c1 k ++ [g k])) (ctimes c1 ++ [t])).
  assert (L : forall k, length (cpts c2 k) = length (ctimes c2)).
  { intro k. unfold c2. cbn. rewrite H2, H1, !app_length, AL. reflexivity. }
  assert (FR : forall k, frames c2 k = frames c k ++ [(t, g k)]).
  { intro k. unfold c2, frames. cbn. rewrite H2, H1, combine_app' by (symmetry; apply AL). reflexivity. }
  split; [|split; [exact NI|]].
  - split.
    + destruct (crit_sort_frames asort c2 Foc A (L Foc)) as (_ & N & P & _). apply increasing_of_sorted; [exact N|].
      apply (Permutation_NoDup (Permutation_sym P)). unfold c2. cbn. rewrite H1.
      apply (Permutation_NoDup (l := t :: ctimes c)); [apply Permutation_cons_append|]. constructor; [exact NI|apply increasing_NoDup; exact IT].
    + intro k. apply (crit_sort_frames asort c2 k A (L k)).
  - intro k. exists (g k). split; [apply G|]. destruct (crit_sort_frames asort c2 k A (L k)) as (_ & _ & _ & P).
    change (frames (crit_forget (crit_sort asort c2)) k) with (frames (crit_sort asort c2) k). rewrite P, FR.
    symmetry. apply Permutation_cons_append.
Qed.
Lemma crit_add_err asort c new t c' e : crit_add asort c new t = (c', Some e) ->
  e = ValueErr /\ ctimes c' = ctimes c /\ cpts c' = cpts c /\ ctraj c' = ctraj c.
Proof.
  intro E. destruct (in_dec Qc_eq_dec t (ctimes c)) as [I|NI].
  - rewrite crit_add_dup in E by exact I. injection E as <- <-. auto.
  - destruct (crit_add_form asort c new t NI) as (c1 & H1 & H2 & H3 & H4 & [F|(g & G & F)] & _ & _); rewrite F in E; [|discriminate].
    injection E as <- <-. auto.
Qed.
Lemma crit_add_accepts asort c new t : ~ In t (ctimes c) -> units_agree c new -> exists c', crit_add asort c new t = (c', None).
Proof.
  intros N U. destruct (crit_add_form asort c new t N) as (c1 & _ & _ & _ & _ & _ & H & _). specialize (H U).
  destruct (crit_add asort c new t) as [c' e]. cbn in H. subst e. exists c'; reflexivity.
Qed.
Lemma crit_add_units asort c new t c' k p : crit_add asort c new t = (c', None) -> new k = Some p ->
  ptx p = cux c' /\ pty p = cuy c'.
Proof.
  intros E Ek. destruct (in_dec Qc_eq_dec t (ctimes c)) as [I|NI]; [rewrite crit_add_dup in E by exact I; discriminate|].
  destruct (crit_add_form asort c new t NI) as (c1 & H1 & H2 & H3 & H4 & F & _ & U). rewrite E in U. specialize (U eq_refl k p Ek).
  destruct F as [F|(g & G & F)]; rewrite F in E; [discriminate|]. injection E as <-. exact U.
Qed.

(** remove_point *)
Lemma crit_del_form c i : crit_ok c ->
  (index_ok (length (ctimes c)) i /\ exists c', crit_del c i = (c', None) /\ ctraj c' = ctraj c /\
     keeps (fun j => ~ designates (length (ctimes c)) i j) (ctimes c) (ctimes c') /\
     forall k, keeps (fun j => ~ designates (length (ctimes c)) i j) (cpts c k) (cpts c' k)) \/
  (~ index_ok (length (ctimes c)) i /\ crit_del c i = (c, Some IndexErr)).
Proof.
  intros [IT AL].
  assert (D : index_ok (length (ctimes c)) i \/ ~ index_ok (length (ctimes c)) i) by (unfold index_ok; lia).
  assert (KD : forall n j, is_designated n [i] j <-> designates n i j).
  { intros n j. split; [intros (x & [<-|[]] & H); exact H|intro H; exists i; split; [left; reflexivity|exact H]]. }
  destruct D as [IO|NO]; [left|right]; (split; [assumption|]).
  - assert (HK : forall A (l : list A), length l = length (ctimes c) -> exists l', np_delete [i] l = Ok l' /\ keeps (fun j => ~ designates (length (ctimes c)) i j) l l').
    { intros A l L. destruct (np_delete_ok [i] l) as (l' & E & K); [rewrite L; repeat constructor; apply IO|].
      exists l'. split; [exact E|]. apply keeps_ext with (2 := K). intros j _. rewrite KD, L. reflexivity. }
    unfold crit_del.
    set (x := fun k => match np_delete [i] (cpts c k) with Ok l => l | Err _ => [] end).
    rewrite (each_ok (fun c k => np_delete [i] (cpts c k)) (fun c k l => set_pts c (updk (cpts c) k l)) x kinds c kinds_nodup).
    2:{ intros k _. unfold x. destruct (HK _ (cpts c k) (AL k)) as (l' & E & _). rewrite E. reflexivity. }
    2:{ intros c0 k k' v N. cbn. rewrite updk_other by exact N. reflexivity. }
    pose proof (put_pts_all c x) as PA. cbv zeta in PA. set (c1 := fold_left _ kinds c) in *. clearbody c1.
    destruct PA as (T1 & R1 & E1 & U1 & V1 & W1 & P1). rewrite T1.
    destruct (HK _ (ctimes c) eq_refl) as (lt & Et & Kt). rewrite Et. eexists. split; [reflexivity|].
    cbn [crit_forget set_eps set_times ctraj ctimes cpts]. split; [exact R1|]. split; [exact Kt|].
    intro k. rewrite P1. unfold x. destruct (HK _ (cpts c k) (AL k)) as (l' & E & K). rewrite E. exact K.
  - unfold crit_del. cbn [each kinds]. rewrite np_delete_err; [reflexivity|].
    intro F. inversion F; subst. rewrite AL in *. contradiction.
Qed.
Lemma crit_del_lemma c i c' : crit_ok c -> crit_del c i = (c', None) -> crit_ok c' /\ index_ok (length (ctimes c)) i /\
  forall k, keeps (fun j => ~ designates (length (ctimes c)) i j) (frames c k) (frames c' k).
Proof.
  intros OK E. destruct (crit_del_form c i OK) as [(IO & c2 & E2 & _ & KT & KP)|[_ E2]]; rewrite E2 in E; [|discriminate].
  injection E as <-. destruct OK as [IT AL]. split; [|split; [exact IO|]].
  - split; [apply (increasing_keeps _ _ _ IT KT)|]. intro k. apply (keeps_length _ _ _ _ _ (AL k) (KP k) KT).
  - intro k. unfold frames. apply keeps_combine; [symmetry; apply AL|exact KT|apply KP].
Qed.
Lemma first_index_spec f l : match first_index f l with
  | Some i => exists x, nth_error l i = Some x /\ f x = true /\ forall j y, j < i -> nth_error l j = Some y -> f y = false
  | None => forall x, In x l -> f x = false end.
Proof.
  induction l as [|x l IH]; cbn; [tauto|]. destruct (f x) eqn:E; cbn.
  - exists x. split; [reflexivity|]. split; [exact E|]. intros; lia.
  - destruct (first_index f l) as [i|]; cbn.
    + destruct IH as (y & E1 & E2 & E3). exists y. split; [exact E1|]. split; [exact E2|].
      intros [|j] z H Ez; [injection Ez as <-; exact E|]. apply (E3 j); [lia|exact Ez].
    + intros y [<-|I]; [exact E|apply IH; exact I].
Qed.
Lemma keeps_filter_time (P : nat -> Prop) (t : num) (ts : list num) (ps : list points) l' i :
  increasing ts -> length ps = length ts -> nth_error ts i = Some t -> (forall j, j < length ts -> (P j <-> j <> i)) ->
  keeps P (combine ts ps) l' -> l' = filter (fun f => negb (qeqb (fst f) t)) (combine ts ps).
Proof.
  intros I L Ei HP K. apply (keeps_unique _ _ _ _ K). rewrite <- keep_map.
  apply keeps_ext with (P := fun j => nth j (map (fun f : num * points => negb (qeqb (fst f) t)) (combine ts ps)) false = true).
  2:{ apply keeps_keep. apply map_length. }
  intros j Hj. assert (Hj' : j < length ts) by (rewrite combine_length in Hj; lia). rewrite HP by exact Hj'.
  rewrite (nth_indep _ false (negb (qeqb (fst (qz 0, tp_dflt)) t))) by (rewrite map_length; exact Hj).
  rewrite (map_nth (fun f : num * points => negb (qeqb (fst f) t))), combine_nth by (symmetry; exact L). cbn [fst].
  rewrite negb_true_iff, qeqb_neq. rewrite <- (nth_error_nths _ _ _ Ei). split; intros H E; apply H.
  - rewrite E; reflexivity.
  - apply (increasing_inj ts); auto. apply nth_error_Some_lt in Ei; exact Ei.
Qed.
Lemma crit_remove_time c t : crit_ok c ->
  (In t (ctimes c) -> exists c', crit_remove c (Some t) None = (c', None) /\ crit_ok c' /\
     forall k, frames c' k = filter (fun f => negb (qeqb (fst f) t)) (frames c k)) /\
  (~ In t (ctimes c) -> crit_remove c (Some t) None = (c, Some ValueErr)).
Proof.
  intros OK. pose proof (first_index_spec (fun x => qeqb x t) (ctimes c)) as S. cbn [crit_remove].
  destruct (first_index (fun x => qeqb x t) (ctimes c)) as [i|]; split; intro H.
  - destruct S as (x & Ex & Ext & _). apply qeqb_eq in Ext. subst x. pose proof (nth_error_Some_lt _ _ _ Ex) as Li.
    destruct (crit_del_form c (Z.of_nat i) OK) as [(IO & c2 & E2 & _ & _ & _)|[NO _]].
    2:{ exfalso. apply NO. unfold index_ok. lia. }
    exists c2. split; [exact E2|]. destruct (crit_del_lemma c (Z.of_nat i) c2 OK E2) as (OK2 & _ & K). split; [exact OK2|].
    intro k. destruct OK as [IT AL]. apply (keeps_filter_time _ t _ _ _ i IT (AL k) Ex) with (2 := K k).
    intros j Hj. unfold designates. split; [intros N ->; apply N; split; [lia|left; reflexivity]|]. intros N [_ [E|E]]; lia.
  - exfalso. destruct S as (x & Ex & Ext & _). apply qeqb_eq in Ext. subst x. apply H. apply nth_error_In in Ex; exact Ex.
  - exfalso. specialize (S t H). rewrite qeqb_refl in S. discriminate.
  - reflexivity.
Qed.
Lemma crit_remove_index c i : crit_ok c ->
  (index_ok (length (ctimes c)) i -> exists c', crit_remove c None (Some i) = (c', None) /\ crit_ok c' /\
     forall k, keeps (fun j => ~ designates (length (ctimes c)) i j) (frames c k) (frames c' k)) /\
  (~ index_ok (length (ctimes c)) i -> crit_remove c None (Some i) = (c, Some IndexErr)).
Proof.
  intros OK. cbn [crit_remove]. destruct (crit_del_form c i OK) as [(IO & c2 & E2 & _)|[NO E2]]; split; intro H; try contradiction.
  - exists c2. split; [exact E2|]. destruct (crit_del_lemma c i c2 OK E2) as (OK2 & _ & K). auto.
  - exact E2.
Qed.

(** additions *)
Lemma has_double_spec l : nondecreasing l -> (has_double l = false <-> NoDup l).
Proof.
  induction l as [|a l IH]; intro N; [cbn; split; [constructor|reflexivity]|].
  apply nondecreasing_cons in N. destruct N as [N1 N2]. specialize (IH N1).
  destruct l as [|b l]; [cbn; split; [repeat constructor; intros []|reflexivity]|].
  change (has_double (a :: b :: l)) with (qeqb a b || has_double (b :: l))%bool. rewrite orb_false_iff, IH. split.
  - intros [E D]. constructor; [|exact D]. apply qeqb_neq in E. intros [H|H]; [congruence|].
    apply E. apply nondecreasing_cons in N1. destruct N1 as [_ N1]. apply Qcle_antisym; [apply N2; left; reflexivity|apply N1; exact H].
  - intro D. inversion D as [|? ? D1 D2]; subst. split; [|exact D2]. apply qeqb_neq. intros ->. apply D1. left; reflexivity.
Qed.
Lemma crit_plus_lemma asort a b : is_argsort asort -> crit_ok a -> crit_ok b -> ctimes a <> [] -> ctimes b <> [] ->
  (cut a = cut b -> cux a = cux b -> cuy a = cuy b -> (forall t, In t (ctimes a) -> ~ In t (ctimes b)) ->
   exists c, crit_plus asort a b = Ok c /\ crit_ok c /\ cux c = cux a /\ cuy c = cuy a /\ cut c = cut a /\
             forall k, Permutation (frames c k) (frames a k ++ frames b k)) /\
  (~ (cut a = cut b /\ cux a = cux b /\ cuy a = cuy b) \/ (exists t, In t (ctimes a) /\ In t (ctimes b)) ->
   crit_plus asort a b = Err ValueErr).
Proof.
  intros A [Ia La] [Ib Lb] Na Nb. unfold crit_plus.
  destruct (ctimes b) as [|tb rb] eqn:Eb; [congruence|]. destruct (ctimes a) as [|ta ra] eqn:Ea; [congruence|].
  rewrite <- Ea, <- Eb in *. clear ta ra tb rb Ea Eb.
  set (t := mkcrit (ctimes a ++ ctimes b) (fun k => cpts a k ++ cpts b k) (fun _ => TNone) None (cux a) (cuy a) (cut a)).
  assert (L : forall k, length (cpts t k) = length (ctimes t)) by (intro k; cbn; rewrite !app_length, La, Lb; reflexivity).
  destruct (crit_sort_frames asort t Foc A (L Foc)) as (_ & N & P & _).
  assert (DN : has_double (ctimes (crit_sort asort t)) = false <-> forall x, In x (ctimes a) -> ~ In x (ctimes b)).
  { rewrite (has_double_spec _ N). split.
    - intros ND x I1 I2. apply (Permutation_NoDup P) in ND. cbn in ND. apply in_split in I1. destruct I1 as (l1 & l2 & E).
      rewrite E, <- app_assoc in ND. cbn in ND. apply NoDup_remove_2 in ND. apply ND. rewrite !in_app_iff. tauto.
    - intro D. apply (Permutation_NoDup (Permutation_sym P)). cbn. apply increasing_NoDup in Ia. apply increasing_NoDup in Ib.
      clear -Ia Ib D. induction Ia as [|x l X1 X2 IH]; cbn; [exact Ib|]. constructor.
      + rewrite in_app_iff. intros [H|H]; [contradiction|]. apply (D x); [left; reflexivity|exact H].
      + apply IH. intros y I; apply D; right; exact I. }
  assert (UU : forall u w, unit_eqb u w = true <-> u = w).
  { intros u w. split; [apply unit_eqb_eq|intros ->; apply unit_eqb_refl]. }
  split.
  - intros E1 E2 E3 D. rewrite E1, E2, E3, !unit_eqb_refl. cbn [negb guard]. rewrite <- E1, <- E2, <- E3. fold t. apply DN in D. rewrite D. cbn [guard].
    exists (crit_sort asort t). split; [reflexivity|]. split; [|split; [reflexivity|split; [reflexivity|split; [reflexivity|]]]].
    + split; [apply increasing_of_sorted; [exact N|apply has_double_spec; [exact N|exact D]]|]. intro k. apply (crit_sort_frames asort t k A (L k)).
    + intro k. destruct (crit_sort_frames asort t k A (L k)) as (_ & _ & _ & PF). rewrite PF. unfold frames. cbn.
      rewrite combine_app' by (symmetry; apply La). reflexivity.
  - intros H.
    destruct (unit_eqb (cut a) (cut b)) eqn:E1; cbn [negb guard]; [|reflexivity].
    destruct (unit_eqb (cux a) (cux b)) eqn:E2; cbn [negb guard]; [|reflexivity].
    destruct (unit_eqb (cuy a) (cuy b)) eqn:E3; cbn [negb guard]; [|reflexivity]. fold t.
    apply UU in E1. apply UU in E2. apply UU in E3. destruct H as [H|(x & I1 & I2)]; [tauto|].
    destruct (has_double (ctimes (crit_sort asort t))) eqn:D; [reflexivity|]. exfalso. exact (proj1 DN eq_refl x I1 I2).
Qed.
Lemma crit_plus_empty asort a b : (ctimes b = [] -> crit_plus asort a b = Ok a) /\ (ctimes a = [] -> ctimes b <> [] -> crit_plus asort a b = Ok b).
Proof. unfold crit_plus. split; [intros ->; reflexivity|]. intros -> N. destruct (ctimes b); [congruence|reflexivity]. Qed.
Lemma crit_plus_ok asort a b c : is_argsort asort -> crit_ok a -> crit_ok b -> crit_plus asort a b = Ok c -> crit_ok c.
Proof.
  intros A Oa Ob E. destruct (list_eq_dec Qc_eq_dec (ctimes b) []) as [Eb|Nb].
  { rewrite (proj1 (crit_plus_empty asort a b) Eb) in E. injection E as <-; exact Oa. }
  destruct (list_eq_dec Qc_eq_dec (ctimes a) []) as [Ea|Na].
  { rewrite (proj2 (crit_plus_empty asort a b) Ea Nb) in E. injection E as <-; exact Ob. }
  destruct (crit_plus_lemma asort a b A Oa Ob Na Nb) as [H1 H2].
  destruct (unit_eqb (cut a) (cut b)) eqn:E1; [apply unit_eqb_eq in E1|].
  2:{ rewrite H2 in E; [discriminate|]. left. intros [X _]. rewrite X, unit_eqb_refl in E1; discriminate. }
  destruct (unit_eqb (cux a) (cux b)) eqn:E2; [apply unit_eqb_eq in E2|].
  2:{ rewrite H2 in E; [discriminate|]. left. intros (_ & X & _). rewrite X, unit_eqb_refl in E2; discriminate. }
  destruct (unit_eqb (cuy a) (cuy b)) eqn:E3; [apply unit_eqb_eq in E3|].
  2:{ rewrite H2 in E; [discriminate|]. left. intros (_ & _ & X). rewrite X, unit_eqb_refl in E3; discriminate. }
  destruct (existsb (fun t => existsb (qeqb t) (ctimes b)) (ctimes a)) eqn:X.
  - rewrite H2 in E; [discriminate|]. right. apply existsb_exists in X. destruct X as (t & I & X). apply existsb_time in X. exists t; auto.
  - destruct H1 as (c' & E' & OK & _); auto.
    + intros t I1 I2. rewrite <- not_true_iff_false in X. apply X. apply existsb_exists. exists t. split; [exact I1|apply existsb_time; exact I2].
    + rewrite E' in E. injection E as <-. exact OK.
Qed.

(** the other operations keep the alignment *)
Lemma each_inv (P : crit -> Prop) f ks c : (forall c k, P c -> P (fst (f c k))) -> P c -> P (fst (each ks f c)).
Proof.
  intro H. revert c. induction ks as [|k ks IH]; intros c Hc; cbn [each]; [exact Hc|].
  specialize (H c k Hc). destruct (f c k) as [c1 [e|]]; cbn in *; [exact H|]. apply IH. exact H.
Qed.
Lemma ok_same c c' : ctimes c' = ctimes c -> (forall k, length (cpts c' k) = length (cpts c k)) -> crit_ok c -> crit_ok c'.
Proof. intros T L [I A]. split; [rewrite T; exact I|]. intro k. rewrite L, T. apply A. Qed.
Lemma each_traj_ok f c : crit_ok c -> crit_ok (fst (each kinds (each_traj f) c)).
Proof.
  intro OK. apply (each_inv crit_ok); [|exact OK]. intros c0 k O. unfold each_traj.
  destruct (ctraj c0 k); cbn [fst]; [exact O| |]; apply (ok_same c0); auto.
Qed.
Lemma drop_void_ok c : crit_ok c -> crit_ok (fst (each kinds drop_void c)).
Proof.
  intro OK. apply (each_inv crit_ok); [|exact OK]. intros c0 k O. unfold drop_void.
  destruct (ctraj c0 k) as [|l|[|p l]]; cbn [fst]; try exact O.
Qed.
Lemma crop_times_ok c t1 t2 : crit_ok c -> crit_ok (crop_times c t1 t2).
Proof.
  intros [I A]. unfold crop_times. split; cbn [ctimes cpts].
  - refine (increasing_keeps _ _ _ I (keeps_keep _ _ _)). apply map_length.
  - intro k. apply keep_length_eq. apply A.
Qed.
Lemma crop_space_ok c ivx ivy : crit_ok c -> crit_ok (crop_space c ivx ivy).
Proof.
  intros OK. assert (H : crit_ok (crit_forget (set_pts c (fun k => map (fun p => pts_crop p ivx ivy None) (cpts c k))))).
  { apply (ok_same c); auto. intro k. cbn. apply map_length. }
  unfold crop_space. destruct ivx, ivy; assumption.
Qed.
Lemma crop_trajs_ok c t1 t2 : crit_ok c -> crit_ok (fst (crop_trajs c t1 t2)).
Proof.
  intro OK. unfold crop_trajs. pose proof (each_traj_ok (fun p => pts_crop p None None (Some (t1, t2))) c OK) as H.
  destruct (each kinds _ c) as [c1 [e|]]; cbn [fst] in *; [exact H|]. apply drop_void_ok. exact H.
Qed.
Lemma crit_crop_ok c ivx ivy ivt ip : crit_ok c ->
  crit_ok (fst (crit_crop c ivx ivy ivt ip)) /\ forall r, snd (crit_crop c ivx ivy ivt ip) = Ok r -> crit_ok r.
Proof.
  intro OK. unfold crit_crop. destruct ivt as [[t1 t2]|].
  - destruct ip.
    + pose proof (crop_trajs_ok (crop_times c t1 t2) t1 t2 (crop_times_ok c t1 t2 OK)) as H.
      destruct (crop_trajs (crop_times c t1 t2) t1 t2) as [s [e|]]; cbn [fst snd] in *.
      * split; [exact H|]. intros r E; discriminate.
      * split; [apply crop_space_ok; exact H|]. intros r E. injection E as <-. apply crop_space_ok; exact H.
    + pose proof (crop_trajs_ok c t1 t2 OK) as H. destruct (crop_trajs c t1 t2) as [s [e|]]; cbn [fst snd] in *.
      * split; [exact H|]. intros r E; discriminate.
      * split; [exact H|]. intros r E. injection E as <-. apply crop_space_ok, crop_times_ok; exact OK.
  - cbn [fst snd]. split; [destruct ip; [apply crop_space_ok|]; exact OK|]. intros r E. injection E as <-. apply crop_space_ok; exact OK.
Qed.
Lemma crit_clean_ok c n : crit_ok c -> crit_ok (fst (crit_clean c n)).
Proof.
  intro OK. unfold crit_clean. destruct (ceps c); [|exact OK].
  match goal with |- context [each kinds ?f c] => set (F := f) end.
  assert (H : crit_ok (fst (each kinds F c))).
  { apply (each_inv crit_ok); [|exact OK]. intros c0 k O. unfold F. destruct (clean_kind n (ctraj c0 k)); cbn [fst]; [|exact O].
    apply (ok_same c0); auto. }
  destruct (each kinds F c) as [c1 [e|]]; cbn [fst] in *; [exact H|].
  apply (each_inv crit_ok); [|exact H]. intros c0 k O. destruct (traj_list (ctraj c0 k)); cbn [fst]; [|exact O].
  destruct (sum_points _ l); cbn [fst]; [|exact O]. destruct O as [I A]. split; [exact I|]. intro k'. cbn.
  unfold updk. destruct (kind_eqb k' k); [apply map_length|apply A].
Qed.
Lemma crit_origin_ok c x y : crit_ok c -> crit_ok (fst (crit_origin c x y)).
Proof.
  intro OK. assert (H : crit_ok (set_pts c (fun k => map (fun p => pts_set_origin p x y) (cpts c k)))).
  { apply (ok_same c); auto. intro k. cbn. apply map_length. }
  unfold crit_origin. destruct x, y; try (apply each_traj_ok; exact H). exact OK.
Qed.
Lemma crit_scale_ok c sx sy sv : crit_ok c -> (0 < sfact sv)%num -> crit_ok (crit_scale c sx sy sv).
Proof.
  intros [I A] Hs. unfold crit_scale. split; cbn [ctimes cpts].
  - apply increasing_map; [|exact I]. intros a b H. apply qmul_lt_r; assumption.
  - intro k. rewrite !map_length. apply A.
Qed.
Lemma built_ok asort c : is_argsort asort -> built asort c -> crit_ok c.
Proof.
  intros A B. induction B.
  - split; [intros i j _ H; cbn in H; lia|reflexivity].
  - destruct (crit_add asort c new t) as [c' [e|]] eqn:E; cbn [fst].
    + destruct (crit_add_err _ _ _ _ _ _ E) as (_ & T & P & _). apply (ok_same c); [exact T|intro k; rewrite P; reflexivity|exact IHB].
    + apply (crit_add_lemma _ _ _ _ _ A IHB E).
  - unfold crit_remove. assert (D : forall j, crit_ok (fst (crit_del c j))).
    { intro j. destruct (crit_del_form c j IHB) as [(_ & c2 & E2 & _)|[_ E2]]; rewrite E2; cbn [fst]; [|exact IHB].
      apply (crit_del_lemma c j c2 IHB E2). }
    destruct t, i; try exact IHB; [|apply D]. destruct (first_index _ _); [apply D|exact IHB].
  - apply (crit_plus_ok asort a b c A); assumption.
  - destruct (crit_traj_lemma asort c eps A IHB) as (c' & E & _ & OK & _). rewrite E. exact OK.
  - apply crit_clean_ok; exact IHB.
  - apply crit_origin_ok; exact IHB.
  - apply crit_scale_ok; assumption.
  - apply crit_crop_ok; exact IHB.
  - apply (proj2 (crit_crop_ok c ivx ivy ivt ip IHB)). exact H.
Qed.
