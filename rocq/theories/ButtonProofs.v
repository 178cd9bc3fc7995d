(** * ButtonProofs: proofs about the interactive display. *)
From Verif Require Import Num Res ListLib UtilsModel UtilsProofs3 ButtonModel ButtonSpec.
#[local] Open Scope Z_scope.

(** ** the index stays in range *)
Definition lim_in (s : bman) (l : option Z) : Prop := match l with Some x => 0 <= x <= b_last s | None => True end.
Definition b_inv (s : bman) : Prop :=
  0 <= b_last s /\ in_range s /\ 0 <= b_incr s /\ (forall k, b_key s = Some k -> 0 <= k) /\ lim_in s (b_lo s) /\ lim_in s (b_hi s).
Ltac bcrush := repeat match goal with
  | |- context [match ?x with _ => _ end] => destruct x eqn:?; cbn in *
  | |- context [if ?x then _ else _] => destruct x eqn:?; cbn in *
  end.
Lemma b_step_inv s e : b_inv s -> sane s e -> let '(s', d, x) := b_step s e in b_inv s' /\ b_last s' = b_last s /\ x = None.
Proof.
  intros (L & (i & EI & RI) & IN & KE & LO & HI) SA. destruct s as [last ind incr key play lo hi]. cbn in EI. subst ind. cbn in *.
  assert (KN : match key with Some k => 0 <= k | None => True end) by (destruct key; auto).
  assert (KI : 0 <= match key with Some k => k | None => incr end) by (destruct key; auto).
  destruct e; cbn in SA |- *.
  Ltac fin := split; [split; [cbn; lia|split; [eexists; split; [reflexivity|cbn; lia]|split; [cbn; lia|split; [cbn; intros ? E0; try discriminate; try (injection E0 as <-); lia|split; cbn; auto]]]]|split; reflexivity].
  - unfold nextf; cbn. destruct (Z.eqb_spec i last); cbn; [fin|]. destruct (Z.leb_spec (i + match key with Some k => k | None => incr end) last); fin.
  - unfold prevf; cbn. destruct (Z.eqb_spec i 0); cbn; [fin|]. rewrite Z.gtb_ltb. destruct (Z.ltb_spec 0 (i - match key with Some k => k | None => incr end)); fin.
  - unfold goto_end, goto_key; cbn. rewrite Z.gtb_ltb. destruct (Z.ltb_spec (last + 1) (match key with Some k => k | None => last + 1 end)); cbn; [fin|].
    destruct key as [k|]; [assert (k <> 0) by congruence|]; fin.
  - unfold goto_beg, goto_key; cbn. rewrite Z.gtb_ltb. destruct (Z.ltb_spec (last + 1) (match key with Some k => k | None => 1 end)); cbn; [fin|].
    destruct key as [k|]; [assert (k <> 0) by congruence|]; fin.
  - unfold goto; cbn. destruct key as [k|]; cbn; [|fin]. rewrite Z.gtb_ltb. destruct (Z.ltb_spec last k); cbn; [fin|]. destruct (Z.ltb_spec k 1); cbn; fin.
  - fin.
  - destruct key; cbn; fin.
  - fin.
  - unfold b_close; cbn. destruct play; cbn; fin.
  - unfold set_lims; cbn. destruct key as [k|]; cbn.
    + specialize (SA k eq_refl). destruct lo as [l|], hi as [h|]; cbn in *; repeat match goal with |- context [Z.eqb ?a ?b] => destruct (Z.eqb_spec a b); cbn end;
      repeat match goal with |- context [Z.ltb ?a ?b] => destruct (Z.ltb_spec a b); cbn end; fin; lia.
    + destruct lo as [l|], hi as [h|]; cbn in *; repeat match goal with |- context [Z.eqb ?a ?b] => destruct (Z.eqb_spec a b); cbn end;
      repeat match goal with |- context [Z.ltb ?a ?b] => destruct (Z.ltb_spec a b); cbn end; fin; lia.
  - unfold goto_lims; cbn. destruct lo as [l|], hi as [h|]; cbn in *; repeat match goal with |- context [Z.eqb ?a ?b] => destruct (Z.eqb_spec a b); cbn end; fin.
  - fin.
  - destruct key; fin.
  - unfold nextf; cbn. destruct (Z.eqb_spec i last); cbn; [fin|]. destruct (Z.leb_spec (i + match key with Some k => k | None => incr end) last); fin.
  - unfold prevf; cbn. destruct (Z.eqb_spec i 0); cbn; [fin|]. rewrite Z.gtb_ltb. destruct (Z.ltb_spec 0 (i - match key with Some k => k | None => incr end)); fin.
  - fin.
  - destruct SA as [S1 S2].
    assert (P0 : (0 <= x)%num) by (assert (0 <= qz 1)%num by (apply (proj2 (qz_le _ _)); lia); qlra).
    assert (F0 : 1 <= qfloor x) by (apply qfloor_iff; exact S1).
    assert (F1 : qfloor x <= last + 1) by (apply (proj1 (qz_le _ _)); eapply qle_trans; [apply qfloor_le|exact S2]).
    unfold slid; cbn [b_ind]. destruct (qeqb (x - 1)%num (qz i)); [destruct key; fin|]. unfold b_update; cbn [b_ind set_ind]. rewrite qtrunc_nonneg by exact P0. destruct key; fin.
  - destruct play; [|destruct key; fin]. unfold timer_play; cbn [b_hi b_ind b_lo b_incr b_last].
    destruct hi as [h|].
    + destruct SA as [SA|SA]; [discriminate|]. destruct lo as [l|]; [|congruence]. cbn in LO, HI. rewrite !Z.geb_leb.
      destruct (Z.leb_spec h (i + incr)); [destruct key; fin|]. destruct (Z.leb_spec last (i + incr)); destruct key; fin.
    + rewrite !Z.geb_leb. destruct (Z.leb_spec (last + 1) (i + incr)); [destruct key; fin|]. destruct (Z.leb_spec last (i + incr)); destruct key; fin.
Qed.
Lemma b_run_inv h : forall s, b_inv s -> sane_history s h ->
  b_inv (fst (b_run s h)) /\ b_last (fst (b_run s h)) = b_last s /\ Forall (fun o => snd o = None) (snd (b_run s h)).
Proof.
  induction h as [|e h IH]; intros s I SA; cbn; [auto|]. destruct SA as [SA SH]. pose proof (b_step_inv s e I SA) as H.
  destruct (b_step s e) as [[s1 d] x]. cbn in SH. destruct H as (I1 & L1 & ->). destruct (IH s1 I1 SH) as (I2 & L2 & F2).
  destruct (b_run s1 h) as [s2 l]. cbn in *. split; [exact I2|]. split; [congruence|]. constructor; [reflexivity|exact F2].
Qed.
Lemma b_new_inv last : 0 <= last -> b_inv (b_new last).
Proof. intro L. split; [exact L|]. split; [exists 0; split; [reflexivity|cbn; lia]|]. cbn. split; [lia|]. split; [discriminate|auto]. Qed.
Lemma range_lemma last h : 0 <= last -> sane_history (b_new last) h ->
  in_range (fst (b_run (b_new last) h)) /\ Forall (fun o => snd o = None) (snd (b_run (b_new last) h)).
Proof. intros L SA. destruct (b_run_inv h _ (b_new_inv last L) SA) as (I & _ & F). split; [apply I|exact F]. Qed.
Lemma zero_end last s : b_last s = last -> 0 <= last -> b_key s = None -> b_ind (fst (b_run s [KDigit 0; KEnd])) = Some (-1).
Proof.
  intros E L K. cbn. rewrite K. unfold goto_end, goto_key. cbn. rewrite E, Z.gtb_ltb. destruct (Z.ltb_spec (last + 1) 0); [lia|]. reflexivity.
Qed.

(** ** goto *)
Lemma type_digits ds : forall s k, b_key s = Some k -> b_run s (map KDigit ds) =
  (set_key s (Some (fold_left (fun k d => k * 10 + d) ds k)), map (fun _ => (None, None)) ds).
Proof.
  induction ds as [|d ds IH]; intros s k K; cbn; [destruct s; cbn in *; subst; reflexivity|]. rewrite K.
  rewrite (IH _ (k * 10 + d)) by reflexivity. reflexivity.
Qed.
Lemma b_run_app s h1 h2 : b_run s (h1 ++ h2) = (fst (b_run (fst (b_run s h1)) h2), snd (b_run s h1) ++ snd (b_run (fst (b_run s h1)) h2)).
Proof.
  revert s; induction h1 as [|e h1 IH]; intro s; cbn [app b_run]; [cbn; destruct (b_run s h2); reflexivity|].
  destruct (b_step s e) as [[s1 d] x]. rewrite (IH s1). destruct (b_run s1 h1) as [s2 l]. cbn. reflexivity.
Qed.
Lemma digits_key s ds : b_key s = None -> ds <> [] -> b_run s (map KDigit ds) = (set_key s (Some (decimal ds)), map (fun _ => (None, None)) ds).
Proof.
  intros K N. destruct ds as [|d ds]; [congruence|]. cbn. rewrite K. rewrite (type_digits ds _ d) by reflexivity. reflexivity.
Qed.
Lemma goto_lemma s ds : b_key s = None -> ds <> [] -> 1 <= decimal ds <= b_last s ->
  b_run s (map KDigit ds ++ [KGo]) = (set_ind s (Some (decimal ds - 1)), map (fun _ => (None, None)) ds ++ [(Some (decimal ds - 1), None)]).
Proof.
  intros K N H. rewrite b_run_app, digits_key by assumption. cbn [fst snd]. cbn. unfold goto. cbn. rewrite Z.gtb_ltb.
  destruct (Z.ltb_spec (b_last s) (decimal ds)); [lia|]. destruct (Z.ltb_spec (decimal ds) 1); [lia|]. cbn. destruct s; cbn in *; subst; reflexivity.
Qed.
Lemma goto_last_lemma s ds : b_key s = None -> ds <> [] -> 0 <= b_last s -> decimal ds = b_last s + 1 ->
  b_run s (map KDigit ds ++ [KGo]) = (s, map (fun _ => (None, None)) ds ++ [(None, None)]).
Proof.
  intros K N L H. rewrite b_run_app, digits_key by assumption. cbn [fst snd]. cbn. unfold goto. cbn. rewrite Z.gtb_ltb.
  destruct (Z.ltb_spec (b_last s) (decimal ds)); [|lia]. cbn. destruct s; cbn in *; subst; reflexivity.
Qed.
(** up and down reach every frame, the last one included *)
Lemma goto_key_lemma s ds (e : bevent) : e = KEnd \/ e = KBeg -> b_key s = None -> ds <> [] -> 1 <= decimal ds <= b_last s + 1 ->
  b_run s (map KDigit ds ++ [e]) = (set_ind s (Some (decimal ds - 1)), map (fun _ => (None, None)) ds ++ [(Some (decimal ds - 1), None)]).
Proof.
  intros He K N H. rewrite b_run_app, digits_key by assumption. cbn [fst snd].
  destruct He; subst e; cbn; unfold goto_end, goto_beg, goto_key; cbn; rewrite Z.gtb_ltb;
  (destruct (Z.ltb_spec (b_last s + 1) (decimal ds)); [lia|]); cbn; destruct s; cbn in *; subst; reflexivity.
Qed.

(** ** playing *)
Lemma tick_lemma s i : b_play s = true -> b_hi s = None -> b_incr s = 1 -> b_ind s = Some i -> 0 <= i < b_last s ->
  b_step s Tick = (set_ind s (Some ((i + 1) mod b_last s)), Some ((i + 1) mod b_last s), None).
Proof.
  intros P H I E R. cbn. rewrite P. unfold timer_play. rewrite H, E, I, !Z.geb_leb.
  destruct (Z.leb_spec (b_last s + 1) (i + 1)); [lia|]. destruct (Z.leb_spec (b_last s) (i + 1)).
  - replace (i + 1) with (b_last s) by lia. rewrite Z.mod_same by lia. reflexivity.
  - rewrite Z.mod_small by lia. reflexivity.
Qed.
Lemma play_lemma k : forall s i, b_play s = true -> b_hi s = None -> b_incr s = 1 -> b_ind s = Some i -> 0 <= i < b_last s ->
  snd (b_run s (repeat Tick k)) = map (fun j => (Some ((i + 1 + Z.of_nat j) mod b_last s), None)) (seq 0 k).
Proof.
  induction k as [|k IH]; intros s i P H I E R; [reflexivity|]. cbn [repeat b_run]. rewrite (tick_lemma s i) by assumption.
  specialize (IH (set_ind s (Some ((i + 1) mod b_last s))) ((i + 1) mod b_last s) P H I eq_refl).
  cbn [b_last set_ind] in IH. specialize (IH ltac:(apply Z.mod_pos_bound; lia)).
  destruct (b_run _ (repeat Tick k)) as [s2 l]. cbn [snd] in *. rewrite IH. cbn [seq map]. rewrite Z.add_0_r. f_equal.
  rewrite <- seq_shift, map_map. apply map_ext. intro j. f_equal. f_equal.
  rewrite <- Z.add_assoc, Zplus_mod_idemp_l. f_equal. lia.
Qed.
(** with two limits lo < hi (the last one excluded) *)
Lemma tick_lims s i lo hi : b_play s = true -> b_lo s = Some lo -> b_hi s = Some hi -> b_incr s = 1 -> b_ind s = Some i ->
  0 <= lo -> hi <= b_last s -> lo <= i < hi ->
  b_step s Tick = (set_ind s (Some (lo + (i - lo + 1) mod (hi - lo))), Some (lo + (i - lo + 1) mod (hi - lo)), None).
Proof.
  intros P L H I E L0 HB R. cbn. rewrite P. unfold timer_play. rewrite H, L, E, I, !Z.geb_leb.
  destruct (Z.leb_spec hi (i + 1)).
  - replace (i - lo + 1) with (hi - lo) by lia. rewrite Z.mod_same by lia. rewrite Z.add_0_r. reflexivity.
  - rewrite Z.mod_small by lia. destruct (Z.leb_spec (b_last s) (i + 1)); [lia|]. replace (lo + (i - lo + 1)) with (i + 1) by lia. reflexivity.
Qed.

Lemma play_lims_lemma k : forall s i lo hi, b_play s = true -> b_lo s = Some lo -> b_hi s = Some hi -> b_incr s = 1 -> b_ind s = Some i ->
  0 <= lo -> hi <= b_last s -> lo <= i < hi ->
  snd (b_run s (repeat Tick k)) = map (fun j => (Some (lo + (i - lo + 1 + Z.of_nat j) mod (hi - lo)), None)) (seq 0 k).
Proof.
  induction k as [|k IH]; intros s i lo hi P L H I E L0 HB R; [reflexivity|]. cbn [repeat b_run]. rewrite (tick_lims s i lo hi) by assumption.
  assert (MB : 0 <= (i - lo + 1) mod (hi - lo) < hi - lo) by (apply Z.mod_pos_bound; lia).
  specialize (IH (set_ind s (Some (lo + (i - lo + 1) mod (hi - lo)))) (lo + (i - lo + 1) mod (hi - lo)) lo hi P L H I eq_refl L0).
  cbn [b_last set_ind] in IH. specialize (IH HB ltac:(lia)).
  destruct (b_run _ (repeat Tick k)) as [s2 l]. cbn [snd] in *. rewrite IH. cbn [seq map]. rewrite Z.add_0_r. f_equal.
  rewrite <- seq_shift, map_map. apply map_ext. intro j. f_equal. f_equal. f_equal.
  replace (lo + (i - lo + 1) mod (hi - lo) - lo + 1 + Z.of_nat j) with ((i - lo + 1) mod (hi - lo) + (1 + Z.of_nat j)) by lia.
  rewrite Zplus_mod_idemp_l. f_equal. lia.
Qed.

(** ** saving *)
Lemma save_loop_lemma k : forall s i, b_key s = None -> b_incr s = 1 -> b_ind s = Some i -> i + Z.of_nat k <= b_last s ->
  save_loop s k = (set_ind s (Some (i + Z.of_nat k)), map (fun j => Some (i + 1 + Z.of_nat j)) (seq 0 k)).
Proof.
  induction k as [|k IH]; intros s i K I E B; [cbn; rewrite Z.add_0_r; destruct s; cbn in *; subst; reflexivity|].
  cbn [save_loop]. unfold nextf. cbn [b_ind pop_key set_key b_last]. rewrite K, I, E. destruct (Z.eqb_spec i (b_last s)); [lia|].
  destruct (Z.leb_spec (i + 1) (b_last s)); [|lia]. cbn [b_update set_ind b_ind].
  rewrite (IH _ (i + 1)); cbn [b_key b_incr b_ind b_last set_ind pop_key set_key]; auto; [|lia].
  cbn [seq map]. rewrite Z.add_0_r, Nat2Z.inj_succ. replace (i + Z.succ (Z.of_nat k)) with (i + 1 + Z.of_nat k) by lia. f_equal.
  - destruct s; cbn in *; subst. reflexivity.
  - f_equal. rewrite <- seq_shift, map_map. apply map_ext. intro j. f_equal. lia.
Qed.
Lemma save_lemma s f0 f1 : b_key s = None -> b_incr s = 1 -> 0 <= f0 <= f1 -> f1 <= b_last s ->
  save_animation s f0 f1 = (s, map (fun j => Some (f0 + 1 + Z.of_nat j)) (seq 0 (Z.to_nat (f1 - f0)))).
Proof.
  intros K I F B. unfold save_animation. rewrite (save_loop_lemma _ _ f0); cbn [b_key b_incr b_ind b_last set_ind]; auto; [|lia].
  destruct s; cbn in *; subst; reflexivity.
Qed.

(** ** linked displays *)
Section Links.
Variables (links : nat -> list nat) (v : Z) (G : list nat).
Hypothesis GC : forall g h, In g G -> In h (links g) -> In h G.
Definition cnt (i : nat -> Z) : nat := length (filter (fun h => negb (i h =? v)) G).
Definition grows (i j : nat -> Z) : Prop := forall h, j h = i h \/ j h = v.
Lemma grows_refl i : grows i i. Proof. intro; auto. Qed.
Lemma grows_trans i j k : grows i j -> grows j k -> grows i k.
Proof. intros A B h. destruct (B h) as [-> | ->]; auto. Qed.
Lemma grows_v i j h : grows i j -> i h = v -> j h = v.
Proof. intros A E. destruct (A h); congruence. Qed.
Lemma cnt_le i j : grows i j -> (cnt j <= cnt i)%nat.
Proof.
  intro A. unfold cnt. clear GC. induction G as [|x l IH]; cbn; [lia|].
  destruct (A x) as [-> | ->]; [destruct (i x =? v)%Z; cbn; lia|]. rewrite Z.eqb_refl. cbn. destruct (i x =? v)%Z; cbn; lia.
Qed.
Lemma upd_same i h : upd_at i h v h = v. Proof. unfold upd_at. now rewrite Nat.eqb_refl. Qed.
Lemma upd_grows i h : grows i (upd_at i h v).
Proof. intro k. unfold upd_at. destruct (Nat.eqb k h); auto. Qed.
Lemma cnt_lt i h : In h G -> i h <> v -> (cnt (upd_at i h v) < cnt i)%nat.
Proof.
  unfold cnt. intros I N.
  assert (LE : forall l, (length (filter (fun k => negb (upd_at i h v k =? v)%Z) l) <= length (filter (fun k => negb (i k =? v)%Z) l))%nat).
  { induction l as [|x l IH]; cbn; [lia|]. destruct (upd_grows i h x) as [-> | ->]; [destruct (i x =? v); cbn; lia|]. rewrite Z.eqb_refl. cbn. destruct (i x =? v); cbn; lia. }
  clear GC. induction G as [|x l IH]; [destruct I|]. cbn. destruct I as [-> | I].
  - rewrite upd_same, Z.eqb_refl. destruct (Z.eqb_spec (i h) v); [contradiction|]. cbn. specialize (LE l). lia.
  - specialize (IH I). destruct (upd_grows i h x) as [-> | ->]; [destruct (i x =? v); cbn; lia|]. rewrite Z.eqb_refl. cbn. destruct (i x =? v); cbn; lia.
Qed.
(** closed: every display that got [v] has passed it on *)
Definition passed (i j : nat -> Z) : Prop := forall h, In h G -> i h <> v -> j h = v -> forall k, In k (links h) -> j k = v.
Definition only_conn (g : nat) (i j : nat -> Z) : Prop := forall h, j h <> i h -> connected links g h.
Lemma conn_trans g h k : connected links g h -> connected links h k -> connected links g k.
Proof. intros A B. induction B; [exact A|]. econstructor; eauto. Qed.
Lemma l_update_lemma fuel : forall i g, In g G -> i g = v -> (cnt i < fuel)%nat ->
  exists j, l_update links fuel i g = Some j /\ grows i j /\ passed i j /\ (forall k, In k (links g) -> j k = v) /\ only_conn g i j.
Proof.
  induction fuel as [|fuel IH]; intros i g Ig E C; [lia|]. cbn [l_update].
  assert (LOOP : forall ls j0, incl ls (links g) -> grows i j0 -> passed i j0 -> only_conn g i j0 ->
    exists j, fold_left (fun acc h => match acc with None => None | Some i => if i h =? i g then Some i else l_update links fuel (upd_at i h (i g)) h end) ls (Some j0) = Some j /\
      grows j0 j /\ passed i j /\ (forall k, In k ls -> j k = v) /\ only_conn g i j).
  { induction ls as [|h ls IHls]; intros j0 IN GR PA OC.
    - exists j0. cbn. split; [reflexivity|]. split; [apply grows_refl|]. split; [exact PA|]. split; [intros k []|exact OC].
    - cbn [fold_left]. assert (Jg : j0 g = v) by (eapply grows_v; eauto). rewrite Jg.
      assert (IhG : In h G) by (eapply GC; [exact Ig|apply IN; now left]).
      destruct (Z.eqb_spec (j0 h) v) as [Eh|Nh].
      + destruct (IHls j0) as (j & F & G1 & P1 & K1 & O1); [intros x X; apply IN; now right|exact GR|exact PA|exact OC|].
        exists j. split; [exact F|]. split; [exact G1|]. split; [exact P1|]. split; [|exact O1].
        intros k [<-|I]; [eapply grows_v; eauto|auto].
      + destruct (IH (upd_at j0 h v) h IhG (upd_same _ _)) as (j1 & F1 & G1 & P1 & K1 & O1).
        { pose proof (cnt_lt j0 h IhG Nh). pose proof (cnt_le i j0 GR). lia. }
        rewrite F1.
        assert (GR1 : grows j0 j1) by (eapply grows_trans; [apply upd_grows|exact G1]).
        assert (GRi : grows i j1) by (eapply grows_trans; eauto).
        assert (PA1 : passed i j1).
        { intros x Ix Nx Ex k Ik. destruct (Z.eq_dec (j0 x) v) as [Ex0|Nx0].
          - eapply grows_v; [exact GR1|]. eapply PA; eauto.
          - destruct (Nat.eq_dec x h) as [->|Nxh]; [apply K1; exact Ik|].
            apply (P1 x Ix); [|exact Ex|exact Ik]. unfold upd_at. apply Nat.eqb_neq in Nxh. rewrite Nxh. exact Nx0. }
        assert (OC1 : only_conn g i j1).
        { assert (Ch : connected links g h) by (econstructor; [apply conn_self|apply IN; now left]).
          intros x Nx. destruct (Z.eq_dec (j1 x) (upd_at j0 h v x)) as [E1|N1].
          - destruct (Nat.eq_dec x h) as [->|Nxh]; [exact Ch|]. apply OC. rewrite E1 in Nx. unfold upd_at in Nx.
            apply Nat.eqb_neq in Nxh. rewrite Nxh in Nx. exact Nx.
          - eapply conn_trans; [exact Ch|]. apply O1. exact N1. }
        destruct (IHls j1) as (j & F & G2 & P2 & K2 & O2); [intros x X; apply IN; now right|exact GRi|exact PA1|exact OC1|].
        exists j. split; [exact F|]. split; [eapply grows_trans; eauto|]. split; [exact P2|]. split; [|exact O2].
        intros k [<-|I]; [|auto]. eapply grows_v; [exact G2|]. eapply grows_v; [exact G1|apply upd_same]. }
  destruct (LOOP (links g) i) as (j & F & G1 & P1 & K1 & O1).
  - intros x X; exact X.
  - apply grows_refl.
  - intros h _ N E2. congruence.
  - intros h N. congruence.
  - exists j. auto.
Qed.
End Links.
Lemma linked_lemma links G inds g v u :
  (forall g h, In g G -> In h (links g) -> In h G) -> In g G ->
  (forall h, connected links g h -> inds h = u) ->
  exists inds', l_move links (S (length G)) inds g v = Some inds' /\
    forall h, (connected links g h -> inds' h = v) /\ (~ connected links g h -> inds' h = inds h).
Proof.
  intros GC Ig AG. unfold l_move.
  assert (C : (cnt v G (upd_at inds g v) < S (length G))%nat).
  { unfold cnt. assert (X : forall (P : nat -> bool) l, (length (filter P l) <= length l)%nat) by (intros P l; induction l as [|x l IH]; cbn; [lia|destruct (P x); cbn; lia]).
    specialize (X (fun h => negb (upd_at inds g v h =? v)) G). lia. }
  destruct (l_update_lemma links v G GC (S (length G)) (upd_at inds g v) g Ig (upd_same v _ _) C) as (j & E & GR & PA & K & OC).
  exists j. split; [exact E|]. intro h. split.
  - assert (X : forall h, connected links g h -> In h G /\ j h = v).
    { intros h0 Hc. induction Hc as [|h1 k1 Hc IHc Ik].
      - split; [exact Ig|]. eapply grows_v; [exact GR|apply upd_same].
      - destruct IHc as [Ih Jh]. split; [eapply GC; eauto|].
        destruct (Nat.eq_dec h1 g) as [->|Nh]; [apply K; exact Ik|].
        destruct (Z.eq_dec u v) as [->|Nu].
        + eapply grows_v; [exact GR|]. unfold upd_at. destruct (Nat.eqb_spec k1 g); [reflexivity|]. apply AG. econstructor; eauto.
        + apply (PA h1 Ih); [|exact Jh|exact Ik]. unfold upd_at. apply Nat.eqb_neq in Nh. rewrite Nh. rewrite (AG h1 Hc). exact Nu. }
    intro Hc. apply X. exact Hc.
  - intro Nc. destruct (Z.eq_dec (j h) (upd_at inds g v h)) as [E1|N1].
    + rewrite E1. unfold upd_at. destruct (Nat.eqb_spec h g); [subst; exfalso; apply Nc; apply conn_self|reflexivity].
    + exfalso. apply Nc. apply OC. exact N1.
Qed.

(** ** the typed number is forgotten *)
Lemma map_const_snoc {A B} (c : B) (l : list A) : map (fun _ => c) l ++ [c] = repeat c (S (length l)).
Proof. induction l as [|x l IH]; [reflexivity|]. cbn [map app length]. rewrite IH. reflexivity. Qed.
Lemma forget_lemma s ds h : b_key s = None ->
  fst (b_run s (map KDigit ds ++ KOther :: h)) = fst (b_run s h) /\
  snd (b_run s (map KDigit ds ++ KOther :: h)) = repeat (None, None) (S (length ds)) ++ snd (b_run s h).
Proof.
  intros K. destruct ds as [|d ds].
  - cbn. replace (pop_key s) with s by (destruct s; cbn in *; subst; reflexivity). destruct (b_run s h). split; reflexivity.
  - rewrite b_run_app, digits_key by (assumption || discriminate). cbn [fst snd]. cbn [b_run b_step after_key].
    replace (pop_key (set_key s (Some (decimal (d :: ds))))) with s by (destruct s; cbn in *; subst; reflexivity).
    destruct (b_run s h) as [s2 l]. cbn [fst snd]. split; [reflexivity|].
    change ((None, None) :: l) with ([(None : option Z, None : option exn)] ++ l). rewrite app_assoc, map_const_snoc. reflexivity.
Qed.
Lemma key_forgets_lemma s e : is_key e -> snd (b_step s e) = None -> b_key (fst (fst (b_step s e))) = None.
Proof.
  intros H E. destruct e; try contradiction; cbn [b_step] in *;
  match goal with |- context [after_key ?o] => destruct o as [[s1 d] [x|]]; cbn in *; [discriminate|reflexivity] end.
Qed.
