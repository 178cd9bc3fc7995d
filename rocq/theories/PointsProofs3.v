(** * PointsProofs3: units, translations, rotations, sums, histories and profiles of point sets. *)
From Verif Require Import Num Res ListLib SortLib SeqSpec Arr FieldModel ScalarFieldModel FieldSpec FieldProofs2 ScalarProofs
  ProfileModel ProfileSpec ProfileProofs PointsModel PointsSpec PointsProofs PointsProofs2.

(** ** change_unit *)
Lemma change_unit_lemma p a new : pts_ok p -> good_unit new -> a <> PtOther ->
  (dim (unit_of a p) = dim new -> exists p', pts_change_unit p a new = (p', None) /\ pts_ok p' /\ with_unit a p p' new /\ phys p' = phys p) /\
  (dim (unit_of a p) <> dim new -> pts_change_unit p a new = (p, Some UnitErr)).
Proof.
  intros OK G Ha. destruct (conv_spec (unit_of a p) new G) as [C1 C2]. split; intro D.
  - destruct (C1 D) as (k & E & K). unfold pts_change_unit. destruct a; cbn [unit_of] in *; try congruence; rewrite E.
    + destruct (pts_map_ok1 p (fun t => (fst t * k, snd t)%num) new (pty p) (ptv p) OK) as [A B].
      eexists; split; [reflexivity|]. split; [exact A|]. split; [repeat split|].
      unfold phys. rewrite B, map_map. apply map_ext. intros [[x y] v]; cbn. rewrite <- K. f_equal. f_equal. qring.
    + destruct (pts_map_ok1 p (fun t => (fst t, snd t * k)%num) (ptx p) new (ptv p) OK) as [A B].
      eexists; split; [reflexivity|]. split; [exact A|]. split; [repeat split|].
      unfold phys. rewrite B, map_map. apply map_ext. intros [[x y] v]; cbn. rewrite <- K. f_equal. f_equal. qring.
    + destruct (pts_map_ok p (fun t => t) (fun z => z * k)%num (ptx p) (pty p) new OK) as [A B]. rewrite map_id in A, B.
      eexists; split; [reflexivity|]. split; [exact A|]. split; [repeat split|].
      unfold phys. rewrite B, map_map. apply map_ext. intros [[x y] v]; cbn. rewrite <- K. f_equal. destruct v; cbn; [f_equal; qring|reflexivity].
  - unfold pts_change_unit. destruct a; cbn [unit_of] in *; try congruence; rewrite (C2 D); reflexivity.
Qed.
Lemma change_unit_back p a new p' : good_unit new -> good_unit (unit_of a p) -> a <> PtOther ->
  pts_change_unit p a new = (p', None) -> pts_change_unit p' a (unit_of a p) = (p, None).
Proof.
  intros G1 G2 Ha E.
  assert (D : dim (unit_of a p) = dim new).
  { destruct (list_eq_dec Z.eq_dec (dim (unit_of a p)) (dim new)) as [|N]; [assumption|].
    destruct (conv_spec (unit_of a p) new G1) as [_ C2]. unfold pts_change_unit in E.
    destruct a; cbn [unit_of] in *; try congruence; rewrite (C2 N) in E; discriminate. }
  destruct (conv_spec (unit_of a p) new G1) as [C1 _]. destruct (C1 D) as (k & Ek & K).
  unfold pts_change_unit in E.
  destruct (conv_spec new (unit_of a p) G2) as [C3 _]. destruct (C3 (eq_sym D)) as (k' & Ek' & K').
  assert (KK : (k * k')%num = 1%num).
  { unfold good_unit in *. rewrite <- K in K'. assert (N : sc new <> 0%num) by (apply qgt_neq; exact G1).
    assert (H : ((k * k') * sc new)%num = (1 * sc new)%num) by (rewrite <- K' at 2; qring).
    apply (f_equal (fun x => x / sc new)%num) in H. rewrite !qmul_div in H by exact N. exact H. }
  destruct a; cbn [unit_of] in *; try congruence; rewrite Ek in E; injection E as <-; unfold pts_change_unit; cbn [ptx pty ptv xy pv];
    rewrite Ek'; f_equal; destruct p as [l v u w z]; cbn in *; f_equal; rewrite map_map; rewrite <- map_id; apply map_ext.
  - intros [x y]; cbn. f_equal. replace (x * k * k')%num with (x * (k * k'))%num by qring. rewrite KK. qring.
  - intros [x y]; cbn. f_equal. replace (y * k * k')%num with (y * (k * k'))%num by qring. rewrite KK. qring.
  - intros x. replace (x * k * k')%num with (x * (k * k'))%num by qring. rewrite KK. qring.
Qed.

(** ** set_origin, scale, rotate *)
Lemma origin_lemma p x y : pts_ok p -> pts_ok (pts_set_origin p x y) /\ same_units (pts_set_origin p x y) p /\
  triples (pts_set_origin p x y) = map (fun t => ((shifted x (fst (fst t)), shifted y (snd (fst t))), snd t)) (triples p).
Proof.
  intro OK. destruct (pts_map_ok1 p (fun t => (oshift x (fst t), oshift y (snd t))) (ptx p) (pty p) (ptv p) OK) as [A B].
  split; [exact A|]. split; [repeat split|]. exact B.
Qed.
Lemma origin_back p x y : pts_set_origin (pts_set_origin p (Some x) (Some y)) (Some (- x)%num) (Some (- y)%num) = p.
Proof.
  unfold pts_set_origin. destruct p as [l v u w z]; cbn. f_equal. rewrite map_map. rewrite <- map_id. apply map_ext.
  intros [a b]; cbn. f_equal; qring.
Qed.
Lemma scale_lemma p sx sy sv : pts_ok p -> pts_ok (pts_scale p sx sy sv) /\
  triples (pts_scale p sx sy sv) =
  map (fun t => ((fst (fst t) * sfact sx, snd (fst t) * sfact sy), option_map (fun z => z * sfact sv) (snd t)))%num (triples p).
Proof. intro OK. apply (pts_map_ok p (fun t => (fst t * sfact sx, snd t * sfact sy)%num) (fun z => z * sfact sv)%num _ _ _ OK). Qed.
Lemma rotate_lemma p c s : pts_ok p -> (c * c + s * s = 1)%num ->
  pts_ok (pts_rotate p c s) /\ same_units (pts_rotate p c s) p /\
  map snd (triples (pts_rotate p c s)) = map snd (triples p) /\
  (forall i j a b a' b', nth_error (xy p) i = Some a -> nth_error (xy p) j = Some b ->
     nth_error (xy (pts_rotate p c s)) i = Some a' -> nth_error (xy (pts_rotate p c s)) j = Some b' ->
     sqdist a' b' = sqdist a b /\ sqdist a' (qz 0, qz 0) = sqdist a (qz 0, qz 0)) /\
  (forall i a a', nth_error (xy p) i = Some a -> nth_error (xy (pts_rotate p c s)) i = Some a' ->
     (fst a * fst a' + snd a * snd a' = c * sqdist a (0, 0) /\ fst a * snd a' - snd a * fst a' = s * sqdist a (0, 0))%num) /\
  pts_rotate (pts_rotate p c s) c (- s) = p.
Proof.
  intros OK H.
  set (f := fun t : num * num => (fst t * c - snd t * s, snd t * c + fst t * s)%num).
  destruct (pts_map_ok1 p f (ptx p) (pty p) (ptv p) OK) as [A B].
  split; [exact A|]. split; [repeat split|]. split; [|split; [|split]].
  - unfold pts_rotate. fold f. rewrite B, map_map. reflexivity.
  - intros i j a b a' b' Ea Eb Ea' Eb'. cbn [pts_rotate xy] in Ea', Eb'. rewrite nth_error_map, Ea in Ea'. rewrite nth_error_map, Eb in Eb'.
    cbn in Ea', Eb'. injection Ea' as <-. injection Eb' as <-. destruct a as [a1 a2], b as [b1 b2]. unfold sqdist; cbn [fst snd].
    split.
    + transitivity ((c * c + s * s) * ((a1 - b1) * (a1 - b1) + (a2 - b2) * (a2 - b2)))%num; [qring|rewrite H; qring].
    + transitivity ((c * c + s * s) * ((a1 - 0) * (a1 - 0) + (a2 - 0) * (a2 - 0)))%num; [qring|rewrite H; qring].
  - intros i a a' Ea Ea'. cbn [pts_rotate xy] in Ea'. rewrite nth_error_map, Ea in Ea'. cbn in Ea'. injection Ea' as <-.
    destruct a as [a1 a2]; unfold sqdist; cbn [fst snd]. split; qring.
  - unfold pts_rotate. destruct p as [l v u w z]; cbn. f_equal. rewrite map_map. rewrite <- (map_id l) at 2. apply map_ext.
    intros [a b]; cbn. f_equal.
    + transitivity ((c * c + s * s) * a)%num; [qring|rewrite H; qring].
    + transitivity ((c * c + s * s) * b)%num; [qring|rewrite H; qring].
Qed.
Lemma rotate_compose p c s c' s' :
  pts_rotate (pts_rotate p c s) c' s' = pts_rotate p (c * c' - s * s') (c * s' + s * c').
Proof.
  unfold pts_rotate. cbn. f_equal. rewrite map_map. apply map_ext. intros [a b]; cbn. f_equal; qring.
Qed.

(** ** sum of two point sets *)
Lemma plus_empty_l p q : xy p = [] -> pts_plus p q = (Ok q, q).
Proof. intro E. unfold pts_plus. rewrite E. reflexivity. Qed.
Lemma plus_empty_r p q : xy p <> [] -> xy q = [] -> pts_plus p q = (Ok p, q).
Proof. intros N E. unfold pts_plus. rewrite E. destruct (xy p); [congruence|reflexivity]. Qed.
Lemma plus_incompatible p q : xy p <> [] -> xy q <> [] -> ~ dims_match p q -> pts_plus p q = (Err ValueErr, q).
Proof.
  intros N1 N2 D. unfold pts_plus. destruct (xy p) eqn:E1; [congruence|]. destruct (xy q) eqn:E2; [congruence|].
  match goal with |- context [negb ?b] => destruct b eqn:E end; [|reflexivity].
  exfalso; apply D. rewrite !andb_true_iff, !dim_eqb_eq in E. unfold dims_match; tauto.
Qed.
Lemma plus_form p q : xy p <> [] -> xy q <> [] -> dims_match p q ->
  pts_plus p q = (let q' := mkpts (map (fun t => (fst t * (sc (ptx p) / sc (ptx q)), snd t * (sc (pty p) / sc (pty q))))%num (xy q)) (pv q) (ptx q) (pty q) (ptv q) in
   (pts_new (xy p ++ xy q') (pv p ++ map (fun z => z * (sc (ptv p) / sc (ptv q)))%num (pv q)) (ptx p) (pty p) (ptv p), q')).
Proof.
  intros N1 N2 (D1 & D2 & D3). unfold pts_plus. apply dim_eqb_eq in D1, D2, D3. rewrite D1, D2, D3. cbn [andb negb].
  destruct (xy p) eqn:E1; [congruence|]. destruct (xy q) eqn:E2; [congruence|]. reflexivity.
Qed.
Lemma triples_app p q u w z : (pv p = [] /\ pv q = [] \/ length (pv p) = length (xy p) /\ length (pv q) = length (xy q)) ->
  pts_ok (mkpts (xy p ++ xy q) (pv p ++ pv q) u w z) /\
  triples (mkpts (xy p ++ xy q) (pv p ++ pv q) u w z) = triples p ++ triples q.
Proof.
  intros [[E1 E2]|[L1 L2]].
  - rewrite E1, E2. split; [left; reflexivity|]. rewrite !triples_none by auto. cbn [xy]. apply map_app.
  - assert (L : length (pv p ++ pv q) = length (xy p ++ xy q)) by (rewrite !app_length; lia).
    split; [right; exact L|]. rewrite (triples_some p L1), (triples_some q L2). rewrite triples_some by exact L. cbn [xy pv].
    rewrite combine_app' by auto. apply map_app.
Qed.
Lemma plus_lemma p q : pts_ok p -> pts_ok q -> xy p <> [] -> xy q <> [] -> dims_match p q ->
  good_unit (ptx p) -> good_unit (pty p) -> good_unit (ptv p) ->
  sc (ptx p) = sc (ptx q) -> sc (pty p) = sc (pty q) -> sc (ptv p) = sc (ptv q) ->
  (pv p = [] <-> pv q = []) ->
  exists r, pts_plus p q = (Ok r, q) /\ pts_ok r /\ same_units r p /\ phys r = phys p ++ phys q.
Proof.
  intros OK1 OK2 N1 N2 D G1 G2 G3 S1 S2 S3 V.
  rewrite plus_form by assumption. rewrite <- S1, <- S2, <- S3.
  assert (Q : forall s, good_unit s -> (sc s / sc s)%num = 1%num).
  { intros s G. assert (N : sc s <> 0%num) by (apply qgt_neq; exact G).
    replace (sc s) with (1 * sc s)%num at 1 by qring. apply qmul_div; exact N. }
  rewrite !Q by assumption.
  assert (E1 : map (fun t => (fst t * 1, snd t * 1))%num (xy q) = xy q).
  { rewrite <- map_id. apply map_ext. intros [a b]; cbn. f_equal; qring. }
  assert (E2 : map (fun z => z * 1)%num (pv q) = pv q).
  { rewrite <- map_id. apply map_ext. intro z. qring. }
  rewrite E1, E2. cbn zeta. cbn [xy].
  assert (C : pv p = [] /\ pv q = [] \/ length (pv p) = length (xy p) /\ length (pv q) = length (xy q)).
  { destruct OK1 as [H|H]; [left; tauto|]. destruct OK2 as [H'|H']; [left; tauto|right; auto]. }
  destruct (triples_app p q (ptx p) (pty p) (ptv p) C) as [OKr T].
  eexists. split.
  - unfold pts_new. assert (v_fits (pv p ++ pv q) (length (xy p ++ xy q)) = true) as ->.
    { unfold v_fits. apply orb_true_iff. destruct OKr as [H|H]; cbn in H; [left; rewrite H; reflexivity|right; rewrite H; apply Nat.eqb_refl]. }
    f_equal. destruct q; reflexivity.
  - split; [exact OKr|]. split; [repeat split|]. unfold phys. rewrite T, map_app. cbn [ptx pty ptv]. rewrite <- S1, <- S2, <- S3. reflexivity.
Qed.
Lemma plus_mixed p q : pts_ok p -> pts_ok q -> xy p <> [] -> xy q <> [] -> dims_match p q ->
  (pv p = [] /\ pv q <> [] \/ pv p <> [] /\ pv q = []) -> fst (pts_plus p q) = Err ValueErr.
Proof.
  intros OK1 OK2 N1 N2 D V. rewrite plus_form by assumption. cbn. unfold pts_new.
  assert (v_fits (pv p ++ map (fun z => z * (sc (ptv p) / sc (ptv q)))%num (pv q)) (length (xy p ++ map (fun t => (fst t * (sc (ptx p) / sc (ptx q)), snd t * (sc (pty p) / sc (pty q))))%num (xy q))) = false) as ->; [|reflexivity].
  assert (0 < length (xy p)) by (destruct (xy p); [congruence|cbn; lia]).
  assert (0 < length (xy q)) by (destruct (xy q); [congruence|cbn; lia]).
  unfold v_fits. apply orb_false_iff. rewrite !app_length, !map_length. rewrite !Nat.eqb_neq.
  destruct V as [[E N]|[N E]]; rewrite E; cbn [length].
  - assert (length (pv q) = length (xy q)) by (destruct OK2; [congruence|assumption]). lia.
  - assert (length (pv p) = length (xy p)) by (destruct OK1; [congruence|assumption]). lia.
Qed.

(** ** decompose *)
Lemma decompose_lemma p : length (pv p) = length (xy p) ->
  exists l, pts_decompose p = Ok l /\ Forall (fun q => length (xy q) = 1 /\ pts_ok q /\ same_units q p) l /\
            flat_map triples l = triples p.
Proof.
  intro L. unfold pts_decompose. destruct (Nat.eqb_spec (length (xy p)) 1) as [E|NE].
  - eexists; split; [reflexivity|]. split; [constructor; [|constructor]; repeat split; auto; right; auto|]. cbn. apply app_nil_r.
  - rewrite L, Nat.eqb_refl. cbn [negb]. rewrite (triples_some p L).
    generalize (combine (xy p) (pv p)). clear. induction l as [|[q v] l IH].
    + eexists; split; [reflexivity|]. split; [constructor|reflexivity].
    + destruct IH as (l' & E & F & T). cbn [mapM]. unfold pts_new at 1. cbn [v_fits length Nat.eqb orb fst snd bind].
      rewrite E. cbn [bind]. eexists; split; [reflexivity|]. split.
      * constructor; [|exact F]. split; [reflexivity|]. split; [right; reflexivity|repeat split].
      * cbn [flat_map map]. rewrite T. reflexivity.
Qed.
Lemma decompose_no_v p : pv p = [] -> 2 <= length (xy p) -> pts_decompose p = Err GenericErr.
Proof.
  intros E L. unfold pts_decompose. rewrite E. destruct (Nat.eqb_spec (length (xy p)) 1); [lia|].
  cbn [length]. destruct (Nat.eqb_spec (length (xy p)) 0); [lia|reflexivity].
Qed.

(** ** export_to_profile *)
Lemma col_of p a : pts_ok p -> a <> PtOther -> (a = PtV -> pv p <> []) ->
  exists c, pts_col p a = Ok (c, unit_of a p) /\ map Some c = map (get a) (triples p).
Proof.
  intros OK Ha Hv. destruct a; cbn [pts_col unit_of]; try congruence; eexists; (split; [reflexivity|]).
  - rewrite <- (triples_xy p OK) at 1. rewrite !map_map. reflexivity.
  - rewrite <- (triples_xy p OK) at 1. rewrite !map_map. reflexivity.
  - destruct OK as [E|L]; [destruct (Hv eq_refl E)|]. rewrite (triples_some p L), map_map. cbn.
    rewrite <- (combine_snd_of (xy p) (pv p)) at 1 by auto. rewrite map_map. reflexivity.
Qed.
Lemma map_some_inj (a b : list num) : map Some a = map Some b -> a = b.
Proof. revert b; induction a; intros [|y b] E; cbn in E; try discriminate; [reflexivity|]. injection E as -> E. f_equal; auto. Qed.
Lemma export_lemma p a b : pts_ok p -> a <> PtOther -> b <> PtOther -> (a = PtV \/ b = PtV -> pv p <> []) ->
  exists prof, pts_to_profile p a b = Ok prof /\ prof_ok prof /\ pux prof = unit_of a p /\ puy prof = unit_of b p /\
    Permutation (map (fun t => (Some (sx t), sy t, smask t)) (samples prof)) (map (fun t => (get a t, get b t, false)) (triples p)).
Proof.
  intros OK Ha Hb Hv.
  destruct (col_of p a OK Ha) as (x & Ex & X); [intro; apply Hv; auto|].
  destruct (col_of p b OK Hb) as (y & Ey & Y); [intro; apply Hv; auto|].
  assert (Lx : length x = length (triples p)) by (rewrite <- (map_length Some x), X, map_length; reflexivity).
  assert (Ly : length y = length (triples p)) by (rewrite <- (map_length Some y), Y, map_length; reflexivity).
  unfold pts_to_profile. rewrite Ex; cbn [bind]. rewrite Ey; cbn [bind].
  destruct (new_lemma x (map Some y) None (unit_of a p) (unit_of b p)) as (prof & E & OKp & U1 & U2 & P & _); [rewrite map_length; lia|exact I|].
  exists prof. split; [exact E|]. split; [exact OKp|]. split; [exact U1|]. split; [exact U2|].
  apply (Permutation_map (fun t : sample => (Some (sx t), sy t, smask t))) in P. cbv beta in P. rewrite map_map in P. rewrite P.
  clear P. apply Permutation_refl'. 
  assert (G : forall (ts : list triple) x y, map Some x = map (get a) ts -> map Some y = map (get b) ts ->
     map (fun t : sample => (Some (sx (sx t, if smask t then None else sy t, (smask t || isnan (sy t))%bool)),
                   sy (sx t, if smask t then None else sy t, (smask t || isnan (sy t))%bool),
                   smask (sx t, if smask t then None else sy t, (smask t || isnan (sy t))%bool)))
         (zip3 x (map Some y) (repeat false (length x))) = map (fun t => (get a t, get b t, false)) ts).
  { clear. induction ts as [|t ts IH]; intros [|u x] [|w y] H1 H2; cbn in *; try discriminate; [reflexivity|].
    injection H1 as E1 H1. injection H2 as E2 H2. rewrite <- E1, <- E2. f_equal. apply (IH x y H1 H2). }
  apply G; assumption.
Qed.

(** ** histories *)
Lemma tstep_ok asort p o : is_argsort asort -> pts_ok p -> tlegal p o -> pts_ok (fst (tstep asort p o)).
Proof.
  intros AS OK L. destruct o; cbn [tstep fst].
  - destruct (pts_add_lemma p pt v OK L) as (p' & E & OK' & _). rewrite E. exact OK'.
  - unfold pts_remove. destruct (np_delete inds (xy p)) as [l|e] eqn:E; [|exact OK].
    fold (pts_remove p inds). assert (H := remove_form p inds l E). unfold pts_remove in H. rewrite E in H.
    rewrite H. apply set_xy_ok.
  - apply crop_lemma; exact OK.
  - apply crop_ind_lemma; exact OK.
  - unfold set_v. destruct (v_fits l (length (xy p))) eqn:E; [|exact OK]. cbn. unfold v_fits in E. apply orb_true_iff in E.
    destruct E as [E|E]; apply Nat.eqb_eq in E; [left; destruct l; [reflexivity|discriminate]|right; exact E].
  - apply set_xy_ok.
  - apply origin_lemma; exact OK.
  - unfold pts_change_unit. destruct a; [destruct (conv (ptx p) u)|destruct (conv (pty p) u)|destruct (conv (ptv p) u)|]; try exact OK; cbn [fst].
    + apply pts_map_ok1; exact OK.
    + apply pts_map_ok1; exact OK.
    + destruct (pts_map_ok p (fun t => t) (fun z => z * q)%num (ptx p) (pty p) u OK) as [A _]. rewrite map_id in A. exact A.
  - apply scale_lemma; exact OK.
  - destruct (pts_sort asort p a) as [q|e] eqn:E; [|exact OK]. cbn.
    assert (Ha : a <> PtOther) by (intro; subst; discriminate E).
    assert (Hv : a = PtV -> pv p <> []) by (intros -> X; unfold pts_sort in E; rewrite X in E; discriminate E).
    destruct (sort_lemma asort p a AS OK Ha Hv) as (q' & E' & OK' & _). congruence.
  - destruct (pts_map_ok1 p (fun t => (fst t * c - snd t * s, snd t * c + fst t * s)%num) (ptx p) (pty p) (ptv p) OK) as [A _]. exact A.
Qed.
Lemma trun_ok asort p ops : is_argsort asort -> pts_ok p -> tlegal_run asort p ops -> pts_ok (trun asort p ops).
Proof.
  intros AS. revert p. induction ops as [|o ops IH]; intros p OK L; [exact OK|]. destruct L as [L1 L2].
  apply IH; [apply tstep_ok; auto|exact L2].
Qed.
