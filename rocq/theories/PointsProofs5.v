(** * PointsProofs5: point density. *)
From Coq Require Import Permutation.
From Verif Require Import Num Res ListLib SortLib SeqSpec Arr FieldModel ScalarFieldModel FieldSpec FieldProofs FieldProofs2 ProfileModel ProfileSpec ProfileProofs ProfileProofs2 PointsModel PointsSpec PointsProofs.

Lemma argmin_from_spec l : forall best bi i (pre : list num), i = length pre -> bi < i -> nths pre bi = best ->
  (forall k, k < i -> (best <= nths pre k)%num) -> (forall k, k < bi -> (best < nths pre k)%num) ->
  let r := argmin_from best bi i l in let full := pre ++ l in
  r < length full /\ (forall k, k < length full -> (nths full r <= nths full k)%num) /\ (forall k, k < r -> (nths full r < nths full k)%num).
Proof.
  induction l as [|x l IH]; intros best bi i pre -> Lb Eb H1 H2; cbn zeta; cbn [argmin_from].
  - rewrite app_nil_r, Eb. auto.
  - assert (N1 : forall k, k < length pre -> nths (pre ++ [x]) k = nths pre k) by (intros k Lk; apply app_nth1; lia).
    assert (N2 : nths (pre ++ [x]) (length pre) = x) by (rewrite app_nth2 by lia; rewrite Nat.sub_diag; reflexivity).
    replace (pre ++ x :: l) with ((pre ++ [x]) ++ l) by (rewrite <- app_assoc; reflexivity).
    destruct (qltb_spec x best) as [L|L].
    + apply (IH x (length pre) (S (length pre)) (pre ++ [x])); [rewrite app_length; cbn; lia|lia|exact N2| |].
      * intros k Lk. destruct (Nat.eq_dec k (length pre)) as [->|NE]; [rewrite N2; apply qle_refl|].
        rewrite N1 by lia. assert (k < length pre) as K by lia. specialize (H1 k K). qlra.
      * intros k Lk. rewrite N1 by lia. specialize (H1 k Lk). qlra.
    + apply (IH best bi (S (length pre)) (pre ++ [x])); [rewrite app_length; cbn; lia|lia|rewrite N1 by lia; exact Eb| |].
      * intros k Lk. destruct (Nat.eq_dec k (length pre)) as [->|NE]; [rewrite N2; exact L|].
        rewrite N1 by lia. apply H1. lia.
      * intros k Lk. rewrite N1 by lia. apply H2. lia.
Qed.
Lemma argmin_spec l : l <> [] -> argmin l < length l /\ (forall k, k < length l -> (nths l (argmin l) <= nths l k)%num) /\ (forall k, k < argmin l -> (nths l (argmin l) < nths l k)%num).
Proof.
  destruct l as [|x l]; [congruence|]. intros _. cbn [argmin].
  apply (argmin_from_spec l x 0 1 [x]); cbn; auto; try lia.
  intros k Lk. assert (k = 0) as -> by lia. apply qle_refl.
Qed.
Lemma nearest_closest axe v i : axe <> [] -> closest axe v i = Nat.eqb (nearest_node axe v) i.
Proof.
  intro NE. set (l := map (fun a => qabs (a - v))%num axe).
  assert (NL : l <> []) by (unfold l; destruct axe; [congruence|discriminate]).
  assert (Ll : length l = length axe) by apply map_length.
  assert (N : forall k, k < length axe -> nths l k = qabs (nths axe k - v)%num).
  { intros k Lk. unfold l. rewrite (nth_indep _ (qz 0) ((fun a => qabs (a - v))%num (qz 0))) by (rewrite map_length; exact Lk).
    apply (map_nth (fun a => qabs (a - v))%num). }
  destruct (argmin_spec l NL) as (A1 & A2 & A3). fold l in A1. unfold nearest_node. fold l. rewrite Ll in A1, A2.
  destruct (Nat.eqb_spec (argmin l) i) as [<-|D].
  - unfold closest. apply andb_true_intro. split; [apply Nat.ltb_lt; exact A1|]. apply forallb_forall. intros k Ik. apply in_seq in Ik.
    assert (k < length axe) as Lk by lia. rewrite <- !N by assumption. apply andb_true_intro. split; [apply qleb_le; apply A2; exact Lk|].
    destruct (Nat.ltb_spec k (argmin l)) as [K|K]; [|reflexivity]. cbn. apply qltb_lt. apply A3. exact K.
  - destruct (closest axe v i) eqn:E; [|reflexivity]. exfalso. unfold closest in E. apply andb_prop in E. destruct E as [Li F].
    apply Nat.ltb_lt in Li. rewrite forallb_forall in F. specialize (F (argmin l)). rewrite in_seq in F. specialize (F ltac:(lia)).
    apply andb_prop in F. destruct F as [F1 F2]. rewrite <- !N in F1, F2 by assumption. apply qleb_le in F1.
    destruct (Nat.lt_trichotomy (argmin l) i) as [K|[K|K]]; [|congruence|].
    + apply Nat.ltb_lt in K. rewrite K in F2. cbn in F2. apply qltb_lt in F2. specialize (A2 i Li). qlra.
    + specialize (A3 i K). qlra.
Qed.

Lemma total_nil : total [] = 0%num.
Proof. reflexivity. Qed.
Lemma total_cons x l : total (x :: l) = (x + total l)%num.
Proof. reflexivity. Qed.
Lemma total_app a b : total (a ++ b) = (total a + total b)%num.
Proof. induction a as [|x a IH]; cbn [app]; rewrite ?total_nil, ?total_cons; [qring|]. rewrite IH. qring. Qed.
Lemma total_map_mul {A} (f : A -> num) c l : total (map (fun x => f x * c)%num l) = (total (map f l) * c)%num.
Proof. induction l as [|x l IH]; cbn [map]; rewrite ?total_nil, ?total_cons; [qring|]. rewrite IH. qring. Qed.
Lemma total_map_add {A} (f g : A -> num) l : total (map (fun x => f x + g x)%num l) = (total (map f l) + total (map g l))%num.
Proof. induction l as [|x l IH]; cbn [map]; rewrite ?total_nil, ?total_cons; [qring|]. rewrite IH. qring. Qed.
Lemma total_zero {A} (f : A -> num) l : (forall x, In x l -> f x = 0%num) -> total (map f l) = 0%num.
Proof. induction l as [|x l IH]; cbn [map]; intro H; [reflexivity|]. rewrite total_cons, IH by (intros; apply H; now right). rewrite (H x) by now left. qring. Qed.
Lemma total_swap {A B} (f : A -> B -> num) l m :
  total (map (fun a => total (map (f a) m)) l) = total (map (fun b => total (map (fun a => f a b) l)) m).
Proof.
  induction l as [|a l IH]; cbn [map]; [symmetry; apply total_zero; reflexivity|].
  rewrite total_cons, IH. rewrite <- total_map_add. reflexivity.
Qed.
Lemma total_one {A} (d : forall x y : A, {x = y} + {x <> y}) (f : A -> num) a l : NoDup l -> In a l -> (forall x, x <> a -> f x = 0%num) -> total (map f l) = f a.
Proof.
  intros N I H. induction l as [|x l IH]; [contradiction|]. inversion N; subst. cbn [map]. rewrite total_cons. destruct (d x a) as [->|NE].
  - rewrite total_zero; [qring|]. intros x Ix. apply H. intros ->. contradiction.
  - rewrite (H x NE). destruct I as [->|I]; [congruence|]. rewrite IH; auto. qring.
Qed.
Lemma total_filter {A} (f : A -> bool) (g : A -> num) l : total (map (fun x => if f x then g x else 0%num) l) = total (map g (filter f l)).
Proof. induction l as [|x l IH]; cbn [map filter]; [reflexivity|]. destruct (f x); cbn [map]; rewrite ?total_cons, IH; [reflexivity|qring]. Qed.

Lemma linspace_length a b n : length (linspace a b n) = n.
Proof. unfold linspace. rewrite map_length, seq_length. reflexivity. Qed.
Lemma linspace_nth a b n i : i < n -> nths (linspace a b n) i = (a + qn i * ((b - a) / qn (n - 1)))%num.
Proof.
  intro L. apply nth_error_nth. unfold linspace. rewrite nth_error_map.
  rewrite (nth_error_nth' (seq 0 n) 0) by (rewrite seq_length; exact L). rewrite seq_nth by exact L. reflexivity.
Qed.
Lemma lmin_le l x : In x l -> (lmin l <= x)%num.
Proof.
  intro I. destruct (qltb_spec x (lmin l)) as [L|L]; [|exact L]. exfalso.
  assert (l <> []) as NE by (destruct l; [contradiction|discriminate]). exact (qlt_irrefl _ (lmin_spec l x NE L x I)).
Qed.
Lemma lmax_ge l x : In x l -> (x <= lmax l)%num.
Proof. intro I. destruct (qltb_spec (lmax l) x) as [L|L]; [|exact L]. exfalso. exact (qlt_irrefl _ (lmax_spec l x L x I)). Qed.

Lemma qn_pos n : 1 <= n -> (0 < qn n)%num.
Proof. intro L. unfold qn. apply qz_lt. lia. Qed.
Lemma linspace_increasing a b n : (a < b)%num -> 2 <= n -> increasing (linspace a b n).
Proof.
  intros L N i j L1 L2. rewrite linspace_length in L2. rewrite !linspace_nth by lia.
  assert ((0 < (b - a) / qn (n - 1))%num) as D by (apply qdiv_pos; [qlra|apply qn_pos; lia]).
  assert ((qn i < qn j)%num) as Q by (unfold qn; apply qz_lt; lia).
  pose proof (qmul_lt_r _ _ _ D Q). qlra.
Qed.

Lemma density_lemma p rx ry pond : 2 <= rx -> 2 <= ry -> (pond = true -> length (pv p) = length (xy p)) ->
  (exists a b, In a (xy p) /\ In b (xy p) /\ (fst a < fst b)%num) -> (exists a b, In a (xy p) /\ In b (xy p) /\ (snd a < snd b)%num) ->
  exists f dx dy ds, pts_density p rx ry pond = Ok f /\ (0 < dx)%num /\ (0 < dy)%num /\
    length (ax (sg f)) = rx /\ length (ay (sg f)) = ry /\
    (forall i, i < rx -> nths (ax (sg f)) i = (lmin (map fst (xy p)) + qn i * dx)%num) /\ nths (ax (sg f)) (rx - 1) = lmax (map fst (xy p)) /\
    (forall j, j < ry -> nths (ay (sg f)) j = (lmin (map snd (xy p)) + qn j * dy)%num) /\ nths (ay (sg f)) (ry - 1) = lmax (map snd (xy p)) /\
    (forall i j, i < rx -> j < ry -> at_ (msk f) i j = false /\ exists d, at_ (values f) i j = Some d /\
       (d * (dx * dy))%num = total (map snd (filter (fun t => (closest (ax (sg f)) (fst (fst t)) i && closest (ay (sg f)) (snd (fst t)) j)%bool) (weights pond p)))) /\
    flatten (values f) = map Some ds /\ (total ds * (dx * dy))%num = total (map snd (weights pond p)).
Proof.
  intros Rx Ry Pd (ax0 & ax1 & Iax0 & Iax1 & Lax) (ay0 & ay1 & Iay0 & Iay1 & Lay).
  set (X := map fst (xy p)). set (Y := map snd (xy p)).
  assert (LX : (lmin X < lmax X)%num).
  { pose proof (lmin_le X _ (in_map fst _ _ Iax0)). pose proof (lmax_ge X _ (in_map fst _ _ Iax1)). qlra. }
  assert (LY : (lmin Y < lmax Y)%num).
  { pose proof (lmin_le Y _ (in_map snd _ _ Iay0)). pose proof (lmax_ge Y _ (in_map snd _ _ Iay1)). qlra. }
  set (dx := ((lmax X - lmin X) / qn (rx - 1))%num). set (dy := ((lmax Y - lmin Y) / qn (ry - 1))%num).
  assert (Dx : (0 < dx)%num) by (apply qdiv_pos; [qlra|apply qn_pos; lia]).
  assert (Dy : (0 < dy)%num) by (apply qdiv_pos; [qlra|apply qn_pos; lia]).
  assert (Dxy : (0 < dx * dy)%num) by (apply qmul_pos; assumption).
  set (axx := linspace (lmin X) (lmax X) rx). set (axy := linspace (lmin Y) (lmax Y) ry).
  assert (Ix : increasing axx) by (apply linspace_increasing; assumption).
  assert (Iy : increasing axy) by (apply linspace_increasing; assumption).
  assert (Lx : length axx = rx) by apply linspace_length. assert (Ly : length axy = ry) by apply linspace_length.
  set (W := weights pond p).
  set (w := if pond then pv p else repeat 1%num (length (xy p))).
  assert (EW : combine (xy p) w = W).
  { unfold W, w, weights. destruct pond; [reflexivity|]. clear. induction (xy p) as [|q l IH]; cbn; [reflexivity|]. f_equal. exact IH. }
  set (cell := fun i j => total (map snd (filter (fun t : (num * num) * num => (closest axx (fst (fst t)) i && closest axy (snd (fst t)) j)%bool) W))).
  set (vals := mkarr rx ry (fun i j => odiv (Some (qsum (map (fun t : (num * num) * num => if (Nat.eqb (nearest_node axx (fst (fst t))) i && Nat.eqb (nearest_node axy (snd (fst t))) j)%bool
                                             then snd t else 0%num) (combine (xy p) w)))) (Some (dx * dy)%num))).
  assert (NEx : axx <> []) by (intro E; rewrite E in Lx; cbn in Lx; lia).
  assert (NEy : axy <> []) by (intro E; rewrite E in Ly; cbn in Ly; lia).
  set (f := mksf (mkgrid axx axy (ptx p) (pty p)) vals (amap2 orb (afull rx ry false) (amap isnan vals))
                 (unit_div (unit_div (if pond then ptv p else mkunit [] 1%num) (ptx p)) (pty p))).
  assert (Ev : forall i j, at_ vals i j = Some (cell i j / (dx * dy))%num).
  { intros i j. unfold vals, cell. cbn [at_]. unfold odiv. destruct (qeqb_spec (dx * dy)%num 0%num) as [Z|Z]; [qlra|].
    f_equal. f_equal. rewrite EW. unfold qsum. rewrite <- total_filter. unfold total. f_equal. apply map_ext. intro t.
    rewrite !nearest_closest by assumption. reflexivity. }
  assert (Em : forall i j, at_ (msk f) i j = false) by (intros i j; unfold f; cbn [msk amap2 amap afull at_]; rewrite Ev; reflexivity).
  assert (Evf : forall i j, at_ (values f) i j = Some (cell i j / (dx * dy))%num).
  { intros i j. unfold values. cbn [at_]. rewrite Em. unfold f; cbn [raw]. apply Ev. }
  exists f, dx, dy, (map (fun ij => cell (fst ij) (snd ij) / (dx * dy))%num (aidx rx ry)).
  split; [|split; [exact Dx|split; [exact Dy|split; [exact Lx|split; [exact Ly|split; [|split; [|split; [|split; [|split; [|split]]]]]]]]]].
  - unfold pts_density. assert (Nat.eqb (length (xy p)) 0 = false) as -> by (destruct (xy p); [contradiction|reflexivity]).
    assert ((pond && Nat.ltb (length (pv p)) (length (xy p)))%bool = false) as ->.
    { destruct pond; [|reflexivity]. rewrite Pd by reflexivity. apply Nat.ltb_irrefl. }
    assert (Nat.eqb rx 0 = false) as -> by (apply Nat.eqb_neq; lia). assert (Nat.eqb ry 0 = false) as -> by (apply Nat.eqb_neq; lia).
    cbn [guard orb]. fold X Y axx axy w. unfold linstep.
    assert (Nat.ltb rx 2 = false) as -> by (apply Nat.ltb_ge; lia). assert (Nat.ltb ry 2 = false) as -> by (apply Nat.ltb_ge; lia).
    fold dx dy. cbv beta zeta iota delta [omul lift2]. fold vals.
    change (sf_import axx axy vals None) with (sf_import axx axy vals (Some (afull rx ry false))).
    rewrite sf_import_plain; [reflexivity|assumption|assumption|lia|lia|symmetry; exact Lx|symmetry; exact Ly].
  - intros i Li. cbn [f sg ax]. unfold axx. rewrite linspace_nth by exact Li. reflexivity.
  - cbn [f sg ax]. unfold axx. rewrite linspace_nth by lia. qfield. apply qgt_neq. apply qn_pos. lia.
  - intros i Li. cbn [f sg ay]. unfold axy. rewrite linspace_nth by exact Li. reflexivity.
  - cbn [f sg ay]. unfold axy. rewrite linspace_nth by lia. qfield. apply qgt_neq. apply qn_pos. lia.
  - intros i j Li Lj. split; [apply Em|]. exists (cell i j / (dx * dy))%num. split; [apply Evf|].
    rewrite qdiv_mul by (apply qgt_neq; exact Dxy). reflexivity.
  - unfold flatten. rewrite map_map. apply map_ext. intros [i j]. apply Evf.
  - assert (H1 : total (map (fun ij => cell (fst ij) (snd ij) / (dx * dy))%num (aidx rx ry)) = (total (map (fun ij => cell (fst ij) (snd ij)) (aidx rx ry)) / (dx * dy))%num).
    { unfold Qcdiv. apply total_map_mul. }
    rewrite H1, qdiv_mul by (apply qgt_neq; exact Dxy).
    transitivity (total (map (fun ij => total (map (fun t : (num * num) * num => if (closest axx (fst (fst t)) (fst ij) && closest axy (snd (fst t)) (snd ij))%bool then snd t else 0%num) W)) (aidx rx ry))).
    { f_equal. apply map_ext. intros [i j]. unfold cell. rewrite <- total_filter. reflexivity. }
    rewrite (total_swap (fun (ij : nat * nat) (t : (num * num) * num) => if (closest axx (fst (fst t)) (fst ij) && closest axy (snd (fst t)) (snd ij))%bool then snd t else 0%num)). f_equal.
    apply map_ext_in. intros t It.
    assert (DEC : forall a b : nat * nat, {a = b} + {a <> b}) by (decide equality; apply Nat.eq_dec).
    set (i := nearest_node axx (fst (fst t))). set (j := nearest_node axy (snd (fst t))).
    rewrite (total_one DEC _ (i, j) (aidx rx ry)).
    + cbn [fst snd]. rewrite !nearest_closest by assumption. fold i j. rewrite !Nat.eqb_refl. reflexivity.
    + apply NoDup_aidx.
    + apply in_aidx. split.
      * unfold i, nearest_node. rewrite <- Lx. rewrite <- (map_length (fun a => qabs (a - fst (fst t)))%num axx). apply argmin_spec. destruct axx; [congruence|discriminate].
      * unfold j, nearest_node. rewrite <- Ly. rewrite <- (map_length (fun a => qabs (a - snd (fst t)))%num axy). apply argmin_spec. destruct axy; [congruence|discriminate].
    + intros [i' j'] NE. cbn [fst snd]. rewrite !nearest_closest by assumption. fold i j.
      destruct (Nat.eqb_spec i i') as [<-|]; [|reflexivity]. destruct (Nat.eqb_spec j j') as [<-|]; [|reflexivity]. congruence.
Qed.
