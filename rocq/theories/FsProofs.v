(** * FsProofs: proofs for FsModel. *)
From Coq Require Import Reals List Bool ZArith Lra Lia.
From Verif Require Import Res LayModel LaySpec LayProofs LayProofs2 FsModel FsSpec.
Import ListNotations.
#[local] Open Scope R_scope.

Section F.
Context (f : fskan) (PH : fs_physical f).
Let n := f_nu f. Let c := f_c0 f. Let L := f_L f. Let m := f_m f.
Lemma fs_pos : 0 < n /\ 0 < c /\ 0 < L /\ -1 < m. Proof. exact PH. Qed.
Lemma u_e_pos x : 0 < get_u_e f x.
Proof. destruct fs_pos as (_ & C & _). unfold get_u_e. apply Rmult_lt_0_compat; [exact C|apply Rpower_pos]. Qed.
Lemma y_scale x : 0 < x -> 0 < n * x / get_u_e f x.
Proof. intros X. destruct fs_pos as (N & _). pose proof (u_e_pos x). apply Rdiv_lt_0_compat; [apply Rmult_lt_0_compat; assumption|assumption]. Qed.
Lemma y_power x mu : 0 < x -> get_y f x mu = mu * sqrt (n * L / c) * Rpower (x / L) ((1 - m) / 2).
Proof.
  intros X. destruct fs_pos as (N & C & HL & M). unfold get_y. fold n. rewrite pw_half_sqrt by (left; apply y_scale; exact X).
  assert (Z : 0 < x / L) by (apply Rdiv_lt_0_compat; assumption). rewrite Rmult_assoc. f_equal.
  assert (E : n * x / get_u_e f x = n * L / c * (Rpower (x / L) ((1 - m) / 2) * Rpower (x / L) ((1 - m) / 2))).
  { rewrite <- Rpower_plus. replace ((1 - m) / 2 + (1 - m) / 2) with (1 - m) by field. rewrite <- (div_pow (x / L) m Z). unfold get_u_e. fold c L m.
    field. pose proof (Rpower_pos (x / L) m). repeat split; lra. }
  rewrite E. pose proof (Rpower_pos (x / L) ((1 - m) / 2)). assert (0 < n * L / c) by (apply Rdiv_lt_0_compat; [apply Rmult_lt_0_compat; assumption|assumption]).
  rewrite sqrt_mult; [|lra|nra]. rewrite sqrt_square by lra. reflexivity.
Qed.
Lemma mu_of_y x mu : 0 < x -> get_mu f x (get_y f x mu) = mu * sqrt ((m + 1) / 2).
Proof.
  intros X. destruct fs_pos as (N & C & HL & M). unfold get_mu. rewrite (y_power x mu X). fold n c L m.
  assert (Z : 0 < x / L) by (apply Rdiv_lt_0_compat; assumption).
  assert (P : 0 < c * (m + 1) / (2 * n * L)). { apply Rdiv_lt_0_compat; [apply Rmult_lt_0_compat; lra|apply Rmult_lt_0_compat; [lra|exact HL]]. }
  assert (Q : 0 < n * L / c) by (apply Rdiv_lt_0_compat; [apply Rmult_lt_0_compat; assumption|assumption]).
  rewrite pw_half_sqrt by lra.
  replace (mu * sqrt (n * L / c) * Rpower (x / L) ((1 - m) / 2) * sqrt (c * (m + 1) / (2 * n * L)) * Rpower (x / L) ((m - 1) / 2))
    with (mu * (sqrt (n * L / c) * sqrt (c * (m + 1) / (2 * n * L))) * (Rpower (x / L) ((1 - m) / 2) * Rpower (x / L) ((m - 1) / 2))) by ring.
  rewrite <- sqrt_mult by lra. rewrite <- Rpower_plus. replace ((1 - m) / 2 + (m - 1) / 2) with 0 by field. rewrite Rpower_O by exact Z.
  replace (n * L / c * (c * (m + 1) / (2 * n * L))) with ((m + 1) / 2) by (field; repeat split; lra). ring.
Qed.
Lemma y_growth x y mu : 0 < mu -> 0 < x < y ->
  (m < 1 -> get_y f x mu < get_y f y mu) /\ (m = 1 -> get_y f x mu = get_y f y mu) /\ (1 < m -> get_y f y mu < get_y f x mu).
Proof.
  intros MU [X XY]. destruct fs_pos as (N & C & HL & M). rewrite !y_power by lra.
  assert (Q : 0 < n * L / c) by (apply Rdiv_lt_0_compat; [apply Rmult_lt_0_compat; assumption|assumption]). pose proof (sqrt_lt_R0 _ Q) as S.
  assert (K : 0 < mu * sqrt (n * L / c)) by (apply Rmult_lt_0_compat; assumption).
  assert (Zx : 0 < x / L) by (apply Rdiv_lt_0_compat; assumption).
  assert (Zxy : x / L < y / L) by (apply Rmult_lt_compat_r; [apply Rinv_0_lt_compat; exact HL|exact XY]).
  split; [|split].
  - intros H. apply Rmult_lt_compat_l; [exact K|]. apply Rlt_Rpower_l; lra.
  - intros H. rewrite H. replace ((1 - 1) / 2) with 0 by field. rewrite !Rpower_O by lra. reflexivity.
  - intros H. apply Rmult_lt_compat_l; [exact K|]. replace ((1 - m) / 2) with (- ((m - 1) / 2)) by field. rewrite !Rpower_Ropp.
    apply Rinv_lt_contravar; [apply Rmult_lt_0_compat; apply Rpower_pos|]. apply Rlt_Rpower_l; lra.
Qed.
Lemma fs_profile_ok odeint Phi y3 x : 0 < x -> (forall t0 r, odeint (fs_deriv f) (0, 0, y3) (t0 :: r) = map (fun t => Phi (t - t0)) (t0 :: r)) ->
  fs_profile odeint f y3 x = map (fun mu => (get_y f x mu, snd (fst (Phi mu)) * get_u_e f x)) mus.
Proof.
  intros X H. unfold fs_profile. assert (E : mus = 0 :: tl mus) by (unfold mus; cbn [seq map tl]; f_equal; cbn; field). rewrite E at 1 2. rewrite H. rewrite <- E.
  generalize mus. intros l. induction l as [|a l IH]; [reflexivity|]. cbn [map combine]. rewrite Rminus_0_r. f_equal. exact IH.
Qed.
End F.

(** ** first guesses *)
Lemma changes_spec v : forall i k, In k (changes i v) -> exists j a c, k = (i + j)%nat /\ nth_error v j = Some a /\ nth_error v (S j) = Some c /\ a * c < 0.
Proof.
  induction v as [|a v IH]; intros i k H; [destruct H|]. destruct v as [|c v]; [destruct H|]. cbn [changes] in H.
  assert (T : In k (changes (S i) (c :: v)) -> exists j a' c', k = (i + j)%nat /\ nth_error (a :: c :: v) j = Some a' /\ nth_error (a :: c :: v) (S j) = Some c' /\ a' * c' < 0).
  { intros H'. destruct (IH (S i) k H') as (j & a' & c' & E & E1 & E2 & P). exists (S j), a', c'. split; [lia|]. split; [exact E1|]. split; [exact E2|exact P]. }
  unfold ltb in H. destruct (Rlt_dec (a * c) 0) as [N|N]; [destruct H as [<-|H]|]; [|exact (T H)|exact (T H)].
  exists 0%nat, a, c. split; [lia|]. split; [reflexivity|]. split; [reflexivity|exact N].
Qed.
Lemma same_in l1 l2 r k : same_places l1 l2 = Ok r -> In k r -> In k l1 /\ In k l2.
Proof.
  revert l2 r. induction l1 as [|a l1 IH]; intros l2 r E H; [injection E as <-; destruct H|]. destruct l2 as [|c l2]; [discriminate E|]. cbn in E.
  destruct (same_places l1 l2) as [q|] eqn:Eq; [|discriminate E]. cbn in E. injection E as <-.
  destruct (Nat.eqb_spec a c) as [->|N]; [destruct H as [<-|H]; [split; left; reflexivity|]|]; destruct (IH l2 q Eq H); split; right; assumption.
Qed.
Lemma known_in l g : In g (known l) -> In (g_y3 g, Some (g_y1 g, g_y2 g)) l.
Proof.
  induction l as [|[y3 [[y1 y2]|]] l IH]; cbn; intros H; [destruct H| |right; exact (IH H)]. destruct H as [<-|H]; [left; reflexivity|right; exact (IH H)].
Qed.
Lemma rmin_le a l : rmin a l <= a /\ forall x, In x l -> rmin a l <= x.
Proof.
  revert a. induction l as [|x l IH]; intros a; [split; [apply Rle_refl|intros x H; destruct H]|]. cbn. destruct (IH (Rmin a x)) as [A B]. pose proof (Rmin_l a x). pose proof (Rmin_r a x).
  split; [lra|]. intros z [<-|H1]; [lra|exact (B z H1)].
Qed.
Lemma rmax_ge a l : a <= rmax a l /\ forall x, In x l -> x <= rmax a l.
Proof.
  revert a. induction l as [|x l IH]; intros a; [split; [apply Rle_refl|intros x H; destruct H]|]. cbn. destruct (IH (Rmax a x)) as [A B]. pose proof (Rmax_l a x). pose proof (Rmax_r a x).
  split; [lra|]. intros z [<-|H1]; [lra|exact (B z H1)].
Qed.
Definition from_guesses (gs : list (R * option (R * R))) (b : interval) : Prop :=
  (exists y2, In (a3 b, Some (a1 b, y2)) gs) /\ (exists y2, In (b3 b, Some (b1 b, y2)) gs).
Lemma first_ok asort gs b : first_interval asort gs = Ok b ->
  from_guesses gs b /\
  ((exists g h, In g (known gs) /\ In h (known gs) /\ g_y1 g < 1 /\ 1 < g_y1 h) -> straddles b).
Proof.
  intros E. unfold first_interval in E. set (l := known gs) in *. destruct (map (fun g => g_y1 g - 1) l) as [|r0 rs] eqn:ER; [discriminate E|].
  set (resid := r0 :: rs) in *.
  assert (BT : forall i j g h, nth_error l i = Some g -> nth_error l j = Some h -> from_guesses gs (between g h)).
  { intros i j g h H1 H2. apply nth_error_In in H1, H2. split; [exists (g_y2 g)|exists (g_y2 h)]; apply known_in; assumption. }
  unfold ltb in E. destruct (Rlt_dec (rmin r0 rs * rmax r0 rs) 0) as [N|N].
  - destruct (same_places (changes 0 resid) (changes 0 (map g_y2 l))) as [p|] eqn:EP; [|discriminate E]. cbn [bind] in E. destruct p as [|ind p]; [discriminate E|].
    destruct (nth_error l ind) as [g|] eqn:E1; [|discriminate E]. destruct (nth_error l (S ind)) as [h|] eqn:E2; [|discriminate E]. injection E as <-.
    split; [exact (BT _ _ _ _ E1 E2)|]. intros _. destruct (same_in _ _ _ ind EP (or_introl eq_refl)) as [I1 _]. destruct (changes_spec _ _ _ I1) as (j & a & c & -> & Ea & Ec & P).
    rewrite Nat.add_0_l in E1, E2. rewrite <- ER in Ea, Ec. rewrite nth_error_map, E1 in Ea. rewrite nth_error_map, E2 in Ec. injection Ea as <-. injection Ec as <-. exact P.
  - destruct (asort (map Rabs resid)) as [|i0 [|i1 rest]]; [discriminate E|destruct (Nat.eqb i0 0 || Nat.eqb i0 (length l - 1))%bool; discriminate E|].
    destruct (Nat.eqb i0 0 || Nat.eqb i0 (length l - 1))%bool; [discriminate E|]. cbn [guard] in E.
    destruct (nth_error l i0) as [g|] eqn:E1; [|discriminate E]. destruct (nth_error l i1) as [h|] eqn:E2; [|discriminate E]. injection E as <-.
    split; [exact (BT _ _ _ _ E1 E2)|]. intros (g' & h' & G1 & G2 & L1 & L2). exfalso. apply N.
    assert (A : In (g_y1 g' - 1) resid) by (rewrite <- ER; apply in_map_iff; exists g'; split; [reflexivity|exact G1]).
    assert (B : In (g_y1 h' - 1) resid) by (rewrite <- ER; apply in_map_iff; exists h'; split; [reflexivity|exact G2]).
    assert (rmin r0 rs < 0) by (destruct (rmin_le r0 rs) as [M1 M2]; destruct A as [A|A]; [lra|specialize (M2 _ A); lra]).
    assert (0 < rmax r0 rs) by (destruct (rmax_ge r0 rs) as [M1 M2]; destruct B as [B|B]; [lra|specialize (M2 _ B); lra]). nra.
Qed.

(** ** shooting *)
Lemma ltb_inv x y b : ltb x y = b -> if b then x < y else ~ x < y.
Proof. unfold ltb. destruct (Rlt_dec x y); intros <-; assumption. Qed.
Lemma eqb_inv x y b : eqb x y = b -> if b then x = y else x <> y.
Proof. unfold eqb. destruct (Req_EM_T x y); intros <-; assumption. Qed.
Section Sh.
Context (shoot : R -> option R) (relerr : R) (max_it : nat) (verbose : bool) (lo hi : R).
Definition within (b : interval) : Prop := inside lo hi (a3 b) /\ inside lo hi (b3 b).
Lemma mid_ok b : straddles b -> within b -> exists nm, next_mid b = Ok nm /\ inside lo hi nm.
Proof.
  intros S [[A1 A2] [B1 B2]]. unfold next_mid, straddles in *. set (p := Rabs (1 - b1 b)). set (q := Rabs (1 - a1 b)).
  assert (P : 0 < p) by (apply Rabs_pos_lt; intro Z; assert (b1 b - 1 = 0) by lra; nra).
  assert (Q : 0 < q) by (apply Rabs_pos_lt; intro Z; assert (a1 b - 1 = 0) by lra; nra).
  rewrite eqb_f by lra. cbn [guard]. eexists. split; [reflexivity|].
  assert (E : (a3 b * p + b3 b * q) / (p + q) * (p + q) = a3 b * p + b3 b * q) by (field; lra).
  split; apply (Rmult_le_reg_r (p + q)); try lra; rewrite E; nra.
Qed.
(** the states of the loop: an interval around 1, or one whose first end gives exactly 1 and has just been tried *)
Definition good (b : interval) (mid : R) : Prop := within b /\ tried shoot b /\ (straddles b \/ (a1 b = 1 /\ b1 b <> 1 /\ a3 b = mid)).
Definition answer (y : R) : Prop := inside lo hi y /\ exists v z w, shoot y = Some v /\ inside lo hi z /\ shoot z = Some w /\ (v - 1) * (w - 1) <= 0.
Lemma opp_sign a y b : a * b < 0 -> ~ a * y < 0 -> y <> 0 -> y * b < 0.
Proof.
  intros H N Y. destruct (Rtotal_order a 0) as [A|[A|A]]; destruct (Rtotal_order y 0) as [C|[C|C]]; destruct (Rtotal_order b 0) as [B|[B|B]]; subst; try lra; try nra.
Qed.
Lemma narrowed_good b nm y : straddles b -> within b -> tried shoot b -> inside lo hi nm -> shoot nm = Some y -> good (narrowed b nm y) nm /\ answer nm.
Proof.
  intros S [W1 W2] [T1 T2] I E. unfold narrowed, ltb, straddles in *. destruct (Rlt_dec ((a1 b - 1) * (y - 1)) 0) as [N|N].
  - split; [split; [split; cbn; assumption|split; [split; cbn; assumption|left; exact N]]|]. split; [exact I|]. exists y, (a3 b), (a1 b). split; [exact E|]. split; [exact W1|]. split; [exact T1|]. lra.
  - split.
    + split; [split; cbn; assumption|]. split; [split; cbn; assumption|]. destruct (Req_EM_T y 1) as [->|Y]; [right; cbn; repeat split; intro Z; rewrite Z in S; lra|left; unfold straddles; cbn].
      apply (opp_sign (a1 b - 1)); [exact S|exact N|lra].
    + split; [exact I|]. exists y, (b3 b), (b1 b). split; [exact E|]. split; [exact W2|]. split; [exact T2|].
      destruct (Req_EM_T y 1) as [->|Y]; [lra|]. left. apply (opp_sign (a1 b - 1)); [exact S|exact N|lra].
Qed.
Lemma loop_ok fuel : forall b mid it shots, good b mid -> (straddles b -> answer mid \/ forall nm, inside lo hi nm -> 1e-10 <= Rabs (nm - mid)) -> ((~ straddles b) -> answer mid) ->
  (max_it + 2 <= fuel + it)%nat -> (it <= S max_it)%nat ->
  (exists y n, shooting shoot relerr max_it verbose fuel b mid it shots = Ok (y, n) /\ answer y /\ (n + it <= max_it + 2 + shots)%nat) \/
  (shooting shoot relerr max_it verbose fuel b mid it shots = Err GenericErr /\ exists z, inside lo hi z /\ (shoot z = None \/ shoot z = Some (-1))).
Proof.
  induction fuel as [|k IH]; intros b mid it shots G A1' A2' F I; [lia|]. destruct G as (W & T & C). cbn [shooting]. destruct C as [S|(Ha & Hb & Hm)].
  - destruct (mid_ok b S W) as (nm & E & In). rewrite E. cbn [bind]. destruct (ltb (Rabs (nm - mid)) 1e-10) eqn:Q; apply ltb_inv in Q.
    { left. exists mid, shots. split; [reflexivity|]. split; [|lia]. destruct (A1' S) as [A|A]; [exact A|]. specialize (A nm In). lra. }
    destruct (shoot nm) as [y|] eqn:Ey; [|right; split; [reflexivity|exists nm; split; [exact In|left; exact Ey]]].
    destruct (eqb ((y + 1) / 2) 0) eqn:Z; apply eqb_inv in Z; [right; split; [reflexivity|]; exists nm; split; [exact In|right; rewrite Ey; f_equal; lra]|]. cbn [guard].
    destruct (narrowed_good b nm y S W T In Ey) as [G' A'].
    destruct (Nat.ltb_spec max_it it) as [M|M]; [left; exists nm, (Datatypes.S shots); split; [reflexivity|split; [exact A'|lia]]|].
    destruct (ltb (Rabs ((y - 1) / ((y + 1) / 2))) relerr && verbose)%bool; [left; exists nm, (Datatypes.S shots); split; [reflexivity|split; [exact A'|lia]]|].
    destruct (IH (narrowed b nm y) nm (Datatypes.S it) (Datatypes.S shots) G' (fun _ => or_introl A') (fun _ => A')) as [(y' & n & E' & AA & B)|(E' & Z')]; [lia|lia| |].
    + left. exists y', n. split; [exact E'|]. split; [exact AA|lia].
    + right. split; [exact E'|exact Z'].
  - unfold next_mid. rewrite Ha. replace (1 - 1) with 0 by lra. rewrite Rabs_R0. assert (P : 0 < Rabs (1 - b1 b)) by (apply Rabs_pos_lt; lra).
    rewrite eqb_f by lra. cbn [guard bind]. replace ((a3 b * Rabs (1 - b1 b) + b3 b * 0) / (Rabs (1 - b1 b) + 0)) with (a3 b) by (field; lra). rewrite Hm.
    replace (mid - mid) with 0 by lra. rewrite Rabs_R0, ltb_t by lra. left. exists mid, shots. split; [reflexivity|]. split; [|lia]. apply A2'. unfold straddles. rewrite Ha. lra.
Qed.
Lemma shoot_ok b : -1000 <= lo -> hi <= 1000 -> straddles b -> within b -> tried shoot b ->
  (exists y n, shoot_y3 shoot relerr max_it verbose b = Ok (y, n) /\ answer y /\ (1 <= n <= max_it + 2)%nat) \/
  (shoot_y3 shoot relerr max_it verbose b = Err GenericErr /\ exists z, inside lo hi z /\ (shoot z = None \/ shoot z = Some (-1))).
Proof.
  intros HL HH S W T. unfold shoot_y3.
  assert (FAR : forall nm, inside lo hi nm -> 1e-10 <= Rabs (nm - 1e30)) by (intros nm [N1 N2]; rewrite Rabs_left; lra).
  destruct (loop_ok (max_it + 2) b 1e30 0 0 (conj W (conj T (or_introl S))) (fun _ => or_intror FAR) (fun N => False_rect _ (N S)) ltac:(lia) ltac:(lia)) as [(y & n & E & A & B)|E]; [left|right; exact E].
  exists y, n. split; [exact E|]. split; [exact A|]. split; [|lia]. destruct n; [|lia]. exfalso. destruct A as [A _].
  destruct (max_it + 2)%nat eqn:EK; [lia|]. cbn [shooting] in E. destruct (mid_ok b S W) as (nm & En & In). rewrite En in E. cbn [bind] in E.
  rewrite ltb_f in E by (apply FAR; exact In). destruct (shoot nm) as [v|]; [|discriminate E]. destruct (eqb ((v + 1) / 2) 0); [discriminate E|]. cbn [guard] in E.
  destruct (Nat.ltb max_it 0); [discriminate E|]. destruct (ltb _ relerr && verbose)%bool; [discriminate E|].
  clear - E. assert (G : forall k b mid it s y, shooting shoot relerr max_it verbose k b mid it (S s) = Ok (y, 0%nat) -> False).
  { induction k as [|k IH]; intros b' mid it s y' H; [discriminate H|]. cbn [shooting] in H. destruct (next_mid b') as [q|]; [|discriminate H]. cbn [bind] in H.
    destruct (ltb (Rabs (q - mid)) 1e-10); [discriminate H|]. destruct (shoot q); [|discriminate H]. destruct (eqb _ 0); [discriminate H|]. cbn [guard] in H.
    destruct (Nat.ltb max_it it); [discriminate H|]. destruct (_ && verbose)%bool; [discriminate H|]. exact (IH _ _ _ _ _ H). }
  exact (G _ _ _ _ _ _ E).
Qed.
End Sh.
(** when verbose, the loop ends on a small error, on a value that does not move any more or on the number of turns *)
Lemma verbose_end shoot relerr max_it fuel : forall b mid it shots y n, (it <= S max_it)%nat ->
  shooting shoot relerr max_it true fuel b mid it shots = Ok (y, n) ->
  (exists v, shoot y = Some v /\ Rabs ((v - 1) / ((v + 1) / 2)) < relerr) \/
  (exists b' nm, next_mid b' = Ok nm /\ Rabs (nm - y) < 1e-10) \/ (max_it + 2 + shots <= n + it)%nat.
Proof.
  induction fuel as [|k IH]; intros b mid it shots y n I E; [discriminate E|]. cbn [shooting] in E. destruct (next_mid b) as [nm|] eqn:En; [|discriminate E]. cbn [bind] in E.
  unfold ltb at 1 in E. destruct (Rlt_dec (Rabs (nm - mid)) 1e-10) as [Q|Q]; [injection E as <- <-; right; left; exists b, nm; split; assumption|].
  destruct (shoot nm) as [v|] eqn:Ev; [|discriminate E]. destruct (eqb ((v + 1) / 2) 0); [discriminate E|]. cbn [guard] in E.
  destruct (Nat.ltb_spec max_it it) as [M|M]; [injection E as <- <-; right; right; lia|]. unfold ltb at 1 in E. rewrite andb_true_r in E.
  destruct (Rlt_dec (Rabs ((v - 1) / ((v + 1) / 2))) relerr) as [Z|Z]; [injection E as <- <-; left; exists v; split; assumption|].
  assert (I' : (S it <= S max_it)%nat) by lia. destruct (IH _ _ _ _ _ _ I' E) as [H|[H|H]]; [left; exact H|right; left; exact H|right; right; lia].
Qed.
(** an example: f'(10) = y^2 / 2, tried between 0 and 2 *)
Definition ex_shoot (y : R) : option R := Some (y * y / 2).
Definition ex_int : interval := mkint 0 2 0 2.
Lemma ex_mid : next_mid ex_int = Ok 1.
Proof.
  unfold next_mid. cbn [a1 b1 a3 b3 ex_int]. rewrite (Rabs_left (1 - 2)), (Rabs_right (1 - 0)) by lra.
  rewrite eqb_f by lra. cbn [guard]. f_equal. field.
Qed.
Lemma ex_err : Rabs ((1 / 2 - 1) / ((1 / 2 + 1) / 2)) = 2 / 3.
Proof. rewrite Rabs_left; [field|lra]. Qed.
Lemma ex_verbose : shoot_y3 ex_shoot 1 0 true ex_int = Ok (1, 1%nat).
Proof.
  unfold shoot_y3. cbn [plus shooting]. rewrite ex_mid. cbn [bind]. rewrite ltb_f by (rewrite Rabs_left; lra). unfold ex_shoot at 1.
  rewrite eqb_f by lra. cbn [guard Nat.ltb Nat.leb]. rewrite Rmult_1_l, ex_err, ltb_t by lra. reflexivity.
Qed.
Lemma ex_silent : shoot_y3 ex_shoot 1 0 false ex_int = Ok (4 / 3, 2%nat).
Proof.
  unfold shoot_y3. cbn [plus shooting]. rewrite ex_mid. cbn [bind]. rewrite ltb_f by (rewrite Rabs_left; lra). unfold ex_shoot at 1.
  rewrite eqb_f by lra. cbn [guard Nat.ltb Nat.leb]. rewrite andb_false_r, Rmult_1_l. unfold narrowed. cbn [a1 ex_int]. rewrite ltb_f by lra. cbn [b3 b1 ex_int].
  assert (M : next_mid (mkint 1 2 (1 / 2) 2) = Ok (4 / 3)).
  { unfold next_mid. cbn [a1 b1 a3 b3]. rewrite (Rabs_left (1 - 2)), (Rabs_right (1 - 1 / 2)) by lra.
    rewrite eqb_f by lra. cbn [guard]. f_equal. field. }
  rewrite M. cbn [bind]. rewrite ltb_f by (rewrite Rabs_right; lra). unfold ex_shoot at 1. rewrite eqb_f by lra. reflexivity.
Qed.
