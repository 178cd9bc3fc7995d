(** * PodEx: a series of four frames whose decomposition is known, and modal bases for the examples and the counterexamples *)
From Verif Require Import Num Res ListLib SortLib Arr FieldModel ScalarFieldModel VectorFieldModel ProfileModel ProfileSpec FieldSpec FieldProofs SeqSpec Concrete
  PointsModel PointsSpec TemporalModel TemporalSpec TemporalEx GradModel PodModel PodSpec PodProofs PodProofs6 ScalarProofs.
From Coq Require Import Lia.

Definition row (k : nat) : list Z := nth k [[8; 6]; [6; 8]; [4; 2]; [2; 4]]%Z [].
Definition pod_v (k i j : nat) : num := qz (nth j (row k) 0%Z).
Definition pod_f (k : nat) : sfield := fr (Some (pod_v k 0 0)) (Some (pod_v k 0 1)) (Some (pod_v k 1 0)) (Some (pod_v k 1 1)).
Definition pod_t : tfield sfield := mktf g22 (map pod_f [0; 1; 2; 3]) true (zs [0; 1; 2; 3]%Z) second.
Definition pod_vec (k c i j : nat) : num := (qz (nth c [3; 4]%Z 0%Z) * pod_v k i j)%num.
Definition pod_vf (k : nat) : vfield :=
  let r c := [[Some (pod_vec k c 0 0); Some (pod_vec k c 0 1)]; [Some (pod_vec k c 1 0); Some (pod_vec k c 1 1)]] in
  vf_of [0; 1]%Z [10; 20]%Z (r 0) (r 1) [[false; false]; [false; false]].
Definition pod_tv : tfield vfield := mktf g22 (map pod_vf [0; 1; 2; 3]) true (zs [0; 1; 2; 3]%Z) second.
(** eigenvectors and eigenvalues *)
Definition ex_V (k n : nat) : num :=
  (qq 1 2 * qz (nth n (nth k [[1; 1; 1; 1]; [1; -1; 1; -1]; [-1; 1; 1; -1]; [-1; -1; 1; 1]]%Z []) 0%Z))%num.
Definition ex_lam (c : Z) (n : nat) : num := (qz c * qz (nth n [64; 16; 0; 0]%Z 0%Z))%num.
Definition ex_root (q : num) : num := if qeqb q (qz 64) then qz 8 else if qeqb q (qz 16) then qz 4 else if qeqb q (qz 1600) then qz 40 else qz 20.
Definition ex_phi (n j : nat) : num := (qq 1 2 * qz (nth j (nth n [[1; 1]; [1; -1]]%Z []) 0%Z))%num.
Definition ex_arr (r : num) (n : nat) : arr onum := mkarr 2 2 (fun i j => Some (r * ex_phi n j)%num).
Definition ex_sol (c : Z) (mode : nat -> list (arr onum)) : solved :=
  mksol (map (ex_lam c) (seq 0 2)) (map (fun k => map (ex_V k) (seq 0 2)) (seq 0 4)) mode.
Definition ex_solve : solver := fun _ => ex_sol 1 (fun n => [ex_arr 1%num n]).
Definition ex_solve_v : solver := fun _ => ex_sol 25 (fun n => [ex_arr (qq 3 5) n; ex_arr (qq 4 5) n]).

(** checks by computation *)
Lemma all1 n P : forallb P (seq 0 n) = true -> forall k, k < n -> P k = true.
Proof. intros H k Hk. apply (proj1 (forallb_forall _ _) H). apply in_seq. lia. Qed.
Lemma all2 n m P : forallb (fun k => forallb (P k) (seq 0 m)) (seq 0 n) = true -> forall k l, k < n -> l < m -> P k l = true.
Proof. intros H k l Hk Hl. exact (all1 m (P k) (all1 n _ H k Hk) l Hl). Qed.
Definition sol_ok (nc : nat) (c : Z) (s : nat -> nat -> nat -> nat -> num) (sol : solved) : bool :=
  (forallb (fun k => forallb (fun l => qeqb (sumn 4 (fun n => ex_V k n * ex_V l n)%num) (if Nat.eqb k l then 1%num else 0%num)) (seq 0 4)) (seq 0 4) &&
   forallb (fun n => forallb (fun p => qeqb (sumn 4 (fun k => ex_V k n * ex_V k p)%num) (if Nat.eqb n p then 1%num else 0%num)) (seq 0 4)) (seq 0 4) &&
   forallb (fun n => forallb (fun k => qeqb (sumn 4 (fun l => dot nc 2 2 (s k) (s l) * ex_V l n)%num) (ex_lam c n * ex_V k n)%num) (seq 0 4)) (seq 0 4) &&
   forallb (fun n => negb (qeqb (ex_lam c n) 0%num) && qeqb (ex_root (ex_lam c n) * ex_root (ex_lam c n))%num (ex_lam c n)) (seq 0 2) &&
   forallb (fun n => Nat.eqb (length (s_mode sol n)) nc && forallb (fun q => match nth_error (s_mode sol n) q with
      | None => false
      | Some a => Nat.eqb (d0 a) 2 && Nat.eqb (d1 a) 2 && forallb (fun i => forallb (fun j => oeqb (at_ a i j) (Some (sumn 4 (fun k => s k q i j * ex_V k n) / ex_root (ex_lam c n)))%num) (seq 0 2)) (seq 0 2)
      end) (seq 0 nc)) (seq 0 2))%bool.
Lemma sol_ok_is nc c s mode : sol_ok nc c s (ex_sol c mode) = true -> is_pod ex_root nc 2 2 4 s (ex_sol c mode).
Proof.
  intro H. unfold sol_ok in H. do 4 (apply andb_true_iff in H; let K := fresh "K" in destruct H as [H K]).
  exists 2, (ex_lam c), ex_V. split; [lia|]. split; [reflexivity|]. split; [reflexivity|]. split; [|split; [|split; [|split; [|split]]]].
  - intros k l Hk Hl. apply qeqb_eq. exact (all2 4 4 _ H k l Hk Hl).
  - intros n p Hn Hp. apply qeqb_eq. exact (all2 4 4 _ K2 n p Hn Hp).
  - intros n k Hn Hk. apply qeqb_eq. exact (all2 4 4 _ K1 n k Hn Hk).
  - intros n Hn. pose proof (all1 2 _ K0 n Hn) as E. cbn beta in E. apply andb_true_iff in E. destruct E as (E1 & E2). apply qeqb_eq in E2. apply negb_true_iff in E1. apply qeqb_neq in E1. auto.
  - intros n H2 H4. unfold ex_lam. destruct n as [|[|[|[|n]]]]; try lia; cbn [nth]; qring.
  - intros n Hn. pose proof (all1 2 _ K n Hn) as E. cbn beta in E. apply andb_true_iff in E. destruct E as (E1 & E2). apply Nat.eqb_eq in E1. split; [exact E1|].
    intros q Hq. pose proof (all1 nc _ E2 q Hq) as E3. cbn beta in E3. destruct (nth_error (s_mode (ex_sol c mode) n) q) as [a|]; [|discriminate E3]. exists a. split; [reflexivity|].
    apply andb_true_iff in E3. destruct E3 as (E3 & E4). apply andb_true_iff in E3. destruct E3 as (D0 & D1). apply Nat.eqb_eq in D0, D1. split; [split; assumption|].
    intros i j Hi Hj. apply oeqb_eq. exact (all2 2 2 _ E4 i j Hi Hj).
Qed.
Lemma ex_pod : is_pod ex_root 1 2 2 4 (fun k _ i j => deviation 4 (fun l => pod_v l i j) k) (ex_sol 1 (fun n => [ex_arr 1%num n])).
Proof. apply sol_ok_is. vm_compute. reflexivity. Qed.
Lemma ex_pod_v : is_pod ex_root 2 2 2 4 (fun k c i j => deviation 4 (fun l => pod_vec l c i j) k) (ex_sol 25 (fun n => [ex_arr (qq 3 5) n; ex_arr (qq 4 5) n])).
Proof. apply sol_ok_is. vm_compute. reflexivity. Qed.
Lemma pod_t_ok : tf_ok pod_t.
Proof. split; [reflexivity|]. apply increasing_nondecreasing. incr. Qed.
Lemma pod_tv_ok : tf_ok pod_tv.
Proof. split; [reflexivity|]. apply increasing_nondecreasing. incr. Qed.
Lemma pod_t_inc : increasing (tft pod_t).
Proof. incr. Qed.
Lemma pod_t_frames : sf_frames_are pod_t metre pod_v.
Proof.
  intros k f E. destruct k as [|[|[|[|k]]]]; cbn in E; [..|destruct k; discriminate E]; injection E as <-; (split; [repeat split|]); (split; [reflexivity|]); (split; [reflexivity|]);
    intros i j Hi Hj; cbn in Hi, Hj; destruct i as [|[|i]]; try lia; destruct j as [|[|j]]; try lia; split; reflexivity.
Qed.
Lemma pod_tv_frames : vf_frames_are pod_tv metre pod_vec.
Proof.
  intros k f E. destruct k as [|[|[|[|k]]]]; cbn in E; [..|destruct k; discriminate E]; injection E as <-; (split; [repeat split|]); (split; [reflexivity|]); (split; [reflexivity|]);
    intros i j Hi Hj; cbn in Hi, Hj; destruct i as [|[|i]]; try lia; destruct j as [|[|j]]; try lia; repeat split; reflexivity.
Qed.
Lemma ex_hyp snaps : snapshots_are 1 (length (ax (tfg pod_t))) (length (ay (tfg pod_t))) (length (tff pod_t)) snaps (fun k _ i j => deviation (length (tff pod_t)) (fun l => pod_v l i j) k) ->
  is_pod ex_root 1 (length (ax (tfg pod_t))) (length (ay (tfg pod_t))) (length (tff pod_t)) (fun k _ i j => deviation (length (tff pod_t)) (fun l => pod_v l i j) k) (ex_solve snaps) /\ s_vals (ex_solve snaps) <> [].
Proof. intros _. split; [exact ex_pod|discriminate]. Qed.
Lemma ex_hyp_v snaps : snapshots_are 2 (length (ax (tfg pod_tv))) (length (ay (tfg pod_tv))) (length (tff pod_tv)) snaps (fun k c i j => deviation (length (tff pod_tv)) (fun l => pod_vec l c i j) k) ->
  is_pod ex_root 2 (length (ax (tfg pod_tv))) (length (ay (tfg pod_tv))) (length (tff pod_tv)) (fun k c i j => deviation (length (tff pod_tv)) (fun l => pod_vec l c i j) k) (ex_solve_v snaps) /\ s_vals (ex_solve_v snaps) <> [].
Proof. intros _. split; [exact ex_pod_v|discriminate]. Qed.
(** no interpolation is needed *)
Definition none_interp : interps := fun _ _ _ => None.
(** a base of three modes, with masked and unmasked cells *)
Definition pr (y : list Z) : profile := mkprof (zs [0; 1; 2]%Z) (map oz y) (map (fun _ => false) y) second metre.
Definition ex_base : mfield sfield :=
  mkmf Pod (fr (oz 1) (oz 2) (oz 3) (oz 4)) [fr (oz 1) None (oz 0) (oz 2); fr (oz 0) (oz 1) (oz 1) (oz 0); fr (oz 2) (oz 5) None (oz 7)] [0; 1; 2]%Z
       [pr [1; 2; 3]%Z; pr [0; 1; 0]%Z; pr [5; 1; 2]%Z] (zs [0; 1; 2]%Z) second g22 metre
       (Some (mkprof (zs [0; 1; 2]%Z) (map oz [9; 4; 1]%Z) [false; false; false] second one_unit))
       (Some [zs [1; 2; 3]; zs [4; 5; 6]; zs [7; 8; 9]]%Z) None None None None.
Lemma pr_ok y : length y = 3 -> prof_ok (pr y).
Proof.
  intro L. destruct y as [|a [|b [|c [|]]]]; try discriminate L. repeat split; [apply increasing_nondecreasing; incr].
Qed.
Lemma ex_base_core : base_core ex_base.
Proof.
  split; [reflexivity|]. split; [discriminate|]. split; [reflexivity|]. split; [reflexivity|]. split; [incr|]. split; [discriminate|].
  intros p I. cbn in I. destruct I as [<-|[<-|[<-|[]]]]; (split; [now apply pr_ok|reflexivity]).
Qed.
Lemma ex_base_ok : exists ev vects, base_ok ex_base ev vects.
Proof.
  eexists; eexists. destruct ex_base_core as (A & B & C & D & E & F & G). split; [exact A|]. split; [exact B|]. split; [exact C|]. split; [exact D|]. split; [exact E|]. split; [exact F|]. split; [exact G|].
  split; [reflexivity|]. split; [repeat split; apply increasing_nondecreasing; incr|]. split; [incr|]. split; [reflexivity|]. split; [reflexivity|]. split; [reflexivity|]. split; [|cbn; lia].
  intros r I. cbn in I. destruct I as [<-|[<-|[<-|[]]]]; reflexivity.
Qed.
Lemma ex_base_sf : sf_base_ok ex_base.
Proof.
  split; [exact g22_ok|]. split; [reflexivity|]. split; [reflexivity|]. split; [repeat split|]. split; [|reflexivity].
  intros f I. cbn in I. destruct I as [<-|[<-|[<-|[]]]]; (split; [reflexivity|repeat split]).
Qed.
Definition zeqb (a b : list Z) : bool := if list_eq_dec Z.eq_dec a b then true else false.
Lemma zeqb_eq a b : zeqb a b = true -> a = b.
Proof. unfold zeqb. destruct (list_eq_dec Z.eq_dec a b); [auto|discriminate]. Qed.
Lemma ex_base_order : exists ev vects mf' ev', base_ok ex_base ev vects /\ crop_base ex_base (Some (SelArr [1; 0]%Z)) None = Ok mf' /\
  taken [1; 0] (mf_modes ex_base) (mf_modes mf') /\ mf_nmb mf' = [1; 0]%Z /\ mf_eigvals mf' = Some ev' /\ yv ev = map oz [9; 4; 1]%Z /\ yv ev' = map oz [9; 4]%Z.
Proof.
  destruct ex_base_ok as (ev & vects & B). pose proof B as (_ & _ & _ & _ & _ & _ & _ & EV & _).
  destruct (crop_base_lemma ex_base ev vects [1; 0]%Z [1; 0] None B) as (mf' & ev' & xs & ys & E & _ & _ & _ & _ & T & _ & _ & E' & _).
  { repeat constructor; now left. }
  exists ev, vects, mf', ev'. split; [exact B|]. split; [exact E|]. split; [exact T|].
  destruct (ok_ex (crop_base ex_base (Some (SelArr [1; 0]%Z)) None) (fun m => (zeqb (mf_nmb m) [1; 0]%Z && match mf_eigvals m with Some e => oseqb (yv e) (map oz [9; 4]%Z) | None => false end)%bool)) as (r & E2 & H); [vmr|].
  rewrite E in E2. injection E2 as <-. apply andb_true_iff in H. destruct H as (H1 & H2). rewrite E' in H2. apply oseqb_eq in H2. apply zeqb_eq in H1. cbn in EV. injection EV as <-. auto.
Qed.
Lemma ex_base_vects : exists ev vects mf' vects', base_ok ex_base ev vects /\ length vects = length (mf_times ex_base) /\
  crop_base ex_base (Some (SelInt 1)) None = Ok mf' /\ mf_eigvects mf' = Some vects' /\ mf_times mf' = mf_times ex_base /\ length vects' = 1 /\ length (mf_times ex_base) = 3.
Proof.
  destruct ex_base_ok as (ev & vects & B). pose proof B as (_ & _ & _ & _ & _ & _ & _ & _ & _ & _ & _ & EV & L & _).
  destruct (ok_ex (crop_base ex_base (Some (SelInt 1)) None) (fun m => (match mf_eigvects m with Some v => Nat.eqb (length v) 1 | None => false end && list_eqb (mf_times m) (mf_times ex_base))%bool)) as (r & E & H); [vmr|].
  apply andb_true_iff in H. destruct H as (H1 & H2). destruct (mf_eigvects r) as [v|] eqn:EE; [|discriminate H1]. apply Nat.eqb_eq in H1. apply list_eqb_eq in H2.
  exists ev, vects, r, v. split; [exact B|]. split; [exact L|]. auto.
Qed.
Lemma ex_base_reconstruct : is_argsort argsort /\ base_core ex_base /\ sf_base_ok ex_base /\ selects (length (mf_modes ex_base)) (WArr [0; -1]%Z) [0; 2] /\
  times_in ex_base [qq 1 2; qz 2] /\
  exists t', reconstruct sf_mops argsort ex_base (WArr [0; -1]%Z) (Some [qq 1 2; qz 2]) = Ok t' /\ map (fun f => at_ (values f) 0 0) (tff t') = [Some (qq 17 2); oz 8] /\
    map (fun f => at_ (values f) 0 1) (tff t') = [None; None].
Proof.
  split; [exact argsort_is|]. split; [exact ex_base_core|]. split; [exact ex_base_sf|]. split.
  { split; [discriminate|]. constructor; [split; [cbn; lia|now left]|]. constructor; [split; [cbn; lia|right; split; reflexivity]|constructor]. }
  split. { split; [discriminate|]. intros t I. cbn in I. destruct I as [<-|[<-|[]]]; split; apply qleb_le; vmr. }
  destruct (ok_ex (reconstruct sf_mops argsort ex_base (WArr [0; -1]%Z) (Some [qq 1 2; qz 2])) (fun t => (oseqb (map (fun f => at_ (values f) 0 0) (tff t)) [Some (qq 17 2); oz 8] && oseqb (map (fun f => at_ (values f) 0 1) (tff t)) [None; None])%bool)) as (r & E & H); [vmr|].
  apply andb_true_iff in H. destruct H as (H1 & H2). apply oseqb_eq in H1, H2. eauto.
Qed.
Notation ex_mf := (modal_pod sf_mops argsort none_interp none_interp none_interp ex_solve ex_root pod_t WAll).
Lemma ex_energy : exists mf, modal_pod sf_mops argsort none_interp none_interp none_interp ex_solve ex_root pod_t WAll = Ok mf /\
  modes_energy sf_mops mf false = Ok [oz 2; Some (qq 1 2)] /\ modes_energy sf_mops mf true = Ok [oz 2; Some (qq 5 2)].
Proof.
  destruct (ok_ex ex_mf (fun m => match modes_energy sf_mops m false, modes_energy sf_mops m true with Ok a, Ok b => (oseqb a [oz 2; Some (qq 1 2)] && oseqb b [oz 2; Some (qq 5 2)])%bool | _, _ => false end)) as (r & E & H); [vmr|].
  exists r. split; [exact E|]. destruct (modes_energy sf_mops r false); [|discriminate H]. destruct (modes_energy sf_mops r true); [|discriminate H].
  apply andb_true_iff in H. destruct H as (H1 & H2). apply oseqb_eq in H1, H2. subst. auto.
Qed.
Lemma ex_round_trip : exists mf t', modal_pod sf_mops argsort none_interp none_interp none_interp ex_solve ex_root pod_t WAll = Ok mf /\
  reconstruct sf_mops argsort mf WAll None = Ok t' /\ map (fun f => at_ (values f) 0 0) (tff t') = map oz [8; 6; 4; 2]%Z /\
  map (fun f => at_ (values f) 0 0) (mf_modes mf) = [Some (qq 1 2); Some (qq 1 2)] /\ map (fun f => at_ (values f) 0 1) (mf_modes mf) = [Some (qq 1 2); Some (- qq 1 2)%num].
Proof.
  destruct (ok_ex ex_mf (fun m => match reconstruct sf_mops argsort m WAll None with Ok t => (oseqb (map (fun f => at_ (values f) 0 0) (tff t)) (map oz [8; 6; 4; 2]%Z)
     && oseqb (map (fun f => at_ (values f) 0 0) (mf_modes m)) [Some (qq 1 2); Some (qq 1 2)] && oseqb (map (fun f => at_ (values f) 0 1) (mf_modes m)) [Some (qq 1 2); Some (- qq 1 2)%num])%bool | _ => false end)) as (r & E & H); [vmr|].
  exists r. destruct (reconstruct sf_mops argsort r WAll None) as [t|]; [|discriminate H]. exists t. split; [exact E|]. split; [reflexivity|].
  apply andb_true_iff in H. destruct H as (H & H3). apply andb_true_iff in H. destruct H as (H1 & H2). apply oseqb_eq in H1, H2, H3. auto.
Qed.
Lemma ex_subset : (forall snaps, length (s_vals (ex_solve snaps)) <= length (tff pod_t) /\ forall r, In r (s_vects (ex_solve snaps)) -> length r = length (s_vals (ex_solve snaps))) /\
  going_up [1; 3] /\ exists mf, modal_pod sf_mops argsort none_interp none_interp none_interp ex_solve ex_root pod_t WAll = Ok mf /\ 1 < length (mf_modes mf).
Proof.
  split. { intros snaps. split; [cbn; lia|]. intros r I. cbn in I. repeat (destruct I as [<-|I]; [reflexivity|]). destruct I. }
  split; [repeat constructor|]. destruct (ok_ex ex_mf (fun m => Nat.ltb 1 (length (mf_modes m)))) as (r & E & H); [vmr|]. apply Nat.ltb_lt in H. eauto.
Qed.
Lemma ex_order : exists mf ev t', modal_pod sf_mops argsort none_interp none_interp none_interp ex_solve ex_root pod_t (WArr [1; 0]%Z) = Ok mf /\
  mf_nmb mf = [1; 0]%Z /\ mf_eigvals mf = Some ev /\ px ev = zs [0; 1]%Z /\ yv ev = map oz [64; 16]%Z /\ reconstruct sf_mops argsort mf WAll None = Ok t' /\
  map (fun f => at_ (values f) 0 0) (tff pod_t) = map oz [8; 6; 4; 2]%Z /\ map (fun f => at_ (values f) 0 0) (tff t') <> map oz [8; 6; 4; 2]%Z.
Proof.
  destruct (ok_ex (modal_pod sf_mops argsort none_interp none_interp none_interp ex_solve ex_root pod_t (WArr [1; 0]%Z)) (fun m => match mf_eigvals m, reconstruct sf_mops argsort m WAll None with
     | Some e, Ok t => (zeqb (mf_nmb m) [1; 0]%Z && list_eqb (px e) (zs [0; 1]%Z) && oseqb (yv e) (map oz [64; 16]%Z) && negb (oeqb (nth 1 (map (fun f => at_ (values f) 0 0) (tff t)) None) (oz 6)))%bool | _, _ => false end)) as (r & E & H); [vmr|].
  destruct (mf_eigvals r) as [e|] eqn:EE; [|discriminate H]. destruct (reconstruct sf_mops argsort r WAll None) as [t|] eqn:ER; [|discriminate H].
  apply andb_true_iff in H. destruct H as (H & H4). apply andb_true_iff in H. destruct H as (H & H3). apply andb_true_iff in H. destruct H as (H1 & H2).
  apply zeqb_eq in H1. apply list_eqb_eq in H2. apply oseqb_eq in H3. apply negb_true_iff in H4.
  exists r, e, t. repeat (split; [first [exact E|exact H1|exact EE|exact H2|exact H3|exact ER|reflexivity]|]).
  intro K. rewrite K in H4. vm_compute in H4. discriminate H4.
Qed.
