(** * PropButton: the properties of the interactive display (C59, C60, C89).
    Statements, examples and counterexamples; the proofs are in ButtonProofs.v.  The vocabulary is in ButtonSpec. *)
From Verif Require Import Num Res ListLib UtilsModel ButtonModel ButtonSpec ButtonProofs.
#[local] Open Scope Z_scope.

(** ** C59: the displayed frame *)
Theorem C59_range_partial last h :
  0 <= last -> sane_history (b_new last) h ->
  in_range (fst (b_run (b_new last) h)) /\ Forall (fun o => snd o = None) (snd (b_run (b_new last) h)).
Proof. exact (range_lemma last h). Qed.
Print Assumptions C59_range_partial.

(** typing 0 and pressing the key up or down shows frame -1 *)
Theorem C59_zero_refuted last s :
  b_last s = last -> 0 <= last -> b_key s = None -> b_ind (fst (b_run s [KDigit 0; KEnd])) = Some (-1).
Proof. exact (zero_end last s). Qed.
Print Assumptions C59_zero_refuted.

(** a limit beyond the last frame is accepted, and gone to *)
Theorem C59_limit_refuted :
  b_ind (fst (b_run (b_new 4) [KDigit 9; KLims; KGoLims])) = Some 8 /\ b_last (b_new 4) = 4.
Proof. split; reflexivity. Qed.
Print Assumptions C59_limit_refuted.
(** a limit 0 (the number -1 of a frame) shows the frame -1 *)
Theorem C59_limit_zero_refuted : b_ind (fst (b_run (b_new 4) [KDigit 0; KLims; KGoLims])) = Some (-1).
Proof. reflexivity. Qed.
Print Assumptions C59_limit_zero_refuted.
(** with the second limit only, playing beyond it raises an exception and loses the index *)
Theorem C59_play_refuted : exists h s l, b_run (b_new 4) h = (s, l) /\ b_ind s = None /\ last l (None, None) = (None, Some TypeErr) /\
  forall d, ~ In (KDigit d) h.
Proof.
  exists [KLims; KNext; KNext; KLims; KGoLims; KLims; KGoLims; KPlay; Tick]. eexists. eexists. split; [reflexivity|].
  split; [reflexivity|]. split; [reflexivity|]. intros d H. cbn in H. repeat (destruct H as [H|H]; [discriminate|]). contradiction.
Qed.
Print Assumptions C59_play_refuted.
Example C59_example : sane_history (b_new 4) [KNext; KDigit 3; KNext; KLims; KDigit 2; KGo; KLims; KPlay; Tick; Tick; Tick; Slide (qq 7 2); KEnd] /\
  snd (b_run (b_new 4) [KNext; KDigit 3; KNext; KLims; KDigit 2; KGo; KLims; KPlay; Tick; Tick; Tick; Slide (qq 7 2); KEnd]) =
    [(Some 1, None); (None, None); (Some 4, None); (None, None); (None, None); (Some 1, None); (None, None); (None, None);
     (Some 2, None); (Some 3, None); (Some 1, None); (Some 2, None); (Some 4, None)].
Proof.
  split; [|vm_compute; reflexivity].
  cbn [sane_history]. repeat (split; [vm_compute; try discriminate; try (intros; discriminate); try (split; discriminate); try exact Logic.I; try (right; discriminate)|]); try exact Logic.I.
Qed.

(** ** C60: showing every frame *)
Theorem C60_goto_partial s ds :
  b_key s = None -> ds <> [] -> 1 <= decimal ds <= b_last s ->
  b_run s (map KDigit ds ++ [KGo]) = (set_ind s (Some (decimal ds - 1)), map (fun _ => (None, None)) ds ++ [(Some (decimal ds - 1), None)]).
Proof. exact (goto_lemma s ds). Qed.
Print Assumptions C60_goto_partial.

Theorem C60_up_down s ds (e : bevent) :
  e = KEnd \/ e = KBeg -> b_key s = None -> ds <> [] -> 1 <= decimal ds <= b_last s + 1 ->
  b_run s (map KDigit ds ++ [e]) = (set_ind s (Some (decimal ds - 1)), map (fun _ => (None, None)) ds ++ [(Some (decimal ds - 1), None)]).
Proof. exact (goto_key_lemma s ds e). Qed.
Print Assumptions C60_up_down.

(** the last frame is not reached: its number does nothing *)
Theorem C60_goto_last_refuted s ds :
  b_key s = None -> ds <> [] -> 0 <= b_last s -> decimal ds = b_last s + 1 ->
  b_run s (map KDigit ds ++ [KGo]) = (s, map (fun _ => (None, None)) ds ++ [(None, None)]).
Proof. exact (goto_last_lemma s ds). Qed.
Print Assumptions C60_goto_last_refuted.

Theorem C60_play_partial k :
  forall s i, b_play s = true -> b_hi s = None -> b_incr s = 1 -> b_ind s = Some i -> 0 <= i < b_last s ->
  snd (b_run s (repeat Tick k)) = map (fun j => (Some ((i + 1 + Z.of_nat j) mod b_last s), None)) (seq 0 k).
Proof. exact (play_lemma k). Qed.
Print Assumptions C60_play_partial.

Theorem C60_play_limits_partial k :
  forall s i lo hi, b_play s = true -> b_lo s = Some lo -> b_hi s = Some hi -> b_incr s = 1 -> b_ind s = Some i ->
  0 <= lo -> hi <= b_last s -> lo <= i < hi ->
  snd (b_run s (repeat Tick k)) = map (fun j => (Some (lo + (i - lo + 1 + Z.of_nat j) mod (hi - lo)), None)) (seq 0 k).
Proof. exact (play_lims_lemma k). Qed.
Print Assumptions C60_play_limits_partial.

(** playing from the first frame never shows the last one *)
Theorem C60_play_last_refuted k : forall o, In o (snd (b_run (b_new 4) (Play :: repeat Tick k))) -> fst o <> Some 4.
Proof.
  intros o H. change (snd (b_run (b_new 4) (Play :: repeat Tick k))) with
    (snd (let (s2, l) := b_run (set_play (b_new 4) true) (repeat Tick k) in (s2, (None : option Z, None : option exn) :: l))) in H.
  pose proof (play_lemma k (set_play (b_new 4) true) 0 eq_refl eq_refl eq_refl eq_refl ltac:(cbn; lia)) as P.
  destruct (b_run (set_play (b_new 4) true) (repeat Tick k)) as [s2 l]. cbn [snd] in P. rewrite P in H.
  destruct H as [<-|H]; [discriminate|]. apply in_map_iff in H. destruct H as (j & <- & _). cbn [fst].
  pose proof (Z.mod_pos_bound (0 + 1 + Z.of_nat j) (b_last (set_play (b_new 4) true)) ltac:(cbn; lia)) as B. cbn [b_last set_play b_new] in *.
  intro E. assert (E2 : (0 + 1 + Z.of_nat j) mod 4 = 4) by congruence. rewrite E2 in B. lia.
Qed.
Print Assumptions C60_play_last_refuted.
Theorem C60_save_partial s f0 f1 :
  b_key s = None -> b_incr s = 1 -> 0 <= f0 <= f1 -> f1 <= b_last s ->
  save_animation s f0 f1 = (s, map (fun j => Some (f0 + 1 + Z.of_nat j)) (seq 0 (Z.to_nat (f1 - f0)))).
Proof. exact (save_lemma s f0 f1). Qed.
Print Assumptions C60_save_partial.

(** the first frame is never recorded *)
Theorem C60_save_first_refuted s : b_key s = None -> b_incr s = 1 -> 0 <= b_last s ->
  ~ In (Some 0) (snd (save_all s)) /\ length (snd (save_all s)) = Z.to_nat (b_last s).
Proof.
  intros K I L. unfold save_all. rewrite (save_lemma s 0 (b_last s)) by (auto; lia). cbn [snd]. rewrite map_length, seq_length. split; [|now rewrite Z.sub_0_r].
  intro H. apply in_map_iff in H. destruct H as (j & E & _). assert (E2 : 0 + 1 + Z.of_nat j = 0) by congruence. lia.
Qed.
Print Assumptions C60_save_first_refuted.
(** a typed number acts on the next key only: a key that does nothing forgets it *)
Theorem C60_key_forgets s e :
  is_key e -> snd (b_step s e) = None -> b_key (fst (fst (b_step s e))) = None.
Proof. exact (key_forgets_lemma s e). Qed.
Print Assumptions C60_key_forgets.

Theorem C60_forgotten s ds h :
  b_key s = None ->
  fst (b_run s (map KDigit ds ++ KOther :: h)) = fst (b_run s h) /\
  snd (b_run s (map KDigit ds ++ KOther :: h)) = repeat (None, None) (S (length ds)) ++ snd (b_run s h).
Proof. exact (forget_lemma s ds h). Qed.
Print Assumptions C60_forgotten.

Example C60_example : decimal [1; 2] = 12 /\ b_key (b_new 30) = None /\ 1 <= 12 <= b_last (b_new 30) /\
  snd (b_run (b_new 30) [KDigit 1; KDigit 2; KGo]) = [(None, None); (None, None); (Some 11, None)] /\
  snd (b_run (set_play (b_new 3) true) (repeat Tick 4)) = [(Some 1, None); (Some 2, None); (Some 0, None); (Some 1, None)] /\
  save_all (set_ind (b_new 3) (Some 2)) = (set_ind (b_new 3) (Some 2), [Some 1; Some 2; Some 3]).
Proof. repeat split; cbn; lia. Qed.

(** ** C89: linked displays *)
Theorem C89_linked_partial links G inds g v u :
  (forall g h, In g G -> In h (links g) -> In h G) -> In g G ->
  (forall h, connected links g h -> inds h = u) ->
  exists inds', l_move links (S (length G)) inds g v = Some inds' /\
    forall h, (connected links g h -> inds' h = v) /\ (~ connected links g h -> inds' h = inds h).
Proof. exact (linked_lemma links G inds g v u). Qed.
Print Assumptions C89_linked_partial.

(** displays that do not show the same frame before may not after: 0, 1 and 2 are linked in a row *)
Theorem C89_out_of_step_refuted : exists links inds inds', l_move links 9 inds 0%nat 4 = Some inds' /\
  (forall g h, In h (links g) -> In g (links h)) /\ connected links 0%nat 2%nat /\ inds' 2%nat <> 4.
Proof.
  exists (fun g => match g with 0 => [1] | 1 => [0; 2] | 2 => [1] | _ => [] end%nat). exists (fun g => match g with 1%nat => 4 | _ => 3 end).
  eexists. split; [reflexivity|]. split; [|split].
  - intros [|[|[|g]]] h H; cbn in H; repeat (destruct H as [<-|H]; [cbn; auto|]); contradiction.
  - eapply conn_step with (h := 1%nat); [eapply conn_step; [apply conn_self|cbn; auto]|cbn; auto].
  - vm_compute. discriminate.
Qed.
Print Assumptions C89_out_of_step_refuted.
Example C89_example : let links := (fun g => match g with 0 => [1; 2] | 1 => [0; 2] | 2 => [0; 1; 3] | 3 => [2] | _ => [] end%nat) in
  (forall g h, In g [0; 1; 2; 3]%nat -> In h (links g) -> In h [0; 1; 2; 3]%nat) /\
  (exists i, l_move links 5 (fun _ => 2) 1%nat 7 = Some i /\ map i [0; 1; 2; 3; 4]%nat = [7; 7; 7; 7; 2]).
Proof.
  split; [|eexists; split; reflexivity]. intros g h Hg Hh. cbn in Hg.
  repeat (destruct Hg as [<-|Hg]; [cbn in Hh; cbn; intuition|]). contradiction.
Qed.
