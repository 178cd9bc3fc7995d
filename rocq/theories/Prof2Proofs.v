From Coq Require Import Lia Permutation.
From Verif Require Import Num Res ListLib SortLib Arr FieldModel ScalarFieldModel FieldSpec FieldProofs FieldProofs2 ProfileModel ProfileSpec ProfileProofs ProfileProofs2 ProfileProofs3 ProfileProofs4 ProfileProofs5
  Prof2Model Prof2Spec.

(** ** C133 *)
Lemma forallb_masked p : prof_ok p -> (forallb (fun b => b) (pm p) = true <-> all_masked (samples p)).
Proof.
  intro OK. destruct (samples_fst p OK) as (_ & _ & M). unfold all_masked. rewrite <- M. rewrite forallb_forall. split.
  - intros H t Ht. apply H. now apply in_map.
  - intros H b Hb. apply in_map_iff in Hb. destruct Hb as (t & <- & Ht). now apply H.
Qed.
Lemma split_first {A} (P : A -> bool) l : forallb P l = false -> exists a x b, l = a ++ x :: b /\ forallb P a = true /\ P x = false.
Proof.
  induction l as [|y l IH]; [discriminate|]. cbn. destruct (P y) eqn:E; intro H.
  - destruct (IH H) as (a & x & b & -> & Ha & Hx). exists (y :: a), x, b. cbn. now rewrite E.
  - exists [], y, l. now rewrite E.
Qed.
Lemma forallb_rev {A} (P : A -> bool) l : forallb P (rev l) = forallb P l.
Proof. induction l as [|y l IH]; [reflexivity|]. cbn. rewrite forallb_app, IH. cbn. rewrite Bool.andb_true_r. apply Bool.andb_comm. Qed.
Lemma split_last {A} (P : A -> bool) l : forallb P l = false -> exists a x b, l = a ++ x :: b /\ forallb P b = true /\ P x = false.
Proof.
  intro H. rewrite <- forallb_rev in H. destruct (split_first P _ H) as (a & x & b & E & Ha & Hx).
  exists (rev b), x, (rev a). split; [|split; [now rewrite forallb_rev|exact Hx]].
  rewrite <- (rev_involutive l), E, rev_app_distr. cbn. now rewrite <- app_assoc.
Qed.
Lemma slice_app_mid {A} (a b c : list A) : slice (length a) (length a + length b) (a ++ b ++ c) = b.
Proof.
  unfold slice. rewrite skipn_app, skipn_all, Nat.sub_diag. cbn. replace (length a + length b - length a) with (length b) by lia.
  rewrite firstn_app, Nat.sub_diag, firstn_all. cbn. apply app_nil_r.
Qed.
Lemma crop_masked_lemma p : prof_ok p -> ~ all_masked (samples p) ->
  exists p', prof_crop_masked p = Ok p' /\ prof_ok p' /\ pux p' = pux p /\ puy p' = puy p /\
    exists A B f l, samples p = A ++ samples p' ++ B /\ all_masked A /\ all_masked B /\
      hd_error (samples p') = Some f /\ smask f = false /\ hd_error (rev (samples p')) = Some l /\ smask l = false.
Proof.
  intros OK NM. unfold prof_crop_masked, crop_masked_in.
  destruct (forallb (fun b => b) (pm p)) eqn:E. { apply forallb_masked in E; [contradiction|exact OK]. }
  assert (PM := proj2 (proj2 (samples_fst p OK))).
  assert (E' : forallb smask (samples p) = false). { rewrite <- PM in E. clear - E. induction (samples p) as [|t l IH]; [discriminate|]. cbn in *. destruct (smask t); cbn in *; auto. }
  assert (AM : forall l, forallb smask l = true -> all_masked l). { intros l H t Ht. rewrite forallb_forall in H. now apply H. }
  destruct (split_first _ _ E') as (A & f & R & S1 & HA & Hf).
  destruct (split_last smask (f :: R)) as (M & l & B & S2 & HB & Hl). { cbn. now rewrite Hf. }
  set (mid := M ++ [l]) in *.
  assert (S3 : samples p = A ++ mid ++ B). { rewrite S1, S2. unfold mid. now rewrite <- app_assoc. }
  assert (LA : first_valid (pm p) = length A).
  { rewrite <- PM, S1, map_app. cbn [map]. rewrite Hf. rewrite first_valid_eq; [now rewrite map_length|]. intros c Hc. apply in_map_iff in Hc. destruct Hc as (t & <- & Ht). now apply AM in HA; apply HA. }
  assert (LB : last_valid (pm p) = length A + length mid - 1).
  { unfold last_valid. rewrite <- PM, <- map_rev, map_length, S3. unfold mid. rewrite !rev_app_distr. cbn [rev app]. rewrite <- !app_assoc. cbn [app]. rewrite !map_app. cbn [map]. rewrite Hl, first_valid_eq.
    - rewrite map_length, rev_length, !app_length. cbn. lia.
    - intros c Hc. apply in_map_iff in Hc. destruct Hc as (t & <- & Ht). apply AM in HB. apply HB. now apply in_rev. }
  assert (Lm : 1 <= length mid) by (unfold mid; rewrite app_length; cbn; lia).
  rewrite LA, LB. replace (S (length A + length mid - 1)) with (length A + length mid) by lia.
  destruct (ok_lengths p OK) as (L1 & L2 & L3). assert (LS := samples_length p OK). rewrite S3, !app_length in LS.
  unfold crop_data_ind. rewrite (aligned_ok p OK). assert (Z.of_nat (length A + length mid) <=? Z.of_nat (length A) = false)%Z as -> by lia. cbn [guard negb].
  match goal with |- context [guard ?b _ _] => assert (b = false) as -> by lia end. cbn [guard]. rewrite !Nat2Z.id.
  set (j := length A + length mid). set (i := length A).
  destruct (crop_in_spec p (slice i j (px p)) (slice i j (yv p)) (slice i j (pm p))) as (p' & C & OK' & S' & U1 & U2).
  { rewrite !slice_length, L1. reflexivity. } { rewrite !slice_length, L2. reflexivity. } { now apply nondecreasing_slice. }
  { rewrite nan_at_slice by congruence. unfold yv. now rewrite nan_at_idem. }
  exists p'. rewrite C. split; [reflexivity|]. split; [exact OK'|]. split; [exact U1|]. split; [exact U2|].
  assert (SM : samples p' = mid).
  { rewrite S'. unfold zip3. rewrite !slice_combine by (rewrite ?combine_length; lia). change (slice i j (samples p) = mid). rewrite S3. unfold i, j. apply slice_app_mid. }
  rewrite SM. exists A, B, f, l. split; [exact S3|]. split; [auto|]. split; [auto|].
  split. { unfold mid. destruct M as [|t M]; cbn in S2 |- *; injection S2; intros; subst; reflexivity. }
  split; [exact Hf|]. unfold mid. rewrite rev_app_distr. cbn. auto.
Qed.
Lemma crop_masked_all p : prof_ok p -> all_masked (samples p) -> prof_crop_masked p = Err IndexErr.
Proof. intros OK H. unfold prof_crop_masked, crop_masked_in. apply forallb_masked in H; [|exact OK]. now rewrite H. Qed.
