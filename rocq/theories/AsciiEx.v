(** * AsciiEx: files on which the theorems on text files are instantiated, and files read wrongly. *)
From Coq Require Import Lia Permutation.
From Verif Require Import Num Res ListLib SortLib Arr FieldModel ScalarFieldModel VectorFieldModel FieldSpec ProfileModel PointsModel ProfileSpec Concrete TemporalEx
  AsciiModel AsciiSpec AsciiProofs AsciiProofs2 AsciiProofs3 AsciiProofs4.

(** a file with one line by point, after a header *)
Definition file_of (l : list (num * num * onum)) : list line :=
  Comment :: map (fun p => Row [Some (fst (fst p)); Some (snd (fst p)); snd p]) l.
Lemma file_of_lists l : lists (gives1 1 2 3) (file_of l) l.
Proof.
  constructor. rewrite <- (map_id l) at 2. apply (lists_map _ (fun p => [Some (fst (fst p)); Some (snd (fst p)); snd p])).
  intros p _. repeat split; lia.
Qed.
Lemma file_of_regular l : regular (file_of l) 3.
Proof. intros r [H|H]; [discriminate|]. apply in_map_iff in H. now destruct H as (p & [= <-] & _). Qed.
Definition file_of2 (l : list (num * num * (onum * onum))) : list line :=
  Comment :: map (fun p => Row [Some (fst (fst p)); Some (snd (fst p)); fst (snd p); snd (snd p)]) l.
Lemma file_of2_lists l : lists (gives2 1 2 3 4) (file_of2 l) l.
Proof.
  constructor. rewrite <- (map_id l) at 2. apply (lists_map _ (fun p => [Some (fst (fst p)); Some (snd (fst p)); fst (snd p); snd (snd p)])).
  intros p _. repeat split; lia.
Qed.
Lemma file_of2_regular l : regular (file_of2 l) 4.
Proof. intros r [H|H]; [discriminate|]. apply in_map_iff in H. now destruct H as (p & [= <-] & _). Qed.

(** the value 3 x + y *)
Definition val_ex (x y : num) : onum := Some (qz 3 * x + y)%num.
Definition X3 : list num := zs [0; 1; 2]%Z.
Definition Y2 : list num := zs [0; 1]%Z.
(** abscissae a nanometre apart *)
Definition Xn : list num := [qz 0; qq 1 1000000000].
(** three by three points in a scattered order *)
Definition square_ex : list (num * num * onum) :=
  map (fun t : Z * Z => (qz (fst t), qz (snd t), val_ex (qz (fst t)) (qz (snd t))))
    [(2, 0); (0, 0); (1, 2); (0, 1); (2, 2); (1, 0); (1, 1); (0, 2); (2, 1)]%Z.
Definition rect_ex : list (num * num * onum) :=
  map (fun t : Z * Z => (qz (fst t), qz (snd t), val_ex (qz (fst t)) (qz (snd t))))
    [(2, 0); (0, 0); (1, 1); (0, 1); (1, 0); (2, 1)]%Z.
Definition shows_at_b (x y : num) (v : onum) (g : sfield) : bool :=
  existsb (fun i => existsb (fun j => qeqb (nths (ax (sg g)) i) x && qeqb (nths (ay (sg g)) j) y && oeqb (at_ (values g) i j) v && negb (at_ (msk g) i j))%bool
    (seq 0 (length (ay (sg g))))) (seq 0 (length (ax (sg g)))).
Lemma oeqb_eq a b : oeqb a b = true -> a = b.
Proof. destruct a, b; cbn; try congruence. intros H. apply qeqb_eq in H. congruence. Qed.
Lemma shows_at_b_ok x y v g : shows_at_b x y v g = true -> sf_shows g x y v false.
Proof.
  unfold shows_at_b. rewrite existsb_exists. intros (i & Hi & H). rewrite existsb_exists in H. destruct H as (j & Hj & H).
  apply in_seq in Hi. apply in_seq in Hj. rewrite !andb_true_iff in H. destruct H as [[[H1 H2] H3] H4].
  apply qeqb_eq in H1. apply qeqb_eq in H2. apply oeqb_eq in H3. apply negb_true_iff in H4.
  exists i, j. rewrite <- H1, <- H2. repeat split; try assumption; apply nths_nth_error; lia.
Qed.
Lemma num_dec (a b : num) : a <> b <-> qeqb a b = false.
Proof. symmetry. apply qeqb_neq. Qed.

(** ** C130: files read wrongly.
    Each file lists all the points of a grid once, with the value [val_ex x y] at (x, y); the field shows another value. *)
Definition misread (l : list (num * num * onum)) (X Y : list num) (val : num -> num -> onum) : Prop :=
  increasing X /\ increasing Y /\ Permutation l (by_columns X Y val) /\
  exists g x y v, import_sf (file_of l) 1 2 3 metre metre metre = Ok g /\ In x X /\ In y Y /\ sf_shows g x y v false /\ v <> val x y.
(** line after line, with y increasing: the field is upside down *)
Lemma lines_up_lemma : misread (by_lines X3 Y2 val_ex) X3 Y2 val_ex.
Proof.
  split; [incr|]. split; [incr|]. split.
  { apply NoDup_Permutation.
    - repeat constructor; cbn; intuition discriminate.
    - repeat constructor; cbn; intuition discriminate.
    - intros p. unfold by_lines, by_columns. rewrite (grid_in (fun x y => (x, y, val_ex x y))), (grid_in (fun y x => (x, y, val_ex x y))).
      split; intros (a & b & Ha & Hb & ->); exists b, a; auto. }
  destruct (ok_ex (import_sf (file_of (by_lines X3 Y2 val_ex)) 1 2 3 metre metre metre) (shows_at_b (qz 0) (qz 0) (Some (qz 1)))) as (g & E & H); [vmr|].
  exists g, (qz 0), (qz 0), (Some (qz 1)). split; [exact E|]. split; [now left|]. split; [now left|]. split; [now apply shows_at_b_ok|].
  intros [=].
Qed.
(** column after column, with y decreasing: the field is upside down *)
Lemma columns_down_lemma : misread (by_columns X3 (rev Y2) val_ex) X3 Y2 val_ex.
Proof.
  split; [incr|]. split; [incr|]. split.
  { apply NoDup_Permutation.
    - repeat constructor; cbn; intuition discriminate.
    - repeat constructor; cbn; intuition discriminate.
    - intros p. unfold by_columns. rewrite !(grid_in (fun x y => (x, y, val_ex x y))).
      split; intros (a & b & Ha & Hb & ->); exists a, b; repeat split; try assumption; [now apply in_rev|now apply -> in_rev]. }
  destruct (ok_ex (import_sf (file_of (by_columns X3 (rev Y2) val_ex)) 1 2 3 metre metre metre) (shows_at_b (qz 0) (qz 0) (Some (qz 1)))) as (g & E & H); [vmr|].
  exists g, (qz 0), (qz 0), (Some (qz 1)). split; [exact E|]. split; [now left|]. split; [now left|]. split; [now apply shows_at_b_ok|].
  intros [=].
Qed.
(** in any order, as many columns as lines: the field is transposed *)
Lemma square_lemma : misread square_ex X3 X3 val_ex.
Proof.
  split; [incr|]. split; [incr|]. split.
  { apply NoDup_Permutation.
    - repeat constructor; cbn; intuition discriminate.
    - repeat constructor; cbn; intuition discriminate.
    - intros p. split.
      + intros H. unfold by_columns. apply grid_in. unfold square_ex in H. apply in_map_iff in H. destruct H as ([a b] & <- & H).
        exists (qz a), (qz b). split; [|split; [|reflexivity]]; cbn in H;
          repeat (destruct H as [[= <- <-]|H]; [cbn; tauto|]); destruct H.
      + intros H. unfold by_columns in H. apply grid_in in H. destruct H as (x & y & Hx & Hy & ->). cbn in Hx, Hy.
        destruct Hx as [<-|[<-|[<-|[]]]], Hy as [<-|[<-|[<-|[]]]]; unfold square_ex; cbn; tauto. }
  destruct (ok_ex (import_sf (file_of square_ex) 1 2 3 metre metre metre) (shows_at_b (qz 0) (qz 1) (Some (qz 3)))) as (g & E & H); [vmr|].
  exists g, (qz 0), (qz 1), (Some (qz 3)). split; [exact E|]. split; [now left|]. split; [cbn; tauto|]. split; [now apply shows_at_b_ok|].
  intros [=].
Qed.
(** line after line as they should be, on a grid of nanometres: the means are within the tolerance of numpy *)
Lemma tiny_lemma : misread (by_lines Xn (rev Y2) val_ex) Xn Y2 val_ex.
Proof.
  split; [incr|]. split; [incr|]. split.
  { apply NoDup_Permutation.
    - repeat constructor; cbn; intuition discriminate.
    - repeat constructor; cbn; intuition discriminate.
    - intros p. unfold by_lines, by_columns. rewrite (grid_in (fun x y => (x, y, val_ex x y))), (grid_in (fun y x => (x, y, val_ex x y))).
      split; intros (a & b & Ha & Hb & ->); exists b, a; repeat split; try assumption; [now apply in_rev|now apply -> in_rev]. }
  destruct (ok_ex (import_sf (file_of (by_lines Xn (rev Y2) val_ex)) 1 2 3 metre metre metre) (shows_at_b (qz 0) (qz 0) (Some (qz 1)))) as (g & E & H); [vmr|].
  exists g, (qz 0), (qz 0), (Some (qz 1)). split; [exact E|]. split; [now left|]. split; [now left|]. split; [now apply shows_at_b_ok|].
  intros [=].
Qed.
