(** Concrete cases for FastProps.v *)
From Coq Require Import List Reals Lia Lra Permutation Sorted.
From Verif Require Import Prelude FieldReal ShapeModel ShapeProofs FastModel FastSpec FastProofs FastStar FastConvex FastAll.
Import ListNotations.
Open Scope R_scope.

(** an argsort: insertion *)
Fixpoint ins (keys : list R) (i : nat) (l : list nat) : list nat :=
  match l with [] => [i] | j :: l' => if Rle_dec (nth i keys 0) (nth j keys 0) then i :: l else j :: ins keys i l' end.
Definition isort (keys : list R) : list nat := fold_right (ins keys) [] (seq 0 (length keys)).
Lemma ins_perm keys i l : Permutation (ins keys i l) (i :: l).
Proof.
  induction l as [|j l IH]; [reflexivity|]. cbn [ins]. destruct (Rle_dec _ _); [reflexivity|].
  apply Permutation_trans with (j :: i :: l); [apply perm_skip; exact IH|apply perm_swap].
Qed.
Lemma ins_sorted keys i l : StronglySorted (fun a b => nth a keys 0 <= nth b keys 0) l -> StronglySorted (fun a b => nth a keys 0 <= nth b keys 0) (ins keys i l).
Proof.
  induction 1 as [|j l Hl IH Hj]; [repeat constructor|]. cbn [ins]. rewrite Forall_forall in Hj. destruct (Rle_dec _ _) as [L|L].
  - constructor; [constructor; [exact Hl|rewrite Forall_forall; exact Hj]|]. constructor; [exact L|]. rewrite Forall_forall. intros x Hx. specialize (Hj x Hx). lra.
  - constructor; [exact IH|]. rewrite Forall_forall. intros x Hx. apply (Permutation_in _ (ins_perm keys i l)) in Hx. destruct Hx as [<-|Hx]; [lra|apply Hj; exact Hx].
Qed.
Lemma isort_sorts : sorts isort.
Proof.
  intros keys. unfold isort. remember (seq 0 (length keys)) as s. clear Heqs. split.
  - induction s as [|i s IH]; [reflexivity|]. cbn [fold_right]. apply Permutation_trans with (1 := ins_perm keys i _). apply perm_skip. exact IH.
  - apply map_sorted. induction s as [|i s IH]; [constructor|]. cbn [fold_right]. apply ins_sorted. exact IH.
Qed.
(** a square, and its corners in another order *)
Definition square (k : nat) : R * R := match k with 0%nat => (3, -1) | 1%nat => (5, -1) | 2%nat => (5, 1) | _ => (3, 1) end.
Lemma square_convex : convex 4 square.
Proof.
  intros i j k H1 H2 H3. destruct k as [|[|[|[|k]]]]; try lia; destruct j as [|[|[|j]]]; try lia; destruct i as [|[|i]]; try lia; unfold orient, square; cbn [fst snd]; lra.
Qed.
Definition shuffled : list (R * R) := [(5, 1); (3, -1); (3, 1); (5, -1)].
Lemma shuffled_perm : Permutation shuffled (map square (seq 0 4)).
Proof.
  unfold shuffled. cbn [seq map square]. apply Permutation_trans with [(3, -1); (5, 1); (3, 1); (5, -1)]; [apply perm_swap|]. apply perm_skip.
  apply Permutation_trans with [(5, 1); (5, -1); (3, 1)]; [apply perm_skip, perm_swap|]. apply perm_swap.
Qed.
Lemma shuffled_line : exists a b c, In a shuffled /\ In b shuffled /\ In c shuffled /\ orient a b c <> 0.
Proof.
  exists (5, 1), (3, -1), (3, 1). cbn [shuffled In]. repeat split; auto. unfold orient. cbn [fst snd]. lra.
Qed.
(** points on a line *)
Definition flat_points : list (R * R) := [(1, 1); (2, 2); (4, 4); (5, 5)].
Lemma flat_points_line a b c : In a flat_points -> In b flat_points -> In c flat_points -> orient a b c = 0.
Proof.
  assert (E : forall p, In p flat_points -> fst p = snd p) by (intros p H; cbn [flat_points In] in H; repeat destruct H as [<-|H]; try reflexivity; contradiction).
  intros Ha Hb Hc. unfold orient. rewrite (E a Ha), (E b Hb), (E c Hc). ring.
Qed.
