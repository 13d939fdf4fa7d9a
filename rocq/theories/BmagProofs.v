(** Proofs about Bmag of the EMC3 field. *)
From Coq Require Import List ZArith QArith Lia Lqa Bool.
From Verif Require Import Prelude PreludeFacts BmagModel BmagSpec.
Import ListNotations.
Open Scope Q_scope.

Section Bmag.
Variable sqrt : Q -> Q.
Variable spline : list Q -> list Q -> res (Q -> Q).
Variables (x z : nat -> nat -> Q) (v : array2).
Local Notation pos i := (along sqrt (fun k => x k i) (fun k => z k i)).
Local Notation fit i := (spline (map (pos i) (known v i)) (map (fun k => number (at2 v k i)) (known v i))).

Lemma has_nan_iff i : existsb (fun k => isnan (at2 v k i)) (seq 0 (rows v)) = true <-> has_nan v i.
Proof.
  rewrite existsb_exists. split.
  - intros (k & Hk & E). apply in_seq in Hk. exists k. split; [lia|]. destruct (at2 v k i); [discriminate|reflexivity].
  - intros (k & Hk & E). exists k. split; [apply in_seq; lia|]. now rewrite E.
Qed.
Lemma no_nan_iff i : existsb (fun k => isnan (at2 v k i)) (seq 0 (rows v)) = false <-> ~ has_nan v i.
Proof. rewrite <- has_nan_iff. destruct (existsb _ _); split; congruence. Qed.
Lemma any_iff : existsb (fun k => existsb (fun i => isnan (at2 v k i)) (seq 0 (cols v))) (seq 0 (rows v)) = true <-> exists i, (i < cols v)%nat /\ has_nan v i.
Proof.
  rewrite existsb_exists. split.
  - intros (k & Hk & E). apply existsb_exists in E. destruct E as (i & Hi & E). apply in_seq in Hk, Hi. exists i. split; [lia|]. exists k. split; [lia|].
    destruct (at2 v k i); [discriminate|reflexivity].
  - intros (i & Hi & k & Hk & E). exists k. split; [apply in_seq; lia|]. apply existsb_exists. exists i. split; [apply in_seq; lia|]. now rewrite E.
Qed.

(** What the loop has done after the columns of a list *)
Definition done (l : list nat) (vals : nat -> nat -> option Q) : Prop :=
  forall k j, (In j l -> has_nan v j -> exists f, fit j = Ok f /\ vals k j = if isnan (at2 v k j) then Some (f (pos j k)) else at2 v k j) /\
              (~ In j l \/ ~ has_nan v j -> vals k j = at2 v k j).

Lemma column_step l i vals vals' : ~ In i l -> done l vals ->
  fill_column sqrt spline (rows v) (fun k i => isnan (at2 v k i)) x z vals i = Ok vals' -> done (l ++ [i]) vals'.
Proof.
  intros Hi D. unfold fill_column. destruct (existsb _ _) eqn:E; cbn [negb].
  - apply has_nan_iff in E. fold (known v i).
    assert (M : map (fun k => number (vals k i)) (known v i) = map (fun k => number (at2 v k i)) (known v i)).
    { apply map_ext. intros k. now rewrite (proj2 (D k i) (or_introl Hi)). }
    rewrite M. destruct (fit i) as [f|e] eqn:F; [|discriminate]. cbn [bind]. intros [= <-]. intros k j. split.
    + intros Hj Hn. apply in_app_iff in Hj. destruct (Nat.eqb_spec j i) as [->|N].
      * exists f. split; [exact F|]. cbn [andb]. destruct (isnan (at2 v k i)); [reflexivity|]. apply (D k i). now left.
      * cbn [andb]. destruct Hj as [Hj|[Hj|[]]]; [|congruence]. exact (proj1 (D k j) Hj Hn).
    + intros H. destruct (Nat.eqb_spec j i) as [->|N]; cbn [andb].
      * exfalso. destruct H as [H|H]; [apply H, in_app_iff; right; now left|contradiction].
      * apply (D k j). destruct H as [H|H]; [|now right]. left. intros C. apply H, in_app_iff. now left.
  - apply no_nan_iff in E. intros [= <-]. intros k j. split.
    + intros Hj Hn. apply in_app_iff in Hj. destruct Hj as [Hj|[<-|[]]]; [|contradiction]. exact (proj1 (D k j) Hj Hn).
    + intros H. apply (D k j). destruct H as [H|H]; [|now right]. left. intros C. apply H, in_app_iff. now left.
Qed.
Lemma columns l2 : forall l1 vals vals', NoDup (l1 ++ l2) -> done l1 vals ->
  foldM (fun vals i => fill_column sqrt spline (rows v) (fun k i => isnan (at2 v k i)) x z vals i) l2 vals = Ok vals' -> done (l1 ++ l2) vals'.
Proof.
  induction l2 as [|i l2 IH]; intros l1 vals vals' N D; cbn [foldM].
  - intros [= <-]. now rewrite app_nil_r.
  - destruct (fill_column _ _ _ _ _ _ _ _) as [vals1|e] eqn:E; [|discriminate]. cbn [bind]. intros H.
    replace (l1 ++ i :: l2) with ((l1 ++ [i]) ++ l2) in * by (now rewrite <- app_assoc).
    apply (IH (l1 ++ [i]) vals1 vals' N); [|exact H]. apply (column_step l1 i vals vals1); [|exact D|exact E].
    rewrite <- app_assoc in N. cbn [app] in N. apply NoDup_remove_2 in N. intros C. apply N, in_app_iff. now left.
Qed.
Lemma columns_fail l2 : forall l1 vals e, NoDup (l1 ++ l2) -> done l1 vals ->
  foldM (fun vals i => fill_column sqrt spline (rows v) (fun k i => isnan (at2 v k i)) x z vals i) l2 vals = Err e ->
  exists i, In i l2 /\ has_nan v i /\ fit i = Err e.
Proof.
  induction l2 as [|i l2 IH]; intros l1 vals e N D; cbn [foldM]; [discriminate|].
  destruct (fill_column _ _ _ _ _ _ _ _) as [vals1|e1] eqn:E; cbn [bind].
  - intros H. replace (l1 ++ i :: l2) with ((l1 ++ [i]) ++ l2) in * by (now rewrite <- app_assoc).
    destruct (IH (l1 ++ [i]) vals1 e N) as (j & Hj & K); [|exact H|exists j; split; [now right|exact K]].
    apply (column_step l1 i vals vals1); [|exact D|exact E].
    rewrite <- app_assoc in N. cbn [app] in N. apply NoDup_remove_2 in N. intros C. apply N, in_app_iff. now left.
  - intros [= <-]. exists i. split; [now left|]. apply NoDup_remove_2 in N.
    unfold fill_column in E. destruct (existsb _ _) eqn:X; cbn [negb] in E; [|discriminate]. apply has_nan_iff in X. split; [exact X|].
    fold (known v i) in E.
    assert (M : map (fun k => number (vals k i)) (known v i) = map (fun k => number (at2 v k i)) (known v i)).
    { apply map_ext. intros k. rewrite (proj2 (D k i)); [reflexivity|]. left. intros C. apply N, in_app_iff. now left. }
    rewrite M in E. destruct (fit i); [discriminate|]. cbn [bind] in E. congruence.
Qed.

Lemma bmag_ok w : bmag sqrt spline x z v = Ok w -> rows w = rows v /\ cols w = cols v /\
  forall k i, (i < cols v)%nat -> (at2 v k i <> None -> at2 w k i = at2 v k i) /\
    (has_nan v i -> exists f, fit i = Ok f /\ (at2 v k i = None -> at2 w k i = Some (f (pos i k)))).
Proof.
  unfold bmag. destruct (existsb _ _) eqn:A.
  - destruct (foldM _ _ _) as [vals|e] eqn:F; [|discriminate]. cbn [bind]. intros [= <-]. cbn [rows cols at2]. split; [reflexivity|]. split; [reflexivity|].
    assert (D : done (seq 0 (cols v)) vals).
    { apply (columns (seq 0 (cols v)) [] (at2 v) vals); [apply seq_NoDup| |exact F]. intros k j. split; [intros []|reflexivity]. }
    intros k i Hi. destruct (D k i) as [D1 D2]. assert (I : In i (seq 0 (cols v))) by (apply in_seq; lia). split.
    + intros Hk. destruct (existsb (fun k => isnan (at2 v k i)) (seq 0 (rows v))) eqn:X.
      * apply has_nan_iff in X. destruct (D1 I X) as (f & _ & ->). destruct (at2 v k i); [reflexivity|congruence].
      * apply no_nan_iff in X. apply D2. now right.
    + intros Hn. destruct (D1 I Hn) as (f & E & K). exists f. split; [exact E|]. intros Z. rewrite K, Z. reflexivity.
  - intros [= <-]. split; [reflexivity|]. split; [reflexivity|]. intros k i Hi. split; [reflexivity|]. intros Hn. exfalso.
    assert (C : existsb (fun k => existsb (fun i => isnan (at2 v k i)) (seq 0 (cols v))) (seq 0 (rows v)) = true) by (apply any_iff; eauto). congruence.
Qed.
Lemma bmag_err e : bmag sqrt spline x z v = Err e -> exists i, (i < cols v)%nat /\ has_nan v i /\ fit i = Err e.
Proof.
  unfold bmag. destruct (existsb _ _) eqn:A; [|discriminate]. destruct (foldM _ _ _) as [vals|e1] eqn:F; [discriminate|]. cbn [bind]. intros [= <-].
  destruct (columns_fail (seq 0 (cols v)) [] (at2 v) e1) as (i & Hi & K); [apply seq_NoDup| |exact F|].
  - intros k j. split; [intros []|reflexivity].
  - exists i. split; [apply in_seq in Hi; lia|exact K].
Qed.
Lemma bmag_refused i e : (i < cols v)%nat -> has_nan v i -> fit i = Err e -> exists e', bmag sqrt spline x z v = Err e'.
Proof.
  intros Hi Hn F. destruct (bmag sqrt spline x z v) as [w|e'] eqn:E; [|eauto]. exfalso.
  destruct (bmag_ok w E) as (_ & _ & K). destruct (proj2 (K 0%nat i Hi) Hn) as (f & E' & _). congruence.
Qed.
Lemma bmag_untouched : (forall i, (i < cols v)%nat -> ~ has_nan v i) -> bmag sqrt spline x z v = Ok v.
Proof.
  intros H. unfold bmag. destruct (existsb _ _) eqn:A; [|reflexivity]. exfalso.
  apply any_iff in A. destruct A as (i & Hi & Hn). exact (H i Hi Hn).
Qed.
(** Exactly linear along the column *)
Lemma bmag_linear w c d i k : straight spline ->
  bmag sqrt spline x z v = Ok w -> (i < cols v)%nat -> at2 v k i = None -> (k < rows v)%nat ->
  (forall j q, (j < rows v)%nat -> at2 v j i = Some q -> q == c + d * pos i j) -> exists q, at2 w k i = Some q /\ q == c + d * pos i k.
Proof.
  intros S E Hi Hk Lk Hv. destruct (bmag_ok w E) as (_ & _ & K). destruct (proj2 (K k i Hi)) as (f & F & N); [exists k; auto|].
  exists (f (pos i k)). split; [exact (N Hk)|]. apply (S _ _ _ F).
  - intros j Hj. rewrite map_length in Hj. rewrite (nth_indep _ 0 (number (at2 v 0%nat i))) by (rewrite map_length; exact Hj).
    rewrite (nth_indep (map (pos i) (known v i)) 0 (pos i 0%nat)) by (rewrite map_length; exact Hj).
    rewrite (map_nth (fun k => number (at2 v k i))), (map_nth (pos i)).
    assert (I : In (nth j (known v i) 0%nat) (known v i)) by (now apply nth_In). apply filter_In in I. destruct I as [I1 I2]. apply in_seq in I1.
    destruct (at2 v (nth j (known v i) 0%nat) i) as [q|] eqn:Q; [|discriminate]. cbn [number]. apply Hv; [lia|exact Q].
  - now rewrite !map_length.
Qed.
End Bmag.

Lemma along_sum sqrt xi zi k :
  along sqrt xi zi k == qsum (map (fun j => sqrt ((xi (S j) - xi j) * (xi (S j) - xi j) + (zi (S j) - zi j) * (zi (S j) - zi j))) (seq 0 k)).
Proof.
  induction k as [|k IH]; [reflexivity|]. cbn [along]. rewrite IH, seq_S, map_app, qsum_app. cbn [map qsum Nat.add]. ring.
Qed.
