(** A spline for the examples of LengthProps.v: piecewise linear interpolation *)
From Coq Require Import List Reals Lia Lra Bool.
From Verif Require Import Prelude LengthModel LengthProofs.
Import ListNotations.
Open Scope R_scope.

Fixpoint plin (xs vs : list R) (t : R) : R :=
  match xs, vs with
  | [x; x'], [v; v'] => v + (v' - v) * ((t - x) / (x' - x))
  | x :: (x' :: _) as xs', v :: (v' :: _) as vs' =>
      if Rlt_dec t x' then v + (v' - v) * ((t - x) / (x' - x)) else plin xs' vs' t
  | _, _ => 0
  end.
Lemma increasing_cons x x' xs : increasing (x :: x' :: xs) = true -> x < x' /\ increasing (x' :: xs) = true.
Proof. intros H. apply andb_true_iff in H. destruct H as [H1 H2]. split; [apply Rltb_true; exact H1|exact H2]. Qed.
Lemma increasing_nth xs : forall x k, increasing (x :: xs) = true -> (k < length xs)%nat -> x < nth k xs 0.
Proof.
  induction xs as [|x' xs IH]; intros x k H Hk; [cbn in Hk; lia|]. apply increasing_cons in H. destruct H as [H1 H2].
  destruct k as [|k]; [exact H1|]. cbn [nth]. cbn [length] in Hk. specialize (IH x' k H2 ltac:(lia)). lra.
Qed.
Lemma plin_nodes xs : forall vs k, (2 <= length xs)%nat -> length vs = length xs -> increasing xs = true -> (k < length xs)%nat -> plin xs vs (nth k xs 0) = nth k vs 0.
Proof.
  induction xs as [|x [|x' xs] IH]; intros vs k H2 Hl Hi Hk; [cbn in H2; lia|cbn in H2; lia|].
  destruct vs as [|v [|v' vs]]; [discriminate|discriminate|].
  apply increasing_cons in Hi. destruct Hi as [Hx Hi].
  destruct xs as [|x'' xs].
  - destruct vs; [|discriminate]. cbn [length] in Hk. destruct k as [|[|k]]; [| |lia]; cbn [nth plin]; field; lra.
  - assert (E : forall t, plin (x :: x' :: x'' :: xs) (v :: v' :: vs) t = if Rlt_dec t x' then v + (v' - v) * ((t - x) / (x' - x)) else plin (x' :: x'' :: xs) (v' :: vs) t).
    { intros t. destruct vs; [discriminate|]. reflexivity. }
    rewrite E. destruct k as [|k].
    + cbn [nth]. destruct (Rlt_dec x x'); [field; lra|contradiction].
    + change (nth (S k) (x :: x' :: x'' :: xs) 0) with (nth k (x' :: x'' :: xs) 0). change (nth (S k) (v :: v' :: vs) 0) with (nth k (v' :: vs) 0).
      cbn [length] in Hk, Hl. destruct (Rlt_dec (nth k (x' :: x'' :: xs) 0) x') as [L|_].
      * exfalso. destruct k as [|k]; [cbn [nth] in L; lra|]. cbn [nth] in L. pose proof (increasing_nth (x'' :: xs) x' k Hi ltac:(cbn [length]; lia)) as Q. cbn [nth] in Q. lra.
      * apply IH; [cbn [length]; lia|cbn [length]; lia|exact Hi|cbn [length]; lia].
Qed.
Lemma plin_linear xs : forall a b t, (2 <= length xs)%nat -> increasing xs = true -> plin xs (map (fun x => a + b * x) xs) t = a + b * t.
Proof.
  induction xs as [|x [|x' xs] IH]; intros a b t H2 Hi; [cbn in H2; lia|cbn in H2; lia|].
  apply increasing_cons in Hi. destruct Hi as [Hx Hi].
  destruct xs as [|x'' xs].
  - cbn [map plin]. field. lra.
  - change (plin (x :: x' :: x'' :: xs) (map (fun x => a + b * x) (x :: x' :: x'' :: xs)) t) with
      (if Rlt_dec t x' then (a + b * x) + ((a + b * x') - (a + b * x)) * ((t - x) / (x' - x)) else plin (x' :: x'' :: xs) (map (fun x => a + b * x) (x' :: x'' :: xs)) t).
    destruct (Rlt_dec t x'); [field; lra|]. apply IH; [cbn [length]; lia|exact Hi].
Qed.
Lemma plin_shift_nodes c xs : forall vs t, plin (map (fun x => x + c) xs) vs (t + c) = plin xs vs t.
Proof.
  induction xs as [|x [|x' xs] IH]; intros vs t; [reflexivity|destruct vs; reflexivity|].
  destruct vs as [|v [|v' vs]]; [destruct xs; reflexivity|destruct xs; reflexivity|].
  destruct xs as [|x'' xs].
  - destruct vs; cbn [map plin].
    + replace (t + c - (x + c)) with (t - x) by ring. replace (x' + c - (x + c)) with (x' - x) by ring. reflexivity.
    + destruct (Rlt_dec (t + c) (x' + c)), (Rlt_dec t x'); try lra; try reflexivity.
      replace (t + c - (x + c)) with (t - x) by ring. replace (x' + c - (x + c)) with (x' - x) by ring. reflexivity.
  - specialize (IH (v' :: vs) t). cbn [map] in *.
    change (plin (x + c :: x' + c :: x'' + c :: map (fun x => x + c) xs) (v :: v' :: vs) (t + c)) with
      (if Rlt_dec (t + c) (x' + c) then v + (v' - v) * ((t + c - (x + c)) / (x' + c - (x + c))) else plin (x' + c :: x'' + c :: map (fun x => x + c) xs) (v' :: vs) (t + c)).
    change (plin (x :: x' :: x'' :: xs) (v :: v' :: vs) t) with (if Rlt_dec t x' then v + (v' - v) * ((t - x) / (x' - x)) else plin (x' :: x'' :: xs) (v' :: vs) t).
    rewrite IH. replace (t + c - (x + c)) with (t - x) by ring. replace (x' + c - (x + c)) with (x' - x) by ring.
    destruct (Rlt_dec (t + c) (x' + c)), (Rlt_dec t x'); try lra; reflexivity.
Qed.
Lemma plin_shift_values c xs : forall vs t, (2 <= length xs)%nat -> length vs = length xs -> plin xs (map (fun v => v + c) vs) t = plin xs vs t + c.
Proof.
  induction xs as [|x [|x' xs] IH]; intros vs t H2 Hl; [cbn in H2; lia|cbn in H2; lia|].
  destruct vs as [|v [|v' vs]]; [discriminate|discriminate|].
  destruct xs as [|x'' xs].
  - destruct vs; [|discriminate]. cbn [map plin]. replace (v' + c - (v + c)) with (v' - v) by ring. ring.
  - cbn [length] in Hl. specialize (IH (v' :: vs) t ltac:(cbn [length]; lia) ltac:(cbn [length]; lia)). cbn [map] in *.
    change (plin (x :: x' :: x'' :: xs) (v + c :: v' + c :: map (fun v => v + c) vs) t) with
      (if Rlt_dec t x' then (v + c) + (v' + c - (v + c)) * ((t - x) / (x' - x)) else plin (x' :: x'' :: xs) (v' + c :: map (fun v => v + c) vs) t).
    change (plin (x :: x' :: x'' :: xs) (v :: v' :: vs) t) with (if Rlt_dec t x' then v + (v' - v) * ((t - x) / (x' - x)) else plin (x' :: x'' :: xs) (v' :: vs) t).
    rewrite IH. replace (v' + c - (v + c)) with (v' - v) by ring. destruct (Rlt_dec t x'); ring.
Qed.
