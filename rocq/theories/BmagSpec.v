(** Vocabulary for the statements about Bmag of the EMC3 field. *)
From Coq Require Import List ZArith QArith Bool.
From Verif Require Import Prelude BmagModel.
Import ListNotations.
Open Scope Q_scope.

(** The entries known in a column, and the column's positions *)
Definition known (v : array2) (i : nat) : list nat := filter (fun k => negb (isnan (at2 v k i))) (seq 0 (rows v)).
Definition has_nan (v : array2) (i : nat) : Prop := exists k, (k < rows v)%nat /\ at2 v k i = None.
(** A spline that goes straight through data on a straight line *)
Definition straight (spline : list Q -> list Q -> res (Q -> Q)) : Prop :=
  forall s g f, spline s g = Ok f -> forall a b, (forall j, (j < length s)%nat -> nth j g 0 == a + b * nth j s 0) -> length g = length s -> forall t, f t == a + b * t.
