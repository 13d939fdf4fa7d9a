(** Vocabulary for the statements about fields on demand. *)
From Coq Require Import List Reals.
From Verif Require Import Prelude TracerModel FieldModel FieldReal DemandModel.
Import ListNotations.
Open Scope R_scope.

(** an array with as many entries as its shape says, *)
Definition full (a : rarr) : Prop := length (ent a) = nsize (shp a).
(** the entry of an array, or of a scalar, at the flat index i *)
Definition entry (a : rarr) (i : nat) : R := match shp a with [] => nth 0 (ent a) 0 | _ => nth i (ent a) 0 end.
(** positions as numpy arrays of one shape; radius and angle may be scalars, not both *)
Definition positions (sh : list nat) (x z phi : rarr) : Prop :=
  full x /\ full z /\ full phi /\ shp z = sh /\ (shp x = sh \/ (shp x = [] /\ shp phi = sh)) /\ (shp phi = sh \/ shp phi = []).
(** the Cartesian position at the flat index i *)
Definition place (x z phi : rarr) (i : nat) : R * R * R := (entry x i * cos (entry phi i), entry x i * sin (entry phi i), entry z i).
(** An array of the shape [sh] with the entries f *)
Definition holds (a : rarr) (sh : list nat) (f : nat -> R) : Prop :=
  shp a = sh /\ full a /\ forall i, (i < nsize sh)%nat -> nth i (ent a) 0 = f i.
(** A service that evaluates a field F at each of the positions it is given *)
Definition evaluates (answer : nat -> config -> list R -> list R -> list R -> res (list R * list R * list R)) (k : config) (F : R * R * R -> R * R * R) : Prop :=
  forall n xs ys zs, length xs = length zs -> length ys = length zs -> exists b1 b2 b3, answer n k xs ys zs = Ok (b1, b2, b3) /\
    length b1 = length zs /\ length b2 = length zs /\ length b3 = length zs /\
    forall i, (i < length zs)%nat -> (nth i b1 0, nth i b2 0, nth i b3 0) = F (nth i xs 0, nth i ys 0, nth i zs 0).
Definition evaluates_arrays (backend : rarr -> rarr -> rarr -> res triple) (F : R * R * R -> R * R * R) : Prop :=
  forall sh X Y W, full X -> full Y -> full W -> shp X = sh -> shp Y = sh -> shp W = sh -> exists b1 b2 b3, backend X Y W = Ok (b1, b2, b3) /\
    shp b1 = sh /\ shp b2 = sh /\ shp b3 = sh /\ full b1 /\ full b2 /\ full b3 /\
    forall i, (i < nsize sh)%nat -> (nth i (ent b1) 0, nth i (ent b2) 0, nth i (ent b3) 0) = F (nth i (ent X) 0, nth i (ent Y) 0, nth i (ent W) 0).
(** F does not change when everything is turned about the axis by alpha *)
Definition turn (alpha : R) (p : R * R * R) : R * R * R :=
  (fst (fst p) * cos alpha - snd (fst p) * sin alpha, fst (fst p) * sin alpha + snd (fst p) * cos alpha, snd p).
