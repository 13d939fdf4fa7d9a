(** Vocabulary for the statements about the Dommaschk potentials. *)
From Coq Require Import List Reals ZArith.
From Verif Require Import Prelude FieldReal CoilSpec.
Import ListNotations.
Open Scope R_scope.

(** f, in cylindrical coordinates, has all the derivatives below for R > 0 and its
    Laplacian d2f/dR2 + 1/R df/dR + 1/R2 d2f/dphi2 + d2f/dZ2 is zero *)
Definition harmonic (f : R -> R -> R -> R) : Prop :=
  exists fx fp fz fxx fpp fzz : R -> R -> R -> R, forall x z phi, 0 < x ->
    d_x f x z phi (fx x z phi) /\ d_phi f x z phi (fp x z phi) /\ d_z f x z phi (fz x z phi) /\
    d_x fx x z phi (fxx x z phi) /\ d_phi fp x z phi (fpp x z phi) /\ d_z fz x z phi (fzz x z phi) /\
    fxx x z phi + fx x z phi / x + fpp x z phi / x ^ 2 + fzz x z phi = 0.
(** B is the gradient of f in cylindrical coordinates, for R > 0 *)
Definition gradient (f Bx By Bz : R -> R -> R -> R) : Prop :=
  forall x z phi, 0 < x -> d_x f x z phi (Bx x z phi) /\ d_phi f x z phi (x * By x z phi) /\ d_z f x z phi (Bz x z phi).
(** z^v / v! *)
Definition zpower (v : nat) (z : R) : R := z ^ v / INR (fact v).
