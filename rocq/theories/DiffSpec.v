(** Vocabulary for the statements about diff.py. *)
From Coq Require Import List ZArith QArith.
From Verif Require Import Prelude.
Import ListNotations.
Open Scope Q_scope.

(** the i-th number of an array *)
Definition at_ (l : list Q) (i : Z) : Q := nth (Z.to_nat i) l 0%Q.
(** polynomials in the index, and the derivative of the second one *)
Definition quad (a b c : Q) (i : Z) : Q := a + b * inject_Z i + c * inject_Z i * inject_Z i.
Definition quartic (a b c d e : Q) (i : Z) : Q := let x := inject_Z i in a + b * x + c * x * x + d * x * x * x + e * x * x * x * x.
Definition quartic' (b c d e : Q) (i : Z) : Q := let x := inject_Z i in b + 2 * c * x + 3 * d * x * x + 4 * e * x * x * x.
