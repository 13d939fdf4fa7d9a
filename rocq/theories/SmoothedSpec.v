(** Vocabulary for the statements about SmoothedMagneticField. *)
From Coq Require Import List QArith.
Open Scope Q_scope.

(** Strictly increasing *)
Definition rising (ys : list Q) : Prop := forall i, (S i < length ys)%nat -> nth i ys 0 < nth (S i) ys 0.
