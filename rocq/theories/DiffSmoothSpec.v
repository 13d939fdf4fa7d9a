(** Words of the statements about the differences of diff.py on smooth functions. *)
From Coq Require Import List ZArith QArith Reals Qreals.
From Verif Require Import Prelude SmoothModel DiffSpec.
Open Scope R_scope.

(** [f1] is the derivative of [f]; the second and third derivatives are at most [M2] and [M3] *)
Definition third (M2 M3 : R) (f f1 : R -> R) : Prop :=
  exists f2 f3, (forall t, derivable_pt_lim f t (f1 t)) /\ (forall t, derivable_pt_lim f1 t (f2 t)) /\ (forall t, derivable_pt_lim f2 t (f3 t)) /\
    (forall t, Rabs (f2 t) <= M2) /\ (forall t, Rabs (f3 t) <= M3).
(** [f1] is the derivative of [f]; the fifth derivative is at most [M5] *)
Definition fifth (M5 : R) (f f1 : R -> R) : Prop :=
  exists f2 f3 f4 f5, (forall t, derivable_pt_lim f t (f1 t)) /\ (forall t, derivable_pt_lim f1 t (f2 t)) /\ (forall t, derivable_pt_lim f2 t (f3 t)) /\
    (forall t, derivable_pt_lim f3 t (f4 t)) /\ (forall t, derivable_pt_lim f4 t (f5 t)) /\ (forall t, Rabs (f5 t) <= M5).
(** the array holds the values of [f] at [x0], [x0 + h], ... up to [delta] *)
Definition samples (l : list Q) (f : R -> R) (x0 h delta : R) : Prop :=
  forall i, (0 <= i < len l)%Z -> Rabs (Q2R (at_ l i) - f (x0 + IZR i * h)) <= delta.
