(** Vocabulary for the statements about poloidal grids. *)
From Coq Require Import List ZArith QArith.
From Verif Require Import Prelude PolModel.
Open Scope Q_scope.

(** [g] is the slope of [f] in its first (second) argument: every difference
    quotient of [f] equals [g]. *)
Definition slope_x (f g : Q -> Q -> Q) : Prop :=
  forall x z h, ~ h == 0 -> (f (x + h) z - f x z) / h == g x z.
Definition slope_z (f g : Q -> Q -> Q) : Prop :=
  forall x z h, ~ h == 0 -> (f x (z + h) - f x z) / h == g x z.

(** [g] is the derivative of [f] of order [a] in x and [b] in z. *)
Inductive derivative : nat -> nat -> (Q -> Q -> Q) -> (Q -> Q -> Q) -> Prop :=
| der_0 : forall f g, (forall x z, f x z == g x z) -> derivative 0 0 f g
| der_x : forall a b f g h, derivative a b f g -> slope_x g h -> derivative (S a) b f h
| der_z : forall a b f g h, derivative a b f g -> slope_z g h -> derivative a (S b) f h.

(** Half-open interval. *)
Definition within (lo hi v : Q) : Prop := lo <= v /\ v < hi.

(** Squared distance. *)
Definition dist2 (a b : Q * Q) : Q := (fst a - fst b) * (fst a - fst b) + (snd a - snd b) * (snd a - snd b).

(** What findIndex may return for a target. *)
Inductive good_index (nx nz : Z) (splR splZ : nat -> nat -> Q -> Q -> Q) (tol : Q) (target : Q * Q) : fl * fl -> Prop :=
| inner_mark : forall z, good_index nx nz splR splZ tol target (Fin (-(1)), z)
| outer_mark : forall z, good_index nx nz splR splZ tol target (Fin (inject_Z nx), z)
| interior : forall x z,
    1#2 <= x -> x <= inject_Z nx - (3#2) ->
    (let zi := qrem z (inject_Z nz) + inject_Z nz in dist2 (splR 0%nat 0%nat x zi, splZ 0%nat 0%nat x zi) target < tol) ->
    good_index nx nz splR splZ tol target (Fin x, Fin z).

(** What findIndex should return on a grid whose coordinates are affine in the
    indices, for a target at index [(x, z)] with nearest grid point in row [i]:
    the index itself, or a marker if the point or the row is at the boundary. *)
Definition affine_answer (nx i : Z) (x z : Q) (p : fl * fl) : Prop :=
  exists a c, p = (Fin a, Fin c) /\
  (i = 0%Z \/ ((0 < i < nx - 1)%Z /\ x < 1#2) -> a == -(1)) /\
  (i = (nx - 1)%Z \/ ((0 < i < nx - 1)%Z /\ inject_Z nx - (3#2) < x) -> a == inject_Z nx) /\
  ((0 < i < nx - 1)%Z -> 1#2 <= x <= inject_Z nx - (3#2) -> a == x /\ c == z).
