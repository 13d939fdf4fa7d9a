(** Vocabulary for the statements about field.py. *)
From Coq Require Import String List ZArith QArith Qabs Qminmax.
From Verif Require Import Prelude FieldModel.
Import ListNotations.
Open Scope Q_scope.

(** the three components at a point, and the major radius there (1 if Cartesian) *)
Definition B_at (f : field) (x z y : Q) : Q * Q * Q :=
  match Bxyzfunc f with Some b => b x z y | None => (Bxfunc f x z y, Byfunc f x z y, Bzfunc f x z y) end.
Definition R_at (f : field) (x z y : Q) : Q := match Rfunc f with Some r => r x z y | None => 1 end.
(** By is too small at some of the points *)
Definition small_By (f : field) (x z : list Q) (y : Q) : Prop :=
  exists k, (k < length x)%nat /\ Qabs (snd (fst (B_at f (nth k x 0) (nth k z 0) y))) < 1 # 100000000.
(** [d] is the direction of the field at the point: x and z change with y such that
    (dx, R dy, dz) is the vector B times a number, with nothing left over *)
Definition along_B (f : field) (x z y dx dz : Q) : Prop :=
  let '(bx, by_, bz) := B_at f x z y in
  dx * by_ == R_at f x z y * bx /\ dz * by_ == R_at f x z y * bz /\ dx * bz == dz * bx.

(** an inner box inside an outer box *)
Definition nested (b : box) : Prop :=
  xl_outer b < xl_inner b /\ xl_inner b <= xr_inner b /\ xr_inner b < xr_outer b /\
  zb_outer b < zb_inner b /\ zb_inner b <= zt_inner b /\ zt_inner b < zt_outer b.
Definition inside_inner (b : box) (x z : Q) : Prop := xl_inner b <= x <= xr_inner b /\ zb_inner b <= z <= zt_inner b.
Definition outside_outer (b : box) (x z : Q) : Prop := x <= xl_outer b \/ xr_outer b <= x \/ z <= zb_outer b \/ zt_outer b <= z.
(** a straight ramp: 1 at the inner wall, 0 at the outer wall *)
Definition ramp (inner outer x : Q) : Q := (outer - x) / (outer - inner).

(** the history of the constructors called *)
Definition created (ks : list kind) : world := fold_left create ks start.

(** values of a half mesh: the i-th one belongs to the place i - 1/2 *)
Definition half_mesh (n : nat) (g : Q -> Q) : list Q := map (fun i => g (inject_Z (Z.of_nat i) - (1 # 2))) (seq 0 n).
