(** Vocabulary for the statements about the analytic fields of FieldReal.v. *)
From Coq Require Import List Reals.
From Verif Require Import Prelude FieldReal.
Import ListNotations.
Open Scope R_scope.

(** the point is not on a coil of the list *)
Definition away (cs : list (R * R * R)) (x z : R) : Prop := forall c, In c cs -> x <> fst (fst c) \/ z <> snd (fst c).
(** derivatives of a function of x, z and phi *)
Definition d_x (f : R -> R -> R -> R) (x z phi d : R) : Prop := derivable_pt_lim (fun x' => f x' z phi) x d.
Definition d_z (f : R -> R -> R -> R) (x z phi d : R) : Prop := derivable_pt_lim (fun z' => f x z' phi) z d.
Definition d_phi (f : R -> R -> R -> R) (x z phi d : R) : Prop := derivable_pt_lim (fun phi' => f x z phi') phi d.
(** X(s), Z(s) is a field line over [a, b]: dX = R Bx / By, dZ = R Bz / By, y being s *)
Definition field_line (Bx By Bz Rm : R -> R -> R -> R) (X Z : R -> R) (a b : R) : Prop :=
  forall s, a <= s <= b ->
    By (X s) (Z s) s <> 0 /\
    derivable_pt_lim X s (Rm (X s) (Z s) s * Bx (X s) (Z s) s / By (X s) (Z s) s) /\
    derivable_pt_lim Z s (Rm (X s) (Z s) s * Bz (X s) (Z s) s / By (X s) (Z s) s).
(** the functions that are 1 everywhere *)
Definition one (x z phi : R) : R := 1.
(** divergence in Cartesian coordinates x, z and y, and in cylindrical ones R = x, Z = z, phi *)
Definition cartesian_divergence (Bx By Bz : R -> R -> R -> R) (x z phi d : R) : Prop :=
  exists dx dy dz, d_x Bx x z phi dx /\ d_phi By x z phi dy /\ d_z Bz x z phi dz /\ d = dx + dy + dz.
Definition cylindrical_divergence (Bx By Bz : R -> R -> R -> R) (x z phi d : R) : Prop :=
  exists dx dy dz, d_x (fun x z phi => x * Bx x z phi) x z phi dx /\ d_phi By x z phi dy /\ d_z Bz x z phi dz /\ d = dx / x + dy / x + dz.

(** psi has the derivatives px and pz at (x, z), as a function of two variables *)
Definition differentiable2 (psi : R -> R -> R) (x z px pz : R) : Prop :=
  forall eps, 0 < eps -> exists delta, 0 < delta /\ forall h k, Rabs h < delta -> Rabs k < delta ->
    Rabs (psi (x + h) (z + k) - psi x z - px * h - pz * k) <= eps * (Rabs h + Rabs k).

(** the value of a Fourier series with coefficients c, mode numbers m and n *)
Definition series (trig : R -> R) (modes : list (R * R * R)) (t z : R) : R :=
  rsum (map (fun cmn => fst (fst cmn) * trig (snd (fst cmn) * t + snd cmn * z)) modes).
(** the modes of a row of coefficients *)
Definition modes (c xm xn : list R) : list (R * R * R) := combine (combine c xm) xn.

(** all rows of a table of coefficients have one entry per mode *)
Definition fits (xm xn : list R) (c : list (list R)) : Prop := length xn = length xm /\ Forall (fun row => length row = length xm) c.
(** an array with three indices, filled point by point *)
Definition table (f : list R -> R -> R -> R) (c : list (list R)) (th ze : list R) : list (list (list R)) :=
  map (fun row => map (fun t => map (fun z => f row t z) ze) th) c.
(** an element of such an array, and the array having it *)
Definition entry (a : list (list (list R))) (k j l : nat) : R := nth l (nth j (nth k a []) []) 0.
Definition has_entry (a : list (list (list R))) (k j l : nat) : Prop :=
  (k < length a)%nat /\ (j < length (nth k a []))%nat /\ (l < length (nth j (nth k a []) []))%nat.
(** A minus half the rotational transform times the square of the distance from the
    centre: the flux function of the straight stellarator in the frame turning with the coils *)
Definition helical (p : stellarator) (x z phi : R) : R := Afunc p x z phi - iota p / 2 * ((x - xcentre p) ^ 2 + (z - zcentre p) ^ 2).
