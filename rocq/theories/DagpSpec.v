(** Vocabulary for the statements about the finite-volume operator. *)
From Coq Require Import List ZArith QArith Bool.
From Verif Require Import Prelude PolModel DagpModel.
Import ListNotations.
Open Scope Q_scope.

Definition same_point (a b : Q * Q) : Prop := fst a == fst b /\ snd a == snd b.

(** The only facts about the square root that are needed: it respects equality
    and is positive on positive numbers. *)
Definition root_like (sqrt : Q -> Q) : Prop :=
  (forall a b, a == b -> sqrt a == sqrt b) /\ (forall a, 0 < a -> 0 < sqrt a).

(** [getCoordinate] is a function of the numbers it is given. *)
Definition extensional (c : Q -> Q -> Q * Q) : Prop :=
  forall x x' z z', x == x' -> z == z' -> same_point (c x z) (c x' z').

(** The geometry closes on itself after [nz] poloidal steps. *)
Definition closes (p : pol) : Prop :=
  forall x z, same_point (p_coord p x (z + inject_Z (p_nz p))) (p_coord p x z).

(** Consecutive points of every cell face, taken at distance 1/11 in index
    space, are different points. *)
Definition eleventh (m : nat) : Q := inject_Z (Z.of_nat m) / 11.
Definition faces_proper (p : pol) : Prop :=
  forall i k m, (0 <= i < p_nx p - 1)%Z -> (0 <= k < p_nz p)%Z -> (m < 11)%nat ->
    ~ same_point (p_coord p (inject_Z i + (1#2)) (inject_Z k - (1#2) + eleventh m))
                 (p_coord p (inject_Z i + (1#2)) (inject_Z k - (1#2) + eleventh (S m)))
    /\ ((i < p_nx p - 2)%Z ->
        ~ same_point (p_coord p (inject_Z i + (1#2) + eleventh m) (inject_Z k + (1#2)))
                     (p_coord p (inject_Z i + (1#2) + eleventh (S m)) (inject_Z k + (1#2)))).

(** Twice the signed area inside a closed polygon (shoelace formula). *)
Fixpoint shoelace (first : Q * Q) (l : list (Q * Q)) : Q :=
  match l with
  | [] => 0
  | [a] => fst a * snd first - fst first * snd a
  | a :: ((b :: _) as t) => (fst a * snd b - fst b * snd a) + shoelace first t
  end.
Definition polygon_area2 (l : list (Q * Q)) : Q :=
  match l with [] => 0 | a :: _ => shoelace a l end.

(** The corners of the polygon of a cell: eleven steps along each of the four
    sides, clockwise in index space. *)
Definition boundary_point (p : pol) (i k : Z) (m : nat) : Q * Q :=
  let x := inject_Z i in let z := inject_Z k in
  if (m <? 11)%nat then p_coord p (x - (1#2) + eleventh m) (z + (1#2))
  else if (m <? 22)%nat then p_coord p (x + (1#2)) (z + (1#2) - eleventh (m - 11))
  else if (m <? 33)%nat then p_coord p (x + (1#2) - eleventh (m - 22)) (z - (1#2))
  else p_coord p (x - (1#2)) (z - (1#2) + eleventh (m - 33)).
Definition cell_polygon (p : pol) (i k : Z) : list (Q * Q) :=
  map (boundary_point p i k) (seq 0 44).

(** A right-handed cell: seen from some point, the boundary runs clockwise
    (never back, and somewhere strictly). *)
Definition turn (c a b : Q * Q) : Q :=
  (fst a - fst c) * (snd b - snd c) - (fst b - fst c) * (snd a - snd c).
Definition right_handed (p : pol) (i k : Z) : Prop :=
  exists c,
    (forall m, (m < 44)%nat ->
       turn c (boundary_point p i k m) (boundary_point p i k ((m + 1) mod 44)) <= 0)
    /\ (exists m, (m < 44)%nat /\
       turn c (boundary_point p i k m) (boundary_point p i k ((m + 1) mod 44)) < 0).

(** The rectangular grid as [doit] sees it. *)
Definition of_rect (r : rect) (Lz : Q) : pol :=
  let at_index x z := match rect_getCoordinate r x z 0 0 with Ok c => c | Err _ => (0, 0) end in
  {| p_nx := r_nx r; p_nz := r_nz r; p_coord := at_index;
     p_R := fun i k => fst (at_index (inject_Z i) (inject_Z k));
     p_Z := fun i k => snd (at_index (inject_Z i) (inject_Z k));
     p_Lz := Some Lz |}.

(** Outward flux through a face, from the two coefficients of the face. *)
Definition flux_through_x (nz : Z) (c : Z -> Z -> Z -> Q * Q) (f : Z -> Z -> Z -> Q) (i j k : Z) : Q :=
  let up := ((k + 1) mod nz)%Z in let down := ((k - 1) mod nz)%Z in
  fst (c i j k) * (f (i + 1)%Z j k - f i j k)
  + snd (c i j k) * (((f (i + 1)%Z j up - f (i + 1)%Z j down) + (f i j up - f i j down)) / 2).
(** Row [i - 1] of the z coefficients belongs to the cells of row [i]. *)
Definition flux_through_z (nz : Z) (c : Z -> Z -> Z -> Q * Q) (f : Z -> Z -> Z -> Q) (i j k : Z) : Q :=
  let up := ((k + 1) mod nz)%Z in
  fst (c (i - 1)%Z j k) * (((f (i + 1)%Z j up - f (i - 1)%Z j up) + (f (i + 1)%Z j k - f (i - 1)%Z j k)) / 2)
  + snd (c (i - 1)%Z j k) * (f i j up - f i j k).

Definition sum_over (lo hi : Z) (f : Z -> Q) : Q := qsum (map f (zrange lo hi)).

(** A RectangularPoloidalGrid of poloidal size [Lz]. *)
Definition rectangular (nx nz : Z) (Lz : Q) (r : rect) : Prop :=
  exists Lx Rcentre Zcentre MXG, ~ Lx == 0 /\ rect_init nx nz Lx Lz Rcentre Zcentre MXG = Ok r.

(** R at a (fractional) radial index, or one in slab geometry. *)
Definition major_radius (isSlab : bool) (r : rect) (x : Q) : Q :=
  if isSlab then 1 else r_Rmin r + x * r_dR r.
Definition rect0 : rect := {| r_nx := 0; r_nz := 0; r_dR := 0; r_dZ := 0; r_Rmin := 0; r_Zmin := 0 |}.

(** A structured (not rectangular) grid whose geometry closes poloidally and
    whose cell faces are not degenerate. *)
Definition structured (p : pol) : Prop :=
  p_Lz p = None /\ extensional (p_coord p) /\ closes p /\ faces_proper p.

(** A function linear in R and Z on the points of one grid. *)
Definition linear_on (p : pol) (a b c : Q) : Z -> Z -> Z -> Q :=
  fun i _ k => a * p_R p i k + b * p_Z p i k + c.
