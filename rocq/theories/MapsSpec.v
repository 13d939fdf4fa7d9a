(** Vocabulary for the statements about make_maps. *)
From Coq Require Import String List ZArith QArith Qabs Qround Bool.
From Verif Require Import Prelude NamingModel NamingSpec GridModel GridSpec MapsModel.
Import ListNotations.
Open Scope Q_scope.
Open Scope string_scope.

(** The tracer returns one plane per requested y: the (ignored) start and then,
    for each further y, the end point of the line from the start. *)
Definition follows (trace : arr2 -> arr2 -> list Q -> list (arr2 * arr2))
    (flow : arr2 -> arr2 -> Q -> Q -> arr2 * arr2) : Prop :=
  forall a b y0 ys, exists c0, trace a b (y0 :: ys) = c0 :: map (flow a b y0) ys.

(** The array stored under the name of [field] at [o]. *)
Definition stored (repr : Q -> string) (d : dict) (field : string) (o : offset) (a : arr4) : Prop :=
  exists n, parallel_slice_field_name repr field o = Ok n /\ d n = Some (VArr a).

(** Index coordinate written for one cell: -1 without a slice or outside. *)
Definition index_or_boundary (none : bool) (out : bool) (v : Q) : Q :=
  if none then -(1) else if out then -(1) else v.

Section Spec.
Variable repr : Q -> string.
Context {G : Type}.
Variable pR pZ : G -> arr2.
Variable findIndex : G -> arr2 -> arr2 -> arr2 * arr2.
Variable flow : arr2 -> arr2 -> Q -> Q -> arr2 * arr2.
Variable outside : arr2 -> Q -> arr2 -> Z -> Z -> bool.
Variable g : grid G.

(** "The maps of offset [o] at y index [j] hold the end points of the lines
    traced to slice j+o": positions in R/Z, and index coordinates found by that slice's search,
    -1 where there is no slice or where the boundary test *at position yb* says outside. *)
Definition entries_at (d : dict) (o : offset) (j : Z) (yb : Q) : Prop :=
  exists pol yj pol_o y_o aR aZ ax az,
    getPoloidalGrid g (inject_Z j) = Ok (Some pol, yj) /\
    getPoloidalGrid g (inject_Z j + offset_value o) = Ok (pol_o, y_o) /\
    stored repr d "R" o aR /\ stored repr d "Z" o aZ /\
    stored repr d "xt_prime" o ax /\ stored repr d "zt_prime" o az /\
    let c := flow (pR pol) (pZ pol) yj y_o in
    forall x z s,
      aR x j z s = fst c x z /\ aZ x j z s = snd c x z /\
      ax x j z s = match pol_o with None => -(1) | Some p =>
        if outside (fst c) yb (snd c) x z then -(1) else fst (findIndex p (fst c) (snd c)) x z end /\
      az x j z s = match pol_o with None => -(1) | Some p =>
        if outside (fst c) yb (snd c) x z then -(1) else snd (findIndex p (fst c) (snd c)) x z end.

(** The y position of slice j+o. *)
Definition y_of (j : Z) (o : offset) (y : Q) : Prop :=
  exists p, getPoloidalGrid g (inject_Z j + offset_value o) = Ok (p, y).
End Spec.

(** ** Parallel integrals *)

(** The tracer treats every start point on its own: the line through (x, z) is
    [t1] applied to that start point. *)
Definition pointwise (trace : arr2 -> arr2 -> list Q -> list (arr2 * arr2))
    (t1 : Q -> Q -> list Q -> list (Q * Q)) : Prop :=
  (forall a b ys x z, line (trace a b ys) x z = t1 (a x z) (b x z) ys) /\
  (forall r z ys, length (t1 r z ys) = length ys).

Section JSpec.
Context {G : Type}.
Variable pR pZ : G -> arr2.
Variable t1 : Q -> Q -> list Q -> list (Q * Q).
Variable Byfunc : Q -> Q -> Q -> Q.
Variable field_line_length : list (Q * Q) -> list Q -> Q.
Variable Jperp : G -> Z -> Z -> Q.
Variable refine : nat.

(** y positions from slice j-1 (at [ym]) over slice j (at [y]) to slice j+1 (at
    [yp]): 4*refine+1 of them. *)
Definition all_y (ym y yp : Q) : list Q :=
  rev (linspace y ym (2 * refine)) ++ skipn 1 (linspace y yp (2 * refine)).

(** The points of the line through cell (x, z) of [pol] at these positions. *)
Definition all_points (pol : G) (x z : Z) (ym y yp : Q) : list (Q * Q) :=
  rev (t1 (pR pol x z) (pZ pol x z) (linspace y ym (2 * refine)))
  ++ skipn 1 (t1 (pR pol x z) (pZ pol x z) (linspace y yp (2 * refine))).

(** [n] consecutive entries starting at [lo] *)
Definition consecutive {A} (lo n : nat) (l : list A) : list A := firstn n (skipn lo l).

Definition length_spec (k : nat) (pol : G) (x z : Z) (ym y yp : Q) : Q :=
  field_line_length (consecutive (refine * k) (2 * refine + 1) (all_points pol x z ym y yp))
                    (consecutive (refine * k) (2 * refine + 1) (all_y ym y yp)).

Definition B_along (pol : G) (x z : Z) (ym y yp : Q) : list Q :=
  map (fun t => Byfunc (fst (fst t)) (snd (fst t)) (snd t))
      (combine (consecutive refine (2 * refine + 1) (all_points pol x z ym y yp))
               (consecutive refine (2 * refine + 1) (all_y ym y yp))).

Definition B_spec (k : nat) (pol : G) (x z : Z) (ym y yp : Q) : Q :=
  nth (refine * k) (B_along pol x z ym y yp) 0.

(** Trapezoidal rule for Jperp * B0/B * R between the two half-way points. *)
Definition J_spec (pol : G) (x z : Z) (ym y yp : Q) : Q :=
  let Bs := B_along pol x z ym y yp in
  let Rs := map fst (consecutive refine (2 * refine + 1) (all_points pol x z ym y yp)) in
  let term i := Jperp pol x z * nth refine Bs 0 / nth i Bs 0 * nth i Rs 0 in
  (qsum (map (fun i => if (Nat.eqb i 0 || Nat.eqb i (2 * refine))%bool then (1#2) * term i else term i)
             (seq 0 (2 * refine + 1)))) / inject_Z (2 * Z.of_nat refine).
End JSpec.

(** ** Sub-samples *)
Section SubSpec.
Variable repr : Q -> string.
Context {G : Type}.
Variable pR pZ : G -> arr2.
Variable pnx pnz : G -> nat.
Variable findIndex : G -> arr2 -> arr2 -> arr2 * arr2.
Variable flow : arr2 -> arr2 -> Q -> Q -> arr2 * arr2.
Variable outside : arr2 -> Q -> arr2 -> Z -> Z -> bool.
Variable nodes : list Q.
Variable g : grid G.

(** Start planes of a sub-sample with node pair (u, v), u and v in [-1, 1]. *)
Variable start : G -> Q -> Q -> arr2 * arr2.

(** "The sub-sample arrays of offset [o] at y index [j] hold, in place
    a*n + b, the index coordinates of the end point of the line started from the
    node pair (a, b), or -1 at a boundary or without a slice". *)
Definition sub_entries_at (d : dict) (o : offset) (j : Z) : Prop :=
  exists pol yj pol_o y_o ax az,
    getPoloidalGrid g (inject_Z j) = Ok (Some pol, yj) /\
    getPoloidalGrid g (inject_Z j + offset_value o) = Ok (pol_o, y_o) /\
    stored repr d "xt_primes" o ax /\ stored repr d "zt_primes" o az /\
    forall a b u v, nth_error nodes a = Some u -> nth_error nodes b = Some v ->
    let s := Z.of_nat (a * length nodes + b) in
    let c := flow (fst (start pol u v)) (snd (start pol u v)) yj y_o in
    forall x z,
      ax x j z s = match pol_o with None => -(1) | Some p =>
        if outside (fst c) y_o (snd c) x z then -(1) else fst (findIndex p (fst c) (snd c)) x z end /\
      az x j z s = match pol_o with None => -(1) | Some p =>
        if outside (fst c) y_o (snd c) x z then -(1) else snd (findIndex p (fst c) (snd c)) x z end.
End SubSpec.

(** Where sub-samples should start: the cell position interpolated half a node
    pair away in both directions. *)
Definition intended_start {G} (pR pZ : G -> arr2) (pnx pnz : G -> nat) (p : G) (u v : Q) : arr2 * arr2 :=
  ((fun x z => bilinear (pnx p) (pnz p) (pR p) (inject_Z x + u * (1#2)) (inject_Z z + v * (1#2))),
   (fun x z => bilinear (pnx p) (pnz p) (pZ p) (inject_Z x + u * (1#2)) (inject_Z z + v * (1#2)))).

(** Where make_maps starts them: R is shifted along x by the first node, Z is
    shifted along x by the second one, nothing is shifted along z. *)
Definition actual_start {G} (pR pZ : G -> arr2) (pnx pnz : G -> nat) (p : G) (u v : Q) : arr2 * arr2 :=
  ((fun x z => bilinear (pnx p) (pnz p) (pR p) (inject_Z x + u * (1#2)) (inject_Z z)),
   (fun x z => bilinear (pnx p) (pnz p) (pZ p) (inject_Z x + v * (1#2)) (inject_Z z))).

(** The cell's own position. *)
Definition own_start {G} (pR pZ : G -> arr2) (p : G) (u v : Q) : arr2 * arr2 := (pR p, pZ p).
