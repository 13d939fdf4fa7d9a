(** Vocabulary for the statements about the boundary objects: plane geometry. *)
From Coq Require Import List ZArith QArith Bool.
From Verif Require Import Prelude.
Import ListNotations.
Open Scope Q_scope.

Notation pt := (Q * Q)%type.
(** twice the signed area of the triangle a, b, p: positive if p is to the left of
    the line from a to b *)
Definition orient (a b p : pt) : Q := (fst b - fst a) * (snd p - snd a) - (snd b - snd a) * (fst p - fst a).
(** p is a point of the closed segment from a to b *)
Definition on_segment (a b p : pt) : Prop :=
  exists t, 0 <= t <= 1 /\ fst p == fst a + t * (fst b - fst a) /\ snd p == snd a + t * (snd b - snd a).
(** p is strictly inside the triangle, however it is oriented *)
Definition in_triangle (a b c p : pt) : bool :=
  (Qlt_bool 0 (orient a b p) && Qlt_bool 0 (orient b c p) && Qlt_bool 0 (orient c a p)) ||
  (Qlt_bool (orient a b p) 0 && Qlt_bool (orient b c p) 0 && Qlt_bool (orient c a p) 0).

(** the sides of a polygon: each vertex with the next, the last one with the first *)
Fixpoint chain (a : pt) (l : list pt) (e : pt) : list (pt * pt) :=
  match l with [] => [(a, e)] | b :: l' => (a, b) :: chain b l' e end.
Definition sides (vs : list pt) : list (pt * pt) := match vs with [] => [] | v :: t => chain v t v end.
(** the triangles (v0, v_i, v_i+1) of a polygon v0, v1, ... *)
Definition fan (vs : list pt) : list (pt * pt) := match vs with [] => [] | _ :: t => combine t (tl t) end.
(** the lines from the first vertex to the others *)
Definition spokes (vs : list pt) : list (pt * pt) := match vs with [] => [] | v :: t => map (pair v) t end.
(** even-odd interior of any closed polygon: the point is in an odd number of the
    triangles that the sides make with the first vertex *)
Definition even_odd (vs : list pt) (p : pt) : bool :=
  match vs with [] => false | v :: _ => Nat.odd (length (filter (fun ab => in_triangle v (fst ab) (snd ab) p) (fan vs))) end.

(** a strictly convex polygon: any three of its vertices, in their order, turn to
    the same side ([s] = 1: left, i.e. anticlockwise; [s] = -1: clockwise) *)
Fixpoint convex (s : Q) (vs : list pt) : Prop :=
  match vs with
  | [] => True
  | a :: t => ForallOrdPairs (fun b c => 0 < s * orient a b c) t /\ convex s t
  end.
(** its interior: the points strictly to that side of all the sides *)
Definition convex_interior (s : Q) (vs : list pt) (p : pt) : Prop :=
  forall a b, In (a, b) (sides vs) -> 0 < s * orient a b p.

(** the side has a point with the x of [p] at or above [p] (vertical sides do not count) *)
Definition at_or_above (p : pt) (ab : pt * pt) : bool :=
  let '(a, b) := ab in
  (Qlt_bool (fst a) (fst b) && Qle_bool (fst a) (fst p) && Qle_bool (fst p) (fst b) && Qle_bool (orient a b p) 0) ||
  (Qlt_bool (fst b) (fst a) && Qle_bool (fst b) (fst p) && Qle_bool (fst p) (fst a) && Qle_bool 0 (orient a b p)).
(** the vertex is vertically above [p] *)
Definition above (p v : pt) : bool := Qeq_bool (fst v) (fst p) && Qlt_bool (snd p) (snd v).
(** the right end of the side, if it has one, is vertically above [p] *)
Definition ends_above (p : pt) (ab : pt * pt) : bool :=
  let '(a, b) := ab in (Qlt_bool (fst a) (fst b) && above p b) || (Qlt_bool (fst b) (fst a) && above p a).
Definition count {A} (f : A -> bool) (l : list A) : nat := length (filter f l).
