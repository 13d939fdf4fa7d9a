(** field_line_length (diff.py:100-129) and FusionSCTracer (fieldtracer.py:929-974).
    Floats are exact real numbers. *)
From Coq Require Import List Reals Bool.
From Verif Require Import Prelude FieldReal.
Import ListNotations.
Open Scope R_scope.

Definition Rltb (a b : R) : bool := if Rlt_dec a b then true else false.
Fixpoint increasing (l : list R) : bool :=
  match l with a :: (b :: _) as l' => Rltb a b && increasing l' | _ => true end.
(** np.linspace(0, 1, n) *)
Definition linspace01 (n : nat) : list R := map (fun k => INR k / INR (n - 1)) (seq 0 n).
(** x[1:] - x[:-1], for three coordinates at once; the squares added and the root taken *)
Definition point3 := (R * R * R)%type.
Definition dist3 (p q : point3) : R :=
  let '(x, y, z) := p in let '(x', y', z') := q in sqrt ((x' - x) ^ 2 + (y' - y) ^ 2 + (z' - z) ^ 2).
Fixpoint path_length (l : list point3) : R :=
  match l with p :: (q :: _) as l' => dist3 p q + path_length l' | _ => 0 end.

Section Length.
(** CubicSpline(x, y)(t) *)
Variable spline : list R -> list R -> R -> R.
(** CubicSpline raises ValueError for less than two points, for lists of different
    lengths and for x that do not increase *)
Definition interp (xs ys : list R) (ts : list R) : res (list R) :=
  if (length xs <? 2)%nat then Err ValueError
  else if negb (length ys =? length xs)%nat then Err ValueError
  else if negb (increasing xs) then Err ValueError
  else Ok (map (spline xs ys) ts).
(** the points in Cartesian coordinates (diff.py:123-124) *)
Definition cartesian (y r z : R) : point3 := (cos y * r, sin y * r, z).
Fixpoint zip_cartesian (ys rs zs : list R) : list point3 :=
  match ys, rs, zs with y :: ys', r :: rs', z :: zs' => cartesian y r z :: zip_cartesian ys' rs' zs' | _, _, _ => [] end.
(** field_line_length for one line (the other axes of RZ_coords are independent lines);
    refine is not negative *)
Definition field_line_length (RZ : list (R * R)) (y_coords : list R) (refine : nat) : res R :=
  let* y_fine := interp (linspace01 (length y_coords)) y_coords (linspace01 ((length y_coords - 1) * refine + 1)) in
  let* R_fine := interp y_coords (map fst RZ) y_fine in
  let* Z_fine := interp y_coords (map snd RZ) y_fine in
  Ok (path_length (zip_cartesian y_fine R_fine Z_fine)).
End Length.

(** * FusionSCTracer *)
(** the keyword arguments: targetError, if given, and the others *)
Record kwargs := mkKw { target_error : option R; others : nat }.
Section FusionSC.
(** fsc.flt.poincareInPhiPlanes for the start points, the planes, the direction and the
    keyword arguments: for each plane and start point the position, or not a number
    (modelled as any point); the last axis, of length one, is left out *)
Variable poincare : list point3 -> list R -> bool -> kwargs -> res (list (list point3)).
(** follow_field_lines (fieldtracer.py:947-974) for a list of start positions.  The
    argument rtol is put into a copy of the keyword arguments, but the call uses
    self.kwargs.  y_values[1] does not exist for a single value. *)
Definition fsc_follow (self : kwargs) (xs zs ys : list R) (rtol : option R) : res (list (list (R * R))) :=
  let kw := match rtol with Some e => mkKw (Some e) (others self) | None => self end in
  match ys with
  | y0 :: y1 :: _ =>
      let start := map (fun xz : R * R => (cos y0 * fst xz, sin y0 * fst xz, snd xz)) (combine xs zs) in
      let ccw := Rltb y0 y1 in
      let* pnts := poincare start (tl ys) ccw self in
      Ok (combine xs zs :: map (map (fun p : point3 => let '(x, y, z) := p in (sqrt (x ^ 2 + y ^ 2), z))) pnts)
  | _ => Err IndexError
  end.
End FusionSC.
