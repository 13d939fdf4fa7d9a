(** boundary.py: the boundary objects.  Every method works element by element on
    numpy arrays; the model gives the answer for one position. *)
From Coq Require Import List ZArith QArith Qabs Bool.
From Verif Require Import Prelude.
Import ListNotations.
Open Scope Q_scope.

(** NoBoundary.outside (boundary.py:9-23): numpy.full(x.shape, False) *)
Definition no_outside (xs : list Q) : list bool := map (fun _ => false) xs.

(** RectangularBoundaryXZ (boundary.py:26-62) *)
Record rect_boundary := mkRect { xmin : Q; xmax : Q; zmin : Q; zmax : Q }.
Definition rect_outside (r : rect_boundary) (x z : Q) : bool :=
  (Qlt_bool x (xmin r) || Qlt_bool (xmax r) x) || (Qlt_bool z (zmin r) || Qlt_bool (zmax r) z).
(** the same on arrays: position by position *)
Definition rect_outside_array (r : rect_boundary) (xs zs : list Q) : list bool :=
  map (fun p => rect_outside r (fst p) (snd p)) (combine xs zs).

(** PolygonBoundaryXZ.__init__ (boundary.py:65-80); numpy.amax of an empty array
    raises ValueError *)
Record polygon_boundary := mkPoly { zout : Q; xarr : list Q; zarr : list Q }.
Definition amax (l : list Q) : res Q :=
  match l with [] => Err ValueError | a :: t => Ok (fold_left (fun m v => if Qlt_bool m v then v else m) t a) end.
Definition polygon_init (xs zs : list Q) : res polygon_boundary :=
  let* m := amax zs in Ok (mkPoly (m + 1) xs zs).

Definition get (l : list Q) (i : nat) : res Q := match nth_error l i with Some v => Ok v | None => Err IndexError end.

(** 0 <= num / den <= 1 as numpy compares it: with [den] zero the quotient is
    infinite or NaN and one of the comparisons is false *)
Definition in_unit (num den : Q) : bool :=
  if Qeq_bool den 0 then false else Qle_bool 0 (num / den) && Qle_bool (num / den) 1.

(** the body of the loop over the segments (boundary.py:118-139); None: segment
    skipped (boundary.py:127-128, `continue`) *)
Definition segment_intersect (z_1 x_0 z_0 xp_0 zp_0 xp_1 zp_1 : Q) : option bool :=
  if Qlt_bool (Qabs (xp_1 - xp_0)) (1 # 1000000) then None
  else
    let b := (x_0 - xp_0) / (xp_1 - xp_0) in
    Some ((Qle_bool 0 b && Qle_bool b 1) && in_unit (zp_0 - z_0 + b * (zp_1 - zp_0)) (z_1 - z_0)).

(** PolygonBoundaryXZ.outside (boundary.py:82-141) *)
Definition polygon_outside (p : polygon_boundary) (x z : Q) : res bool :=
  let n := length (xarr p) in
  foldM (fun outside i =>
    let* xp_0 := get (xarr p) i in
    let* zp_0 := get (zarr p) i in
    let ip := ((i + 1) mod n)%nat in
    let* xp_1 := get (xarr p) ip in
    let* zp_1 := get (zarr p) ip in
    match segment_intersect (zout p) x z xp_0 zp_0 xp_1 zp_1 with
    | None => Ok outside
    | Some intersect => Ok (xorb outside intersect)
    end) (seq 0 n) true.
