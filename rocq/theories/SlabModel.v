(** make_maps (zoidberg.py:57-408) put together with its parts: a RectangularPoloidalGrid
    (poloidal_grid.py:91-230), rectangular_grid (grid.py:222-258), and an exact field line
    tracer for the slab fields (field.py:230-319), in which nothing depends on y or z.
    NoBoundary (boundary.py:8-23) is the default boundary of the fields. *)
From Coq Require Import String List ZArith QArith Bool.
From Verif Require Import Prelude NamingModel GridModel PolModel FieldModel MapsModel.
Import ListNotations.
Open Scope Q_scope.

(** the arrays R and Z of a rectangular grid (poloidal_grid.py:145-146): getCoordinate at
    the integer indices *)
Definition rect_R (r : rect) : arr2 := fun i k => match rect_getCoordinate r (inject_Z i) (inject_Z k) 0 0 with Ok p => fst p | Err _ => 0 end.
Definition rect_Z (r : rect) : arr2 := fun i k => match rect_getCoordinate r (inject_Z i) (inject_Z k) 0 0 with Ok p => snd p | Err _ => 0 end.
Definition rect_find (r : rect) (R Z : arr2) : arr2 * arr2 :=
  ((fun i k => fst (rect_findIndex r (R i k) (Z i k))), (fun i k => snd (rect_findIndex r (R i k) (Z i k)))).
(** FieldTracer.follow_field_lines (fieldtracer.py:30-98) with the integration done
    exactly, for a field whose direction (field.py:164-227) does not change along its lines, as that of
    the slabs does not: positions on the straight line from the start at y0.  Simplified: a
    direction that raises ValueError (By too small) moves nothing. *)
Definition straight (f : field) (y0 : Q) (p : Q * Q) (y : Q) : Q * Q :=
  match direction f [fst p] [snd p] y0 with
  | Ok ([dx], [dz]) => (fst p + dx * (y - y0), snd p + dz * (y - y0))
  | _ => p
  end.
Definition slab_flow (f : field) (R Z : arr2) (y0 y : Q) : arr2 * arr2 :=
  ((fun i k => fst (straight f y0 (R i k, Z i k) y)), (fun i k => snd (straight f y0 (R i k, Z i k) y))).
Definition slab_trace (f : field) (R Z : arr2) (ys : list Q) : list (arr2 * arr2) :=
  match ys with
  | [] => []
  | y0 :: _ => map (slab_flow f R Z y0) ys
  end.
(** NoBoundary.outside (boundary.py:17-23) *)
Definition nowhere (_ : arr2) (_ : Q) (_ : arr2) (_ _ : Z) : bool := false.
(** the maps *)
Definition slab_maps (repr : Q -> string) (f : field) (roots_jacobi : nat -> list Q * list Q)
    (fll : list (Q * Q) -> list Q -> Q) (Jperp : rect -> Z -> Z -> Q) (is_slab : bool) (g : grid rect)
    (nslice mxg spd : Z) (refine n_chunks : nat) (junk : jstate) : res MapsModel.dict :=
  make_maps repr rect rect_R rect_Z (fun r => Z.to_nat (r_nx r)) (fun r => Z.to_nat (r_nz r)) rect_find
    (slab_trace f) nowhere (Byfunc f) roots_jacobi fll Jperp is_slab g nslice mxg spd refine n_chunks junk.
