(** The slices of the grids in the examples. *)
From Coq Require Import List ZArith QArith.
From Verif Require Import Prelude GridModel.
Import ListNotations.
Open Scope Q_scope.

(** numpy.linspace(0, L, n, endpoint=False): zoidberg/examples/screwpinch.py:23,
    zoidberg/examples/rotating_ellipse.py:36, test/mms/parallel_grid.py:32,
    test/mms/laplace_grid.py:32 *)
Definition open_slices (L : Q) (n : nat) : list Q :=
  map (fun k => inject_Z (Z.of_nat k) * (L / inject_Z (Z.of_nat n))) (seq 0 n).
(** numpy.linspace(0, L, n), with n at least 2: examples/straight-stellarator-curvilinear.py:29,
    examples/rotating-ellipse.py:34; trace_poincare (fieldtracer.py:361-376) sorts them, which
    changes nothing, and returns them *)
Definition closed_slices (L : Q) (n : nat) : list Q :=
  map (fun k => inject_Z (Z.of_nat k) * (L / inject_Z (Z.of_nat (n - 1)))) (seq 0 n).
(** screwpinch.py:32: one poloidal grid for all slices *)
Definition screwpinch_grid {G} (pol : G) (L : Q) (n : nat) : res (grid G) := Grid_init_single pol (open_slices L n) L true.
(** rotating_ellipse.py:81, with a grid for each slice *)
Definition ellipse_grid {G} (pols : list G) (L : Q) (n : nat) : res (grid G) := Grid_init pols (open_slices L n) L true.
(** examples/straight-stellarator-curvilinear.py:68, examples/rotating-ellipse.py:73: a grid
    for each slice *)
Definition script_grid {G} (pols : list G) (L : Q) (n : nat) : res (grid G) := Grid_init pols (closed_slices L n) L true.
(** test/mms/poloidal_grid.py:50,56 and test/mms/radial_grid.py:23,29: slices over the angle P
    (2 pi / 5) in a grid of length L (5) *)
Definition mms_grid {G} (pol : G) (P L : Q) (n : nat) : res (grid G) := Grid_init_single pol (open_slices P n) L true.
