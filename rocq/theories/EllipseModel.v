(** rotating_ellipse (examples/rotating_ellipse.py:11-101): which grids it makes and what it does
    with them.  The grids, tracing and files themselves are in other models; here they are names. *)
From Coq Require Import List Bool.
From Verif Require Import Prelude.
Import ListNotations.

(** the minor radius of a boundary: a / 2 for the inner one and a for the outer one *)
Inductive radius := HalfA | FullA.
(** a boundary line: the shaped line of that minor radius, or the flux surface through
    xcentre + radius traced to slice i *)
Inductive boundary := Shaped (a : radius) | Surface (start : radius) (slice : nat).
(** a poloidal grid *)
Inductive pgrid := Rectangle | Elliptic (inner outer : boundary).
(** the argument of Grid: one poloidal grid for all slices, or a list with one for each *)
Inductive pgrids := One (p : pgrid) | Each (l : list pgrid).
(** what is done, in this order *)
Inductive action := TraceInner | TraceOuter | MakeMaps (g : pgrids) | WriteMaps | Curvature | Smooth | Iota | WriteIota | PrintIota.
Record flags := { curvilinear : bool; rectangular : bool; inner_aligned : bool; outer_aligned : bool;
                  calc_curvature : bool; smooth_curvature : bool; return_iota : bool; write_iota : bool }.
(** get_lines (examples/common.py:89-106): one line for each of the ny slices *)
Definition get_lines (start : radius) (ny : nat) : list boundary := map (Surface start) (seq 0 ny).
(** lines 39-80; a name without a value is a NameError (UnboundLocalError) *)
Definition poloidal_grid (f : flags) (ny : nat) : res (list action * pgrids) :=
  if rectangular f then Ok ([], One Rectangle)
  else if curvilinear f then
    let inner := Shaped HalfA in
    let outer := Shaped FullA in
    let inner_lines := get_lines HalfA ny in
    let outer_lines := get_lines FullA ny in
    let acts := (if inner_aligned f then [TraceInner] else []) ++ (if outer_aligned f then [TraceOuter] else []) in
    Ok (acts,
      if inner_aligned f then
        if outer_aligned f then Each (map (fun p => Elliptic (fst p) (snd p)) (combine inner_lines outer_lines))
        else Each (map (fun i => Elliptic i outer) inner_lines)
      else One (Elliptic inner outer))
  else Err NameError.
(** lines 82-101: returns None *)
Definition rotating_ellipse (f : flags) (ny : nat) : res (list action * option unit) :=
  let* g := poloidal_grid f ny in
  Ok (fst g ++ [MakeMaps (snd g); WriteMaps]
      ++ (if (curvilinear f && calc_curvature f)%bool then [Curvature] else [])
      ++ (if (calc_curvature f && smooth_curvature f)%bool then [Smooth] else [])
      ++ (if (return_iota f || write_iota f)%bool then Iota :: (if write_iota f then [WriteIota] else [PrintIota]) else []), None).
(** main (lines 104-144): the switches on the command line, by their effect; store_false for the
    four of them that are on by default, return_iota always off *)
Inductive option_name := O_curvilinear | O_rectangular | O_outer_aligned | O_inner_aligned | O_calc_curvature | O_smooth_curvature | O_write_iota.
Definition option_eqb (a b : option_name) : bool := match a, b with
  | O_curvilinear, O_curvilinear | O_rectangular, O_rectangular | O_outer_aligned, O_outer_aligned | O_inner_aligned, O_inner_aligned
  | O_calc_curvature, O_calc_curvature | O_smooth_curvature, O_smooth_curvature | O_write_iota, O_write_iota => true
  | _, _ => false end.
Definition store_true (args : list option_name) (o : option_name) : bool := existsb (option_eqb o) args.
Definition store_false (args : list option_name) (o : option_name) : bool := negb (existsb (option_eqb o) args).
Definition parse_args (args : list option_name) : flags :=
  {| curvilinear := store_false args O_curvilinear; rectangular := store_true args O_rectangular;
     inner_aligned := store_false args O_inner_aligned; outer_aligned := store_false args O_outer_aligned;
     calc_curvature := store_false args O_calc_curvature; smooth_curvature := store_true args O_smooth_curvature;
     return_iota := false; write_iota := store_true args O_write_iota |}.
Definition main (args : list option_name) (ny : nat) : res (list action * option unit) := rotating_ellipse (parse_args args) ny.
