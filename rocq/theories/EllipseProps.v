(** Property C91: rotating_ellipse. *)
From Coq Require Import List Bool.
From Verif Require Import Prelude EllipseModel EllipseProofs.
Import ListNotations.

(** Each slice's grid is between the boundaries asked for, traced ones being those of the
    slice.  Missing: the outer boundary alone. *)
Theorem C91_aligned_partial f ny : rectangular f = false -> curvilinear f = true -> (inner_aligned f = true \/ outer_aligned f = false) ->
  exists acts g, poloidal_grid f ny = Ok (acts, g) /\
    (forall i, (i < ny)%nat -> slice_grid g i = Some (Elliptic (wanted HalfA (inner_aligned f) i) (wanted FullA (outer_aligned f) i))) /\
    (In TraceInner acts <-> inner_aligned f = true) /\ (In TraceOuter acts <-> outer_aligned f = true).
Proof. exact (aligned f ny). Qed.
Print Assumptions C91_aligned_partial.
(** With it alone the outer flux surface is traced and then not used. *)
Theorem C91_outer_refuted f ny i : rectangular f = false -> curvilinear f = true -> inner_aligned f = false -> outer_aligned f = true ->
  exists acts g, poloidal_grid f ny = Ok (acts, g) /\ In TraceOuter acts /\ slice_grid g i = Some (Elliptic (Shaped HalfA) (Shaped FullA)).
Proof. exact (outer_ignored f ny i). Qed.
Print Assumptions C91_outer_refuted.
(** That grid is what the maps are made of and written, before anything is added to the file. *)
Theorem C91_grid_used f ny acts0 g acts r : poloidal_grid f ny = Ok (acts0, g) -> rotating_ellipse f ny = Ok (acts, r) ->
  exists rest, acts = acts0 ++ MakeMaps g :: WriteMaps :: rest /\ forall x, In x rest -> x = Curvature \/ x = Smooth \/ x = Iota \/ x = WriteIota \/ x = PrintIota.
Proof. exact (uses_grid f ny acts0 g acts r). Qed.
Print Assumptions C91_grid_used.
(** Neither rectangular nor curvilinear: NameError. *)
Theorem C91_no_grid f ny : rectangular f = false -> curvilinear f = false -> rotating_ellipse f ny = Err NameError.
Proof. exact (no_grid f ny). Qed.
Print Assumptions C91_no_grid.
(** Nothing is ever returned, also with return_iota; curvature is calculated for rectangular
    grids as well unless curvilinear is switched off. *)
Theorem C91_returns_refuted f ny : rectangular f = true \/ curvilinear f = true -> exists acts, rotating_ellipse f ny = Ok (acts, None) /\
  (In Smooth acts <-> calc_curvature f = true /\ smooth_curvature f = true) /\
  (In Curvature acts <-> curvilinear f = true /\ calc_curvature f = true) /\
  (In WriteIota acts <-> write_iota f = true) /\ (In PrintIota acts <-> write_iota f = false /\ return_iota f = true).
Proof. exact (runs f ny). Qed.
Print Assumptions C91_returns_refuted.
(** From the command line the switches --curvilinear, --curvilinear_inner_aligned,
    --curvilinear_outer_aligned and --calc_curvature switch off what they name; --curvilinear
    without --rectangular is the one way to fail. *)
Theorem C91_switches_refuted args : let f := parse_args args in
  (curvilinear f = true <-> ~ In O_curvilinear args) /\ (rectangular f = true <-> In O_rectangular args) /\
  (inner_aligned f = true <-> ~ In O_inner_aligned args) /\ (outer_aligned f = true <-> ~ In O_outer_aligned args) /\
  (calc_curvature f = true <-> ~ In O_calc_curvature args) /\ (smooth_curvature f = true <-> In O_smooth_curvature args) /\
  (write_iota f = true <-> In O_write_iota args) /\ return_iota f = false.
Proof. exact (main_switches args). Qed.
Print Assumptions C91_switches_refuted.
Theorem C91_main_fails args ny : main args ny = Err NameError <-> In O_curvilinear args /\ ~ In O_rectangular args.
Proof. exact (main_fails args ny). Qed.
Print Assumptions C91_main_fails.
Example C91_example : let f := {| curvilinear := true; rectangular := false; inner_aligned := true; outer_aligned := false;
    calc_curvature := true; smooth_curvature := false; return_iota := true; write_iota := false |} in
  poloidal_grid f 2 = Ok ([TraceInner], Each [Elliptic (Surface HalfA 0) (Shaped FullA); Elliptic (Surface HalfA 1) (Shaped FullA)]).
Proof. reflexivity. Qed.
Example C91_example_main : main [O_curvilinear] 4 = Err NameError /\ exists l, main [O_rectangular] 4 = Ok (l, None).
Proof. split; [reflexivity|eexists; reflexivity]. Qed.
