(** make_surfaces and write_Bfield_to_vtk (zoidberg.py:801-841, 874-933), plot_streamlines and AnimateVectorField
    (plot.py:203-301): what they hand to scipy, pyevtk and matplotlib.  Not modelled: labels, file names and extra keyword arguments. *)
From Coq Require Import String List ZArith QArith Bool.
From Verif Require Import Prelude GridModel MapsModel TracerModel VtkModel.
Import ListNotations.
Open Scope Q_scope.

(** the attributes these functions read; None: the object does not have it *)
Record grid_object := { o_xcentre : option Q; o_zcentre : option Q; o_xarray : option (list Q); o_yarray : option (list Q); o_zarray : option (list Q);
                        o_x_3d : option nd3; o_ny : option nat; o_Ly : option Q }.
Record field_object := { o_bx : option nd3; o_by : option nd3; o_bz : option nd3; o_b_mag : option nd3 }.
(** AttributeError *)
Definition attr {A} (a : option A) : res A := match a with Some a => Ok a | None => Err OtherError end.
(** An object of class Grid (grid.py:40-60): poloidal_grids, ycoords, Ly, yperiodic, shape and the metric, so of the above only Ly *)
Definition of_grid {G} (g : grid G) : grid_object :=
  {| o_xcentre := None; o_zcentre := None; o_xarray := None; o_yarray := None; o_zarray := None; o_x_3d := None; o_ny := None; o_Ly := Some (Ly g) |}.

(** np.max of a list *)
Definition amax (l : list Q) : res Q :=
  match l with [] => Err ValueError | a :: t => Ok (fold_left (fun m b => if Qlt_bool m b then b else m) t a) end.
(** an array of n0 x n2 numbers is broadcast to the shape of a[:, y, :] *)
Definition fits (have want : nat) : bool := ((have =? want) || (have =? 1))%nat%bool.
Definition pick (have : nat) (i : Z) : Z := if (have =? 1)%nat then 0%Z else i.
(** a[:, y, :] = v for v with m0 x m2 entries *)
Definition put_plane (a : nd3) (y : nat) (m0 m2 : nat) (v : Z -> Z -> Q) : res nd3 :=
  if negb (y <? n1 a)%nat then Err IndexError
  else if negb (fits m0 (n0 a) && fits m2 (n2 a)) then Err ValueError
  else Ok {| n0 := n0 a; n1 := n1 a; n2 := n2 a;
             at3 := fun i j k => if (j =? Z.of_nat y)%Z then v (pick m0 i) (pick m2 k) else at3 a i j k |}.
Definition entry (l : list Q) (i : Z) : Q := nth (Z.to_nat i) l 0.

Section Surfaces.
Variable odeint : list Q -> list Q -> list (list Q).
Variable limit : nat.
(** griddata(points, values, (x, z), method="linear", fill_value=1): the interpolated value at x, z, or an error of Qhull *)
Variable griddata : list (Q * Q) -> list Q -> res (Q -> Q -> Q).

(** zoidberg.py:897-905: the y values of all revolutions *)
Definition phi_values (g : grid_object) (yarray : list Q) (revs : nat) : res (list Q) :=
  foldM (fun phi n => let* L := attr (o_Ly g) in let* ny := attr (o_ny g) in Ok (phi ++ map (fun y => inject_Z (Z.of_nat n) * L + y) (firstn ny phi))%list)
    (seq 1 (revs - 1)) yarray.
(** zoidberg.py:915-917: psi of a surface; float division *)
Definition psi_of (nsurfaces surf : nat) : res Q :=
  if (nsurfaces =? 1)%nat then Err ZeroDivisionError else Ok (inject_Z (Z.of_nat surf) / inject_Z (Z.of_nat nsurfaces - 1)).
(** zoidberg.py:874-933; the number of surfaces and of revolutions not negative *)
Definition make_surfaces (g : grid_object) (nsurfaces revs : nat) : res nd3 :=
  let* xc := attr (o_xcentre g) in
  let* xarray := attr (o_xarray g) in
  let* m := amax xarray in
  let xpos := map (fun d => xc + d) (linspace ((1 # 2) * m) nsurfaces true) in
  let* zpos := attr (o_zcentre g) in
  let* yarray := attr (o_yarray g) in
  let* phi := phi_values g yarray revs in
  let* points := follow odeint limit {| shape := [nsurfaces]; data := xpos |} {| shape := [1%nat]; data := [zpos] |} phi in
  let* ny := attr (o_ny g) in
  let* points := reshape [revs; ny; nsurfaces; 2%nat] (data points) in
  let point n y s c := nth (((n * ny + y) * nsurfaces + s) * 2 + c) (data points) 0 in
  let* psis := mapM (psi_of nsurfaces) (seq 0 nsurfaces) in
  let* zarray := attr (o_zarray g) in
  let* x3 := attr (o_x_3d g) in
  let samples := list_prod (seq 0 revs) (seq 0 nsurfaces) in
  foldM (fun psi y =>
      let* f := griddata (map (fun p => (point (fst p) y (snd p) 0%nat, point (fst p) y (snd p) 1%nat)) samples)
                         (map (fun p => nth (snd p) psis 0) samples) in
      put_plane psi y (List.length xarray) (List.length zarray) (fun i k => f (entry xarray i) (entry zarray k)))
    (seq 0 ny) {| n0 := n0 x3; n1 := n1 x3; n2 := n2 x3; at3 := fun _ _ _ => 0 |}.

(** zoidberg.py:801-841: axes, components of B, psi.  Without pyevtk there is no gridToVTK *)
Definition write_Bfield_to_vtk (have_evtk : bool) (g : grid_object) (f : field_object) (scale : Q) (psi : bool) : res (vtk * option nd3) :=
  let* bx := attr (o_bx f) in
  let* by_ := attr (o_by f) in
  let* bz := attr (o_bz f) in
  let* surfaces := if psi then let* s := make_surfaces g 10 100 in Ok (Some s) else Ok None in
  if negb have_evtk then Err NameError
  else
  let* xarray := attr (o_xarray g) in
  let* yarray := attr (o_yarray g) in
  let* zarray := attr (o_zarray g) in
  Ok ({| v_x := map (fun q => q * scale) xarray; v_y := yarray; v_z := map (fun q => q * scale) zarray; v_B := (times bx scale, by_, times bz scale) |}, surfaces).
End Surfaces.

Section Streams.
Variable sqrt : Q -> Q.
(** what streamplot gets: the axes, the components and the widths of the lines, [row][column] *)
Record streams := { s_x : list Q; s_z : list Q; s_u : Z -> Z -> Q; s_v : Z -> Z -> Q; s_width : Z -> Z -> Q }.
(** a[:, y, :].T; a negative y counts from the end *)
Definition slice_T (a : nd3) (y : Z) : res (Z -> Z -> Q) :=
  if ((- Z.of_nat (n1 a) <=? y) && (y <? Z.of_nat (n1 a)))%Z%bool then let j := if (y <? 0)%Z then (y + Z.of_nat (n1 a))%Z else y in Ok (fun r c => at3 a c j r)
  else Err IndexError.
(** all entries *)
Definition entries (a : nd3) : list Q :=
  flat_map (fun i => flat_map (fun j => map (fun k => at3 a i j k) (zrange 0 (Z.of_nat (n2 a)))) (zrange 0 (Z.of_nat (n1 a)))) (zrange 0 (Z.of_nat (n0 a))).
(** plot.py:203-254.  Without matplotlib AttributeError, because warnings.warning does not exist.  Simplified: b_mag and by
    have the same shape; a negative radicand gives NaN in the code *)
Definition plot_streamlines (have_plt : bool) (g : grid_object) (f : field_object) (y_slice : Z) (width : option Q) : res streams :=
  if negb have_plt then Err OtherError
  else
  let* w := match width with
    | None => Ok (fun _ _ => 1)
    | Some width =>
      let* bm := attr (o_b_mag f) in
      let* by_ := attr (o_by f) in
      let bxz := {| n0 := n0 bm; n1 := n1 bm; n2 := n2 bm; at3 := fun i j k => sqrt (at3 bm i j k * at3 bm i j k - at3 by_ i j k * at3 by_ i j k) |} in
      let* s := slice_T bxz y_slice in
      let* m := amax (entries bxz) in
      Ok (fun r c => width * (s r c / m))
    end in
  let* xarray := attr (o_xarray g) in
  let* zarray := attr (o_zarray g) in
  let* bx := attr (o_bx f) in
  let* u := slice_T bx y_slice in
  let* bz := attr (o_bz f) in
  let* v := slice_T bz y_slice in
  Ok {| s_x := xarray; s_z := zarray; s_u := u; s_v := v; s_width := w |}.
End Streams.

(** AnimateVectorField, plot.py:257-301: the arrows shown first, and then those of each frame.  U[0, ...] of an empty array:
    IndexError.  FuncAnimation calls the update with 0, 1, ...; frames of V that are missing: IndexError.  Without matplotlib
    there is no plt *)
Definition frame (a : nd3) (n : nat) : res (Z -> Z -> Q) := if (n <? n0 a)%nat then Ok (fun r c => at3 a (Z.of_nat n) c r) else Err IndexError.
Definition quiver (U V : nd3) (n : nat) : res ((Z -> Z -> Q) * (Z -> Z -> Q)) := let* u := frame U n in let* v := frame V n in Ok (u, v).
Definition animate (have_plt : bool) (U V : nd3) : res (list ((Z -> Z -> Q) * (Z -> Z -> Q))) :=
  if negb have_plt then Err NameError
  else
  let* first := quiver U V 0 in
  let* rest := mapM (quiver U V) (seq 0 (n0 U)) in
  Ok (first :: rest).
