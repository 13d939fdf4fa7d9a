(** Metrics: RectangularPoloidalGrid.metric (poloidal_grid.py:232-254),
    StructuredPoloidalGrid.metric (poloidal_grid.py:475-539) and get_metric
    (zoidberg.py:432-470) with the cache of Grid.metric (grid.py:146-147, 202-219). *)
From Coq Require Import List ZArith QArith Bool.
From Verif Require Import Prelude GridModel.
Import ListNotations.
Open Scope Q_scope.

(** poloidal_grid.py:245-254 *)
Definition rect_metric (dR dZ : Q) : pol_metric :=
  {| p_dx := fun _ _ => dR; p_dz := fun _ _ => dZ;
     p_gxx := fun _ _ => 1; p_g_xx := fun _ _ => 1; p_gxz := fun _ _ => 0; p_g_xz := fun _ _ => 0;
     p_gzz := fun _ _ => 1; p_g_zz := fun _ _ => 1; p_J := None |}.

(** All index pairs of an nx by nz array. *)
Definition cells2 (nx nz : nat) : list (Z * Z) :=
  flat_map (fun x => map (fun z => (x, z)) (zrange 0 (Z.of_nat nz))) (zrange 0 (Z.of_nat nx)).
Definition all_cells (nx nz : nat) (p : Z -> Z -> bool) : bool :=
  forallb (fun c => p (fst c) (snd c)) (cells2 nx nz).

(** poloidal_grid.py:475-539.  [Rx Zx Rz Zz] are getCoordinate's derivatives
    (lines 491-493) over the whole grid.  The square root of line 498 is
    overwritten at once (500-501) and left out.  numpy.linalg.inv and det are
    the 2x2 inverse and determinant. *)
Definition struct_metric (nx nz : nat) (Rx Zx Rz Zz : Z -> Z -> Q) : res pol_metric :=
  let ddx := 1 / inject_Z (Z.of_nat nx) in
  let ddz := 1 / inject_Z (Z.of_nat nz) in
  let J00 x z := Rx x z / ddx in
  let J01 x z := Zx x z / ddx in
  let J10 x z := Rz x z / ddz in
  let J11 x z := Zz x z / ddz in
  let g00 x z := J00 x z * J00 x z + J01 x z * J01 x z in
  let g01 x z := J10 x z * J00 x z + J11 x z * J01 x z in
  let g10 x z := J00 x z * J10 x z + J01 x z * J11 x z in
  let g11 x z := J10 x z * J10 x z + J11 x z * J11 x z in
  let det x z := g00 x z * g11 x z - g01 x z * g10 x z in
  if negb (all_cells nx nz (fun x z => Qlt_bool 0 (g00 x z))) then Err AssertionError
  else if negb (all_cells nx nz (fun x z => Qlt_bool 0 (g11 x z))) then Err AssertionError
  else if negb (all_cells nx nz (fun x z => Qlt_bool 0 (det x z))) then Err AssertionError
  else Ok {| p_dx := fun _ _ => ddx; p_dz := fun _ _ => ddz;
     p_gxx := fun x z => g11 x z / det x z; p_g_xx := g00;
     p_gxz := fun x z => - g01 x z / det x z; p_g_xz := g01;
     p_gzz := fun x z => g00 x z / det x z; p_g_zz := g11; p_J := None |}.

(** ** get_metric *)

Definition arr3 := Z -> Z -> Z -> Q.

(** The dictionary: the components of Grid.metric and what get_metric adds. *)
Record mdict := { md : metric; md_field : option (arr3 * arr3 * arr3) }.

Definition set_yy (m : metric) (gyy g_yy : arr3) : metric :=
  {| m_dx := m_dx m; m_dy := m_dy m; m_dz := m_dz m; m_gyy := gyy; m_g_yy := g_yy;
     m_gxx := m_gxx m; m_g_xx := m_g_xx m; m_gxz := m_gxz m; m_g_xz := m_g_xz m;
     m_gzz := m_gzz m; m_g_zz := m_g_zz m; m_J := m_J m |}.

Section GetMetric.
Variable G : Type.
Variable pm : G -> pol_metric.
(** magnetic_field.Rfunc/Bmag/pressure/Byfunc on the plane of a poloidal grid at
    y.  [Rfunc = None]: Cartesian, Rfunc returns None everywhere. *)
Variable Rfunc : option (G -> Q -> Z -> Z -> Q).
Variable Bmag pressure Byfunc : G -> Q -> Z -> Z -> Q.
Variable sqrt : Q -> Q.
Variable g : grid G.

(** [for yindex: a[:, yindex, :] = f(pol_grid.R, pol_grid.Z, ypos)] *)
Definition per_slice (f : G -> Q -> Z -> Z -> Q) : res arr3 :=
  foldM (fun a y =>
      let* py := getPoloidalGrid g (inject_Z y) in
      match fst py with
      | None => Err TypeError
      | Some p => Ok (put a y (f p (snd py)))
      end) (zrange 0 (ny g)) zeros3.

(** zoidberg.py:460-461: in-place scaling of the slices by [f]. *)
Definition scale_slices (f : G -> Q -> Z -> Z -> Q) (a : arr3) : res arr3 :=
  foldM (fun a y =>
      let* py := getPoloidalGrid g (inject_Z y) in
      match fst py with
      | None => Err TypeError
      | Some p => Ok (put a y (fun x z => a x y z * f p (snd py) x z))
      end) (zrange 0 (ny g)) a.

(** zoidberg.py:432-470.  The state is the grid's [_metric_cache]; the returned
    dictionary *is* that cache, so it is returned and stored as one value. *)
Definition get_metric (cache : option mdict) : res (mdict * arr3) :=
  let* m0 := match cache with
             | Some m => Ok m
             | None => let* m := grid_metric pm g in Ok {| md := m; md_field := None |}
             end in
  let* m1 := match Rfunc with
             | None => Ok (md m0)
             | Some R =>
               let* Rmaj := per_slice R in
               Ok (set_yy (md m0) (fun x y z => 1 / (Rmaj x y z * Rmaj x y z)) (fun x y z => Rmaj x y z * Rmaj x y z))
             end in
  let* B := per_slice Bmag in
  let* P := per_slice pressure in
  let* g_yy := scale_slices (fun p y x z => Bmag p y x z / Byfunc p y x z * (Bmag p y x z / Byfunc p y x z)) (m_g_yy m1) in
  let* gyy := scale_slices (fun p y x z => Byfunc p y x z / Bmag p y x z * (Byfunc p y x z / Bmag p y x z)) (m_gyy m1) in
  let m := set_yy m1 gyy g_yy in
  Ok ({| md := m; md_field := Some (B, B, P) |},
      fun x y z => B x y z * sqrt (m_g_xx m x y z * m_g_zz m x y z - m_g_xz m x y z * m_g_xz m x y z)).

(** A history: calls of get_metric and cache resets (zoidberg.py:617,
    [self.grid._metric_cache = None]).  The list of returned metrics. *)
Inductive op := Get | ResetCache.
Fixpoint history (ops : list op) (cache : option mdict) : res (list mdict) :=
  match ops with
  | [] => Ok []
  | ResetCache :: t => history t None
  | Get :: t => let* r := get_metric cache in
                let* rest := history t (Some (fst r)) in
                Ok (fst r :: rest)
  end.
End GetMetric.
