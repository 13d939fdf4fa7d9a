(** Model of zoidberg/grid.py: class Grid (40-219) and the y coordinates of
    rectangular_grid (222-258).  Poloidal grids are values of an arbitrary type
    [G]; their metric is an oracle.  Coordinates are exact rationals. *)
From Coq Require Import List ZArith QArith Qabs Qround Bool.
From Verif Require Import Prelude.
Import ListNotations.

Section Grid.
Variable G : Type.

(** grid.py:40-58.  [poloidal_grids] is a list (line 41-42 turns a single grid
    into a list of copies; see [Grid_init_single]). *)
Record grid := { poloidal_grids : list G; ycoords : list Q; Ly : Q; yperiodic : bool }.

(** grid.py:41-55 with a list of grids: the assertion on lengths (45); line 47
    reads poloidal_grids[0]. *)
Definition Grid_init (pols : list G) (ys : list Q) (L : Q) (per : bool) : res grid :=
  if Nat.eqb (length ys) (length pols) then
    match pols with
    | [] => Err IndexError
    | _ => Ok {| poloidal_grids := pols; ycoords := ys; Ly := L; yperiodic := per |}
    end
  else Err AssertionError.

(** grid.py:41-42: one grid used for every y coordinate. *)
Definition Grid_init_single (pol : G) (ys : list Q) (L : Q) (per : bool) : res grid :=
  Grid_init (map (fun _ => pol) ys) ys L per.

(** grid.py:77 *)
Definition ny (g : grid) : Z := Z.of_nat (length (ycoords g)).

(** [self.poloidal_grids[k], self.ycoords[k] + shift] for a non-negative [k];
    IndexError outside the arrays. *)
Definition slice (g : grid) (k : Z) (shift : Q) : res (option G * Q) :=
  match nth_error (poloidal_grids g) (Z.to_nat k), nth_error (ycoords g) (Z.to_nat k) with
  | Some p, Some y => Ok (Some p, y + shift)
  | _, _ => Err IndexError
  end.

(** grid.py:79-132.  The function calls itself (104-105) with [floor] and
    [floor + 1]; [fuel] bounds the depth of that recursion and running out of
    it is Python's RecursionError. *)
Fixpoint getPoloidalGrid_rec (fuel : nat) (g : grid) (yindex : Q) : res (option G * Q) :=
  match fuel with
  | O => Err RecursionError
  | S fuel' =>
    let yindexint := Qtrunc yindex in
    if Qlt_bool (1#1000000) (Qabs (inject_Z yindexint - yindex)) then
      let floor := Qfloor yindex in
      let* up := getPoloidalGrid_rec fuel' g (inject_Z floor + 1) in
      let* down := getPoloidalGrid_rec fuel' g (inject_Z floor) in
      let yup := snd up in
      let ydown := snd down in
      let fac := yindex - inject_Z floor in
      Ok (None, ydown + (yup - ydown) * (1 - fac))
    else if (Qle_bool 0 yindex && Qlt_bool yindex (inject_Z (ny g)))%bool then
      slice g yindexint 0
    else if yperiodic g then
      let y_remap := (yindexint mod ny g)%Z in
      let nperiods := Qfloor (yindex / inject_Z (ny g)) in
      slice g y_remap (inject_Z nperiods * Ly g)
    else if Qlt_bool yindex 0 then Ok (None, 0)
    else Ok (None, Ly g)
  end.

(** Python's own limit is about 1000 frames; two levels are enough, as
    [getPoloidalGrid_fuel] in GridProofs shows. *)
Definition getPoloidalGrid (g : grid) (yindex : Q) : res (option G * Q) :=
  getPoloidalGrid_rec 2 g yindex.

(** numpy.gradient with unit spacing: one-sided at both ends, central inside.
    Fewer than two points: ValueError. *)
Definition gradient (l : list Q) : res (list Q) :=
  let n := length l in
  if Nat.ltb n 2 then Err ValueError
  else Ok (map (fun i =>
      if Nat.eqb i 0 then nth 1 l 0 - nth 0 l 0
      else if Nat.eqb i (n - 1) then nth (n - 1) l 0 - nth (n - 2) l 0
      else (nth (i + 1) l 0 - nth (i - 1) l 0) / 2) (seq 0 n)).

(** grid.py:186-193 *)
Definition metric_dy (g : grid) : res (list Q) :=
  let ys := ycoords g in
  let ycoords3 := map (fun y => y - Ly g) ys ++ ys ++ map (fun y => y + Ly g) ys in
  let n := length ys in
  if Nat.eqb n 1 then Ok [Ly g]
  else gradient (firstn (2 * n - n) (skipn n ycoords3)).

(** ** Gathering the slices' metrics, grid.py:146-219 *)

(** What a poloidal grid's [metric()] returns: components as functions of
    (x, z) (scalars are constant functions: numpy broadcasting), J optional. *)
Record pol_metric := {
  p_dx : Z -> Z -> Q; p_dz : Z -> Z -> Q;
  p_gxx : Z -> Z -> Q; p_gxz : Z -> Z -> Q; p_gzz : Z -> Z -> Q;
  p_g_xx : Z -> Z -> Q; p_g_xz : Z -> Z -> Q; p_g_zz : Z -> Z -> Q;
  p_J : option (Z -> Z -> Q) }.

Record metric := {
  m_dx : Z -> Z -> Z -> Q; m_dy : Z -> Z -> Z -> Q; m_dz : Z -> Z -> Z -> Q;
  m_gyy : Z -> Z -> Z -> Q; m_g_yy : Z -> Z -> Z -> Q;
  m_gxx : Z -> Z -> Z -> Q; m_g_xx : Z -> Z -> Z -> Q;
  m_gxz : Z -> Z -> Z -> Q; m_g_xz : Z -> Z -> Z -> Q;
  m_gzz : Z -> Z -> Z -> Q; m_g_zz : Z -> Z -> Z -> Q;
  m_J : option (Z -> Z -> Z -> Q) }.

(** [a[:, y, :] = v] *)
Definition put (a : Z -> Z -> Z -> Q) (y : Z) (v : Z -> Z -> Q) : Z -> Z -> Z -> Q :=
  fun x y' z => if Z.eqb y' y then v x z else a x y' z.

Definition zeros3 : Z -> Z -> Z -> Q := fun _ _ _ => 0.

(** The arrays filled by the loop of lines 163-182 and the counter [has_J]. *)
Record gathered := {
  a_dx : Z -> Z -> Z -> Q; a_dz : Z -> Z -> Z -> Q;
  a_gxx : Z -> Z -> Z -> Q; a_gxz : Z -> Z -> Z -> Q; a_gzz : Z -> Z -> Z -> Q;
  a_g_xx : Z -> Z -> Z -> Q; a_g_xz : Z -> Z -> Z -> Q; a_g_zz : Z -> Z -> Z -> Q;
  a_J : Z -> Z -> Z -> Q; has_J : Z }.

Definition gathered0 : gathered :=
  {| a_dx := zeros3; a_dz := zeros3; a_gxx := zeros3; a_gxz := zeros3; a_gzz := zeros3;
     a_g_xx := zeros3; a_g_xz := zeros3; a_g_zz := zeros3; a_J := zeros3; has_J := 0 |}.

Variable pol_metric_of : G -> pol_metric.

(** Body of the loop, grid.py:164-182. *)
Definition gather_slice (g : grid) (s : gathered) (y : Z) : res gathered :=
  let* pg := getPoloidalGrid g (inject_Z y) in
  match fst pg with
  | None => Err TypeError
  | Some p =>
    let m := pol_metric_of p in
    let s1 J hj := {| a_dx := put (a_dx s) y (p_dx m); a_dz := put (a_dz s) y (p_dz m);
       a_gxx := put (a_gxx s) y (p_gxx m); a_gxz := put (a_gxz s) y (p_gxz m);
       a_gzz := put (a_gzz s) y (p_gzz m); a_g_xx := put (a_g_xx s) y (p_g_xx m);
       a_g_xz := put (a_g_xz s) y (p_g_xz m); a_g_zz := put (a_g_zz s) y (p_g_zz m);
       a_J := J; has_J := hj |} in
    match p_J m with
    | Some J =>
      let hj := (has_J s + 1)%Z in
      if (0 <? hj)%Z then Ok (s1 (put (a_J s) y J) hj) else Err AssertionError
    | None =>
      let hj := (has_J s - 1)%Z in
      if (hj <? 0)%Z then Ok (s1 (a_J s) hj) else Err AssertionError
    end
  end.

(** grid.py:146-219, on an empty cache (the cache itself is part of the state
    in GetMetricModel). *)
Definition grid_metric (g : grid) : res metric :=
  let* s := foldM (gather_slice g) (zrange 0 (ny g)) gathered0 in
  let* dy := metric_dy g in
  Ok {| m_dx := a_dx s; m_dy := fun _ y _ => nth (Z.to_nat y) dy 0; m_dz := a_dz s;
        m_gyy := fun _ _ _ => 1; m_g_yy := fun _ _ _ => 1;
        m_gxx := a_gxx s; m_g_xx := a_g_xx s; m_gxz := a_gxz s; m_g_xz := a_g_xz s;
        m_gzz := a_gzz s; m_g_zz := a_g_zz s;
        m_J := if (0 <? has_J s)%Z then Some (a_J s) else None |}.

End Grid.

Arguments poloidal_grids {G}. Arguments ycoords {G}. Arguments Ly {G}. Arguments yperiodic {G}.
Arguments Build_grid {G}. Arguments ny {G}. Arguments slice {G}.
Arguments Grid_init {G}. Arguments Grid_init_single {G}.
Arguments getPoloidalGrid_rec {G}. Arguments getPoloidalGrid {G}. Arguments metric_dy {G}.
Arguments gather_slice {G}. Arguments grid_metric {G}.

(** y coordinates of rectangular_grid, grid.py:252-256: [np.linspace(0, Ly, ny,
    endpoint=False)] when periodic, otherwise cell centres. *)
Definition rectangular_ycoords (n : nat) (L : Q) (per : bool) : list Q :=
  if per then map (fun j => inject_Z (Z.of_nat j) * (L / inject_Z (Z.of_nat n))) (seq 0 n)
  else map (fun j => (inject_Z (Z.of_nat j) + (1#2)) * L / inject_Z (Z.of_nat n)) (seq 0 n).

(** grid.py:222-258; the poloidal grid itself is built by the oracle argument. *)
Definition rectangular_grid {G} (pol : G) (n : nat) (L : Q) (per : bool) : res (grid G) :=
  Grid_init_single pol (rectangular_ycoords n L per) L per.
