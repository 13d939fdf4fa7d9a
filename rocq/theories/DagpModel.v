(** Model of /repo/zoidberg/stencil_dagp_fv.py: the finite-volume operator
    for perpendicular diffusion.

    Arrays are functions of their integer indices (i: radial, j: poloidal
    grid number, k: poloidal index), floats are exact rationals.  The square
    root is an oracle.  Not modelled: printing, timing, tqdm, plotting, the
    netCDF reader (a file is a dictionary), NaN: where the code divides by the
    length of a zero-length edge the model divides by zero and gets zero, so
    theorems about [doit] ask for edges of non-zero length. *)
From Coq Require Import List ZArith QArith Bool String.
From Verif Require Import Prelude.
Import ListNotations.
Local Open Scope string_scope.
Local Open Scope list_scope.
Open Scope Q_scope.

Definition injz (i : Z) : Q := inject_Z i.

(** What [doit] uses of a poloidal grid: sizes, [getCoordinate] without
    derivatives, the arrays [R] and [Z], and, for a RectangularPoloidalGrid,
    [Lz] (poloidal_grid.py:91-254; StructuredPoloidalGrid has no [Lz]). *)
Record pol := {
  p_nx : Z; p_nz : Z;
  p_coord : Q -> Q -> Q * Q;
  p_R : Z -> Z -> Q; p_Z : Z -> Z -> Q;
  p_Lz : option Q }.

(** A three-dimensional array, and one of two-vectors. *)
Notation arr := (Z -> Z -> Z -> Q).
Notation varr := (Z -> Z -> Z -> Q * Q).

(** stencil_dagp_fv.py:69-75 getSame, on numbers: [np.min], [np.max]; an empty
    list makes [np.min] raise ValueError. *)
Definition qmin (a b : Q) : Q := if Qle_bool a b then a else b.
Definition qmax (a b : Q) : Q := if Qle_bool a b then b else a.
Definition getSame (lst : list Q) : res Q :=
  match lst with
  | [] => Err ValueError
  | a :: l =>
      let val := fold_left qmin l a in
      if negb (Qeq_bool val (fold_left qmax l a)) then Err ValueError else Ok val
  end.

(** [isinstance(pol, RectangularPoloidalGrid)] as a number (numpy's min and
    max of booleans). *)
Definition is_rect (p : pol) : Q := match p_Lz p with Some _ => 1 | None => 0 end.
Definition lz_of (p : pol) : Q := match p_Lz p with Some l => l | None => 0 end.

(** stencil_dagp_fv.py:81-85.  [lz_of] is only used when all grids are
    rectangular. *)
Definition common_Lz (pols : list pol) : res (option Q) :=
  let* r := getSame (map is_rect pols) in
  if Qeq_bool r 1 then (let* l := getSame (map lz_of pols) in Ok (Some l)) else Ok None.

(** [np.linspace(a, b, 12)], stencil_dagp_fv.py:97 [n = 12]. *)
Definition linspace12 (a b : Q) : list Q :=
  map (fun m => a + inject_Z (Z.of_nat m) * ((b - a) / 11)) (seq 0 12).

(** The points around one cell, stencil_dagp_fv.py:98-114. *)
Definition around (i k : Z) : list (Q * Q) :=
  let x0 := injz i in let y0 := injz k in
  map (fun x => (x, y0 + (1#2))) (linspace12 (x0 - (1#2)) (x0 + (1#2)))
  ++ map (fun y => (x0 + (1#2), y)) (linspace12 (y0 + (1#2)) (y0 - (1#2)))
  ++ map (fun x => (x, y0 - (1#2))) (linspace12 (x0 + (1#2)) (x0 - (1#2)))
  ++ map (fun y => (x0 - (1#2), y)) (linspace12 (y0 - (1#2)) (y0 + (1#2))).

(** [a[:-1]] paired with [a[1:]]. *)
Fixpoint pairs {A} (l : list A) : list (A * A) :=
  match l with
  | a :: ((b :: _) as t) => (a, b) :: pairs t
  | _ => []
  end.

(** stencil_dagp_fv.py:115-123: one entry of [Ar]. *)
Definition cell_volume (isSlab : bool) (p : pol) (i k : Z) : Q :=
  let RZ := map (fun q => p_coord p (fst q) (snd q)) (around i k) in
  - qsum (map (fun ab : (Q * Q) * (Q * Q) =>
      let dy := snd (snd ab) - snd (fst ab) in
      let xx := (fst (fst ab) + fst (snd ab)) / 2 in
      if isSlab then xx * dy else (1#2) * xx * xx * dy) (pairs RZ)).

(** stencil_dagp_fv.py:91 and 121-123: [np.empty], of which [[1:-1]] is
    filled. *)
Definition volume (junk : arr) (isSlab : bool) (nx : Z) (pol_at : Z -> pol) : arr :=
  fun i j k =>
    if ((1 <=? i) && (i <? nx - 1))%Z then cell_volume isSlab (pol_at j) i k
    else junk i j k.

(** The points of one face: stencil_dagp_fv.py:164-174 (faces towards larger
    x; index k - 1/2 + t) and 222-231 (faces towards larger z; face row i
    starts at x index i + 1/2). *)
Definition face_x (p : pol) (i k : Z) : list (Q * Q) :=
  map (fun t => p_coord p (injz i + (1#2)) (injz k - (1#2) + t)) (linspace12 0 1).
Definition face_z (p : pol) (i k : Z) : list (Q * Q) :=
  map (fun t => p_coord p (injz i + (1#2) + t) (injz k + (1#2))) (linspace12 0 1).

Section Oracle.
Variable sqrt : Q -> Q.

(** stencil_dagp_fv.py:177-189 and 233-245: one edge piece gives its normal,
    scaled to unit length and multiplied by its area; [rot] is the rotation
    (line 186 or 242). *)
Definition edge_normal (isSlab : bool) (rot : Q * Q -> Q * Q) (ab : (Q * Q) * (Q * Q)) : Q * Q :=
  let dR := (fst (fst ab) - fst (snd ab), snd (fst ab) - snd (snd ab)) in
  let dX := sqrt (fst dR * fst dR + snd dR * snd dR) in
  let area := if isSlab then dX else dX * (fst (snd ab) + fst (fst ab)) * (1#2) in
  let n := rot dR in
  let len := sqrt (fst n * fst n + snd n * snd n) in
  (fst n / len * area, snd n / len * area).

Definition rot_x (d : Q * Q) : Q * Q := (- snd d, fst d).   (* line 186 *)
Definition rot_z (d : Q * Q) : Q * Q := (snd d, - fst d).   (* line 242 *)

Definition vsum (l : list (Q * Q)) : Q * Q := (qsum (map fst l), qsum (map snd l)).

(** [dRr], lines 186-189 and 242-245. *)
Definition normal (isSlab : bool) (rot : Q * Q -> Q * Q) (points : list (Q * Q)) : Q * Q :=
  vsum (map (edge_normal isSlab rot) (pairs points)).

(** [np.roll(a, s, axis=-1)]. *)
Definition roll {A} (nz s : Z) (a : Z -> Z -> Z -> A) : Z -> Z -> Z -> A :=
  fun i j k => a i j ((k - s) mod nz)%Z.

Definition vadd (a b : Q * Q) : Q * Q := (fst a + fst b, snd a + snd b).
Definition vsub (a b : Q * Q) : Q * Q := (fst a - fst b, snd a - snd b).
Definition vscale (c : Q) (a : Q * Q) : Q * Q := (c * fst a, c * snd a).

(** stencil_dagp_fv.py:194-196 and 250-252: applied to every number of the
    array, the R differences included. *)
Definition unwrap1 (Lz : option Q) (d : Q) : Q :=
  match Lz with
  | None => d
  | Some L =>
      let d1 := if Qlt_bool d (- L / 2) then d + L else d in
      if Qlt_bool (L / 2) d1 then d1 - L else d1
  end.
Definition unwrap (Lz : option Q) (d : Q * Q) : Q * Q :=
  (unwrap1 Lz (fst d), unwrap1 Lz (snd d)).

(** stencil_dagp_fv.py:141: the grid points. *)
Definition points (pol_at : Z -> pol) : varr :=
  fun i j k => (p_R (pol_at j) i k, p_Z (pol_at j) i k).

(** Difference vectors at the x faces, lines 192-197. *)
Definition dx_at_x (RZ : varr) : varr := fun i j k => vsub (RZ (i + 1)%Z j k) (RZ i j k).
Definition dz_at_x (nz : Z) (Lz : option Q) (RZ : varr) : varr :=
  let dzR := fun i j k => unwrap Lz (vsub (roll nz (-1) RZ i j k) (roll nz 1 RZ i j k)) in
  fun i j k => vscale (1#2) (vadd (dzR (i + 1)%Z j k) (dzR i j k)).

(** Difference vectors at the z faces, lines 247-252. *)
Definition dx_at_z (nz : Z) (RZ : varr) : varr :=
  let dxR := fun i j k => vsub (RZ (i + 2)%Z j k) (RZ i j k) in
  fun i j k => vscale (1#2) (vadd (roll nz (-1) dxR i j k) (dxR i j k)).
Definition dz_at_z (nz : Z) (Lz : option Q) (RZ : varr) : varr :=
  let d := fun i j k => vsub (roll nz (-1) RZ i j k) (RZ i j k) in
  fun i j k => unwrap Lz (d (i + 1)%Z j k).

(** [np.linalg.solve] of the two-by-two system with columns [dx], [dz]
    (lines 200-201, 254-257); a singular matrix raises LinAlgError. *)
Definition solve2 (dx dz b : Q * Q) : option (Q * Q) :=
  let det := fst dx * snd dz - fst dz * snd dx in
  if Qeq_bool det 0 then None
  else Some ((fst b * snd dz - fst dz * snd b) / det,
             (fst dx * snd b - fst b * snd dx) / det).

(** Solving all systems of an array of shape (n, ny, nz): one singular matrix
    makes the call raise (the retry of lines 258-269 raises again). *)
Definition indices (n ny nz : Z) : list (Z * Z * Z) :=
  flat_map (fun i => flat_map (fun j => map (fun k => (i, j, k)) (zrange 0 nz))
    (zrange 0 ny)) (zrange 0 n).
Definition solve (n ny nz : Z) (dx dz b : varr) : res varr :=
  if forallb (fun ijk => match ijk with (i, j, k) =>
       match solve2 (dx i j k) (dz i j k) (b i j k) with Some _ => true | None => false end end)
     (indices n ny nz)
  then Ok (fun i j k => match solve2 (dx i j k) (dz i j k) (b i j k) with
                        | Some c => c | None => (0, 0) end)
  else Err OtherError.

(** stencil_dagp_fv.py:306-335 in [test], for any input array [inp] (the code
    uses sin R): the flux-form operator times the volume. *)
Definition flux_x (nz : Z) (coefsX : varr) (inp : arr) : arr :=
  let dz2 := fun i j k => roll nz (-1) inp i j k - roll nz 1 inp i j k in
  let dx := fun i j k => inp (i + 1)%Z j k - inp i j k in
  let dz := fun i j k => (1#2) * (dz2 (i + 1)%Z j k + dz2 i j k) in
  fun i j k => - (fst (coefsX i j k) * dx i j k + snd (coefsX i j k) * dz i j k).

Definition flux_z (nz : Z) (coefsZ : varr) (inp : arr) : arr :=
  let dx2 := fun i j k => inp (i + 2)%Z j k - inp i j k in
  let dx2' := fun i j k => (1#2) * (roll nz (-1) dx2 i j k + dx2 i j k) in
  let dz2 := fun i j k => roll nz (-1) inp (i + 1)%Z j k - inp (i + 1)%Z j k in
  fun i j k => - (fst (coefsZ i j k) * dx2' i j k + snd (coefsZ i j k) * dz2 i j k).

Definition apply_op (nx nz : Z) (coefsX coefsZ : varr) (inp : arr) : arr :=
  let this := flux_x nz coefsX inp in
  let r0 := fun (_ _ _ : Z) => 0 in
  let r1 := fun i j k => if (i <? nx - 1)%Z then r0 i j k - this i j k else r0 i j k in
  let r2 := fun i j k => if (1 <=? i)%Z then r1 i j k + this (i - 1)%Z j k else r1 i j k in
  let that := flux_z nz coefsZ inp in
  let inner := fun i => ((1 <=? i) && (i <? nx - 1))%Z in
  let r3 := fun i j k => if inner i then r2 i j k - that (i - 1)%Z j k else r2 i j k in
  let r4 := fun i j k => if inner i then r3 i j k + roll nz 1 that (i - 1)%Z j k else r3 i j k in
  fun i j k => if (i =? 0)%Z then 0 else if (i =? nx - 1)%Z then 0 else r4 i j k.

(** The coefficients, stencil_dagp_fv.py:132-270; [pol_at j] is [pols[j]]. *)
Definition coefficients (isSlab : bool) (Lz : option Q) (nx ny nz : Z) (pol_at : Z -> pol)
  : res (varr * varr) :=
  let RZ := points pol_at in
  let nX := fun i j k => normal isSlab rot_x (face_x (pol_at j) i k) in
  let* coefsX := solve (nx - 1) ny nz (dx_at_x RZ) (dz_at_x nz Lz RZ) nX in
  let nZ := fun i j k => normal isSlab rot_z (face_z (pol_at j) i k) in
  let* coefsZ := solve (nx - 2) ny nz (dx_at_z nz RZ) (dz_at_z nz Lz RZ) nZ in
  Ok (coefsX, coefsZ).

(** stencil_dagp_fv.py:78-272 [doit] up to the call of [write].  The grids'
    sizes must agree for the arrays to be assembled (ValueError otherwise);
    [nx < 2] makes [np.zeros] of line 104 raise ValueError; line 183 asserts
    nx - 1 > 2. *)
Definition default_pol : pol :=
  {| p_nx := 0; p_nz := 0; p_coord := fun _ _ => (0, 0);
     p_R := fun _ _ => 0; p_Z := fun _ _ => 0; p_Lz := None |}.
Definition pol_of (pols : list pol) (j : Z) : pol := nth (Z.to_nat j) pols default_pol.

Definition doit (junk : arr) (pols : list pol) (isSlab : bool) : res (arr * varr * varr) :=
  let* Lz := common_Lz pols in
  let nx := p_nx (pol_of pols 0) in
  let nz := p_nz (pol_of pols 0) in
  if negb (forallb (fun p => (p_nx p =? nx) && (p_nz p =? nz))%Z pols) then Err ValueError
  else if (nx <? 2)%Z then Err ValueError
  else if negb (2 <? nx - 1)%Z then Err AssertionError
  else
    let ny := Z.of_nat (List.length pols) in
    let* cs := coefficients isSlab Lz nx ny nz (pol_of pols) in
    Ok (volume junk isSlab nx (pol_of pols), fst cs, snd cs).
End Oracle.

(** stencil_dagp_fv.py:360-366 fixup: [n] rows of [d], [nx] rows in all; any
    other number of rows than nx - 1 or nx - 2 makes the assignment raise. *)
Definition fixup (nx n : Z) (d : arr) : res arr :=
  if (nx =? n + 1)%Z then
    Ok (fun i j k => if (i <? nx - 1)%Z then d i j k else 0)
  else if (n =? nx - 2)%Z then
    Ok (fun i j k => if ((1 <=? i) && (i <? nx - 1))%Z then d (i - 1)%Z j k else 0)
  else Err ValueError.

(** stencil_dagp_fv.py:369-373 fixup2: [m] rows in the file, [n] rows wanted. *)
Definition fixup2 (n m : Z) (val : arr) : res arr :=
  if (m =? n + 1)%Z then Ok (fun i j k => val i j k)
  else if (m - 2 =? n)%Z then Ok (fun i j k => val (i + 1)%Z j k)
  else Err ValueError.

(** A written file: variables by name, with their number of rows. *)
Notation file := (list (string * (Z * arr))).
Fixpoint lookup (key : string) (f : file) : res (Z * arr) :=
  match f with
  | [] => Err KeyError
  | (k, v) :: f' => if String.eqb k key then Ok v else lookup key f'
  end.
Fixpoint store (key : string) (v : Z * arr) (f : file) : file :=
  match f with
  | [] => [(key, v)]
  | (k, w) :: f' => if String.eqb k key then (k, v) :: f' else (k, w) :: store key v f'
  end.

(** stencil_dagp_fv.py:376-387 write; [nX], [nZ] rows of the coefficients. *)
Definition comp (c : nat) (v : varr) : arr :=
  fun i j k => if (c =? 0)%nat then fst (v i j k) else snd (v i j k).
Definition write_step (nx : Z) (ret : file) (it : (string * (Z * varr))) (vol : arr) : res file :=
  let '(x1, (n, d)) := it in
  let* r := foldM (fun ret (ix : nat * string) =>
      let* c := fixup nx n (comp (fst ix) d) in
      Ok (store ("dagp_fv_" ++ x1 ++ snd ix)%string (nx, c) ret))
    (enumerate ["X"; "Z"]) ret in
  Ok (store "dagp_fv_volume" (nx, vol) r).
Definition write (nx nX nZ : Z) (vol : arr) (coefsX coefsZ : varr) : res file :=
  foldM (fun ret it => write_step nx ret it vol) [("X", (nX, coefsX)); ("Z", (nZ, coefsZ))] [].

(** stencil_dagp_fv.py:50-66 load, [a] rows of R and Z; the grid points are
    read back as they are and left out here. *)
Definition load (a : Z) (f : file) : res (arr * varr * varr) :=
  let read n x1 x2 := let* v := lookup ("dagp_fv_" ++ x1 ++ x2)%string f in fixup2 n (fst v) (snd v) in
  let both n x1 := let* c0 := read n x1 "X" in let* c1 := read n x1 "Z" in
    Ok (fun i j k => (c0 i j k, c1 i j k)) in
  let* cX := both (a - 1)%Z "X" in
  let* cZ := both (a - 2)%Z "Z" in
  let* v := lookup "dagp_fv_volume" f in
  Ok (snd v, cX, cZ).
