(** The constructor of GEQDSK in field.py and the field functions of its objects.  Floats
    are exact rationals; a value that is not finite is None.  What freeqdsk reads is an
    argument and scipy's splines are oracles. *)
From Coq Require Import List ZArith QArith Bool.
From Verif Require Import Prelude BoundaryModel MapsModel W7xModel.
Import ListNotations.
Open Scope Q_scope.

(** A numpy array with two axes; [cell] means something for indices below the lengths. *)
Record array2 (A : Type) := { len0 : nat; len1 : nat; cell : nat -> nat -> A }.
Arguments len0 {A} _. Arguments len1 {A} _. Arguments cell {A} _ _ _.
(** numpy.transpose *)
Definition transpose {A} (a : array2 A) : array2 A := {| len0 := len1 a; len1 := len0 a; cell := fun i j => cell a j i |}.

(** The entries of the file that the constructor uses (field.py:1229-1291) *)
Record eqdsk := { rleft : Q; rdim : Q; zmid : Q; zdim : Q; psirz : array2 Q; simagx : Q; sibdry : Q;
                  fpol : list Q; pres : list Q; rbdry : list Q; zbdry : list Q; rlim : list Q; zlim : list Q }.

(** A quotient of numpy floats: division by zero gives inf or nan and a warning *)
Definition quotient (a b : Q) : option Q := if Qeq_bool b 0 then None else Some (a / b).

(** A RectBivariateSpline: called with grid=False, with dx=1 and with dy=1 *)
Record spline2 := { ev : Q -> Q -> option Q; ev_dx : Q -> Q -> option Q; ev_dy : Q -> Q -> option Q }.

(** What the object keeps; [limiter] None: the NoBoundary of the class (field.py:54) *)
Record geqdsk := { gr : list Q; gz : list Q; gpsi : spline2; gnorm : spline2; gf : Q -> Q; gp : Q -> Q; limiter : option polygon_boundary }.

Section Geqdsk.
(** scipy.interpolate.RectBivariateSpline(x, y, values) *)
Variable rect_spline : list Q -> list Q -> array2 (option Q) -> res spline2.
(** scipy.interpolate.InterpolatedUnivariateSpline(x, y, ext=ext) *)
Variable line_spline : list Q -> list Q -> nat -> res (Q -> Q).

(** psinorm with ones where the mask is set (field.py:1266-1280) *)
Definition masked (a : array2 (option Q)) (mask : nat -> nat -> bool) : array2 (option Q) :=
  {| len0 := len0 a; len1 := len1 a; cell := fun i j => if mask i j then Some 1 else cell a i j |}.
Definition norm_psi (d : eqdsk) (psi : array2 Q) : array2 (option Q) :=
  {| len0 := len0 psi; len1 := len1 psi; cell := fun i j => quotient (cell psi i j - simagx d) (sibdry d - simagx d) |}.
(** core_bndry.outside on the positions of the mesh, indexing "ij" (field.py:1277-1279).
    Simplified: with axes of length zero the loop of [outside] would still read the
    corners; such arrays are refused by the spline before. *)
Definition outside_mask (core : polygon_boundary) (r z : list Q) : res (nat -> nat -> bool) :=
  let* rows := mapM (fun x => mapM (fun y => polygon_outside core x y) z) r in
  Ok (fun i j => nth j (nth i rows []) false).

(** GEQDSK.__init__ (field.py:1222-1298).  First result: what has been entered as
    attributes["psi"] (1262), also if a later step raises. *)
Definition geqdsk_init (d : eqdsk) : option spline2 * res geqdsk :=
  let rmin := rleft d in
  let rmax := rdim d + rmin in
  let zmin := zmid d - (1 # 2) * zdim d in
  let zmax := zmid d + (1 # 2) * zdim d in
  let psi := transpose (psirz d) in
  let nr := len0 psi in
  let nz := len1 psi in
  let r := W7xModel.linspace rmin rmax nr in
  let z := W7xModel.linspace zmin zmax nz in
  match rect_spline r z {| len0 := nr; len1 := nz; cell := fun i j => Some (cell psi i j) |} with
  | Err e => (None, Err e)
  | Ok psi_func =>
    (Some psi_func,
     let psinorm := norm_psi d psi in
     let* core := polygon_init (rbdry d) (zbdry d) in
     let* mask := outside_mask core r z in
     let* psinorm_func := rect_spline r z (masked psinorm mask) in
     let points := W7xModel.linspace 0 1 nr in
     let* f_spl := line_spline points (fpol d) 3 in
     let* p_spl := line_spline points (pres d) 3 in
     let* lim := match rlim d with
                 | [] => Ok None
                 | _ => let* b := polygon_init (rlim d) (zlim d) in Ok (Some b)
                 end in
     Ok {| gr := r; gz := z; gpsi := psi_func; gnorm := psinorm_func; gf := f_spl; gp := p_spl; limiter := lim |})
  end.

(** The field functions (field.py:1300-1327), for one position; the two branches of
    Byfunc and pressure do the same, entry by entry. *)
Definition over (v : option Q) (x : Q) : option Q := match v with Some v => quotient v x | None => None end.
Definition gBx (g : geqdsk) (x z : Q) : option Q := over (option_map Qopp (ev_dy (gpsi g) x z)) x.
Definition gBz (g : geqdsk) (x z : Q) : option Q := over (ev_dx (gpsi g) x z) x.
Definition gBy (g : geqdsk) (x z : Q) : option Q := over (option_map (gf g) (ev (gnorm g) x z)) x.
Definition gpressure (g : geqdsk) (x z : Q) : option Q := option_map (gp g) (ev (gnorm g) x z).
(** field.boundary.outside *)
Definition goutside (g : geqdsk) (x z : Q) : res bool :=
  match limiter g with None => Ok false | Some b => polygon_outside b x z end.
End Geqdsk.
