(** fci_to_vtk, zoidberg.py:844-871: what is handed to gridToVTK of pyevtk. *)
From Coq Require Import String List ZArith QArith.
From Verif Require Import Prelude.
Import ListNotations.
Open Scope Q_scope.

(** a 3-d array *)
Record nd3 := { n0 : nat; n1 : nat; n2 : nat; at3 : Z -> Z -> Z -> Q }.
(** the variables of the file; DataFile.read gives None for those it does not have.  Simplified: dx and dy are numbers, the
    other variables 3-d arrays *)
Record vfile := { f_dx : option Q; f_dy : option Q; f_arr : string -> option nd3 }.
(** np.linspace(0, stop, n) and with endpoint=False *)
Definition linspace (stop : Q) (n : nat) (endpoint : bool) : list Q :=
  let div := (if endpoint then Z.of_nat n - 1 else Z.of_nat n)%Z in
  map (fun i => if (div =? 0)%Z then 0 else inject_Z (Z.of_nat i) * (stop / inject_Z div)) (seq 0 n).
(** axes and components of B *)
Record vtk := { v_x : list Q; v_y : list Q; v_z : list Q; v_B : nd3 * nd3 * nd3 }.
Definition times (a : nd3) (q : Q) : nd3 := {| n0 := n0 a; n1 := n1 a; n2 := n2 a; at3 := fun i j k => at3 a i j k * q |}.
Definition ones (a : nd3) : nd3 := {| n0 := n0 a; n1 := n1 a; n2 := n2 a; at3 := fun _ _ _ => 1 |}.
Definition minus (a : nd3) (f : Z -> Z -> Z -> Q) : nd3 := {| n0 := n0 a; n1 := n1 a; n2 := n2 a; at3 := fun i j k => at3 a i j k - f i j k |}.
(** bx.shape of None: AttributeError *)
Definition shape_of (a : option nd3) : res nd3 := match a with Some a => Ok a | None => Err OtherError end.
(** None * number: TypeError *)
Definition number {A} (q : option A) : res A := match q with Some q => Ok q | None => Err TypeError end.
(** zoidberg.py:844-871.  None: pyevtk is not installed *)
Definition fci_to_vtk (have_evtk : bool) (f : vfile) (scale : Q) : res (option vtk) :=
  if negb have_evtk then Ok None
  else
    let bx := f_arr f "bx"%string in
    let* shape := shape_of bx in
    let by_ := ones shape in
    let bz := f_arr f "bz"%string in
    let* fields := match bx with
      | Some b => Ok (b, by_, bz)
      | None => (* lines 855-861 *)
        let* xt := shape_of (f_arr f "forward_xt_prime"%string) in
        let* zt := number (f_arr f "forward_zt_prime"%string) in
        let* dy := number (f_dy f) in
        Ok (minus xt (fun i _ _ => inject_Z i), times by_ dy, Some (minus zt (fun _ _ k => inject_Z k)))
      end in
    let '(bx, by_, bz) := fields in
    let '(nx, ny, nz) := (n0 bx, n1 bx, n2 bx) in
    let* dx := number (f_dx f) in
    if (nz =? 0)%nat then Err ZeroDivisionError (* a scalar of a file is a numpy number: in fact a warning and nan *)
    else
    let dz := inject_Z (Z.of_nat nx) * dx / inject_Z (Z.of_nat nz) in
    let* dy := number (f_dy f) in
    let* bz := number bz in
    Ok (Some {| v_x := map (fun q => q * scale) (linspace (inject_Z (Z.of_nat nx) * dx) nx true);
                v_y := linspace (inject_Z (Z.of_nat ny) * dy) ny false;
                v_z := map (fun q => q * scale) (linspace (inject_Z (Z.of_nat nz) * dz) nz false);
                v_B := (times bx scale, by_, times bz scale) |}).
