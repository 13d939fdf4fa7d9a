(** EMC3FieldTracer.rz_to_ab with its search over zones and corners (fieldtracer.py:851-881).
    Floats are exact rationals. *)
From Coq Require Import List ZArith QArith Bool.
From Verif Require Import Prelude RzModel EmcModel.
Import ListNotations.
Open Scope Q_scope.

(** a mesh of nr times nz corners (_PolyMesh, fieldtracer.py:715-722): mesh.grid and mesh.zid *)
Record mesh := { nr : nat; nz : nat; grid : Z -> Z -> pt; zid : nat }.

Section Search.
(** eudist's find_cell with a hint; negative if there is no cell *)
Variable find : mesh -> pt -> Z -> Z.
(** scipy's least squares, after the 100 Newton steps *)
Variable least_squares : pt -> pt -> pt -> pt -> pt.

(** _rz_to_ab (fieldtracer.py:784-838) with its assertion on the shape of grid[i:i+2, j:j+2]; for a single column of corners numpy's
    division by zero gives 0 and the shape is (2, 1, 2); for a single row, the only case with ij < 0, it is (1, 2, 2) *)
Definition cell_ab (m : mesh) (rz : pt) (ij : Z) : res pt :=
  let nzc := (Z.of_nat (nz m) - 1)%Z in
  if ((nzc <=? 0) || (ij <? 0))%Z%bool then Err AssertionError
  else if (ij / nzc + 1 <? Z.of_nat (nr m))%Z then rz_to_ab_cell least_squares rz (grid m) nzc ij
  else Err AssertionError.
(** itertools.chain(meshes[zid:], meshes[:zid]) *)
Definition order (meshes : list mesh) (z : nat) : list mesh := skipn z meshes ++ firstn z meshes.
(** lines 852-855: ij is also the hint for the next mesh *)
Fixpoint find_loop (l : list mesh) (rz : pt) (ij : Z) : option (mesh * Z) :=
  match l with
  | [] => None
  | m :: l' => let ij := find m rz ij in if (0 <=? ij)%Z then Some (m, ij) else find_loop l' rz ij
  end.
(** l2.flat (line 860) *)
Definition l2 (m : mesh) (rz : pt) : list Q :=
  map (fun k => let p := grid m (Z.of_nat (k / nz m)) (Z.of_nat (k mod nz m)) in
                (fst rz - fst p) * (fst rz - fst p) + (snd rz - snd p) * (snd rz - snd p)) (seq 0 (nr m * nz m)).
(** lines 860-866, for one mesh; argmin of nothing raises ValueError *)
Definition near (m : mesh) (rz : pt) (mind2 : Q) : res (option Z) :=
  match l2 m rz with
  | [] => Err ValueError
  | l => let k := argmin l in
    if Qlt_bool (nth k l 0) mind2 then
      let ij := Z.of_nat k in
      Ok (Some (if (Z.of_nat ((nr m - 1) * nz m) <=? ij)%Z then (ij - Z.of_nat (nz m))%Z else ij))
    else Ok None
  end.
Fixpoint near_loop (l : list mesh) (rz : pt) (mind2 : Q) : res (option (mesh * Z)) :=
  match l with
  | [] => Ok None
  | m :: l' => let* o := near m rz mind2 in match o with Some ij => Ok (Some (m, ij)) | None => near_loop l' rz mind2 end
  end.
(** lines 857-866 *)
Fixpoint widen (minds : list Q) (l : list mesh) (rz : pt) : res (option (mesh * Z)) :=
  match minds with
  | [] => Ok None
  | mind :: minds' => let* o := near_loop l rz (mind * mind) in match o with Some r => Ok (Some r) | None => widen minds' l rz end
  end.
(** rz_to_ab; the plot before the error is left out *)
Definition rz_to_ab (rz : pt) (meshes : list mesh) (ij : Z) (z : nat) : res (pt * Z * nat) :=
  let l := order meshes z in
  match find_loop l rz ij with
  | Some (m, ij) => let* ab := cell_ab m rz ij in Ok (ab, ij, zid m)
  | None =>
    let* o := widen [1 # 1000; 1 # 100; 1] l rz in
    match o with
    | Some (m, ij) => let* ab := cell_ab m rz ij in Ok (ab, ij, zid m)
    | None => Err RuntimeError
    end
  end.
End Search.
