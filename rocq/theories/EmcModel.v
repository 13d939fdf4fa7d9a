(** EMC3FieldTracer (fieldtracer.py:732-926), for one zone. *)
From Coq Require Import List ZArith QArith Bool.
From Verif Require Import Prelude.
Import ListNotations.
Open Scope Q_scope.

Notation pt := (Q * Q)%type.

(** fieldtracer.py:907-916: the while loops; None when they do not end within the fuel *)
Fixpoint raise_phi (fuel : nat) (pmin deltap phi : Q) (perBC : Z) : option (Q * Z) :=
  match fuel with
  | O => None
  | S fuel => if Qlt_bool phi pmin then raise_phi fuel pmin deltap (phi + deltap) (perBC + 1) else Some (phi, perBC)
  end.
Fixpoint lower_phi (fuel : nat) (pmax deltap phi : Q) (perBC : Z) : option (Q * Z) :=
  match fuel with
  | O => None
  | S fuel => if Qlt_bool pmax phi then lower_phi fuel pmax deltap (phi - deltap) (perBC - 1) else Some (phi, perBC)
  end.
(** fieldtracer.py:902-918: mesh.phi and mesh.perBC *)
Definition wrap_phi (fuel : nat) (pmin pmax phi : Q) : option (Q * Z) :=
  if Qlt_bool pmin phi && Qlt_bool phi pmax then Some (phi, 0%Z)
  else
    let deltap := pmax - pmin in
    match raise_phi fuel pmin deltap phi 0 with
    | None => None
    | Some (phi1, n) => lower_phi fuel pmax deltap phi1 n
    end.

(** ** one cell: corners A, A + a, A + b, A + a + b + c *)
Definition padd2 (p q : pt) : pt := (fst p + fst q, snd p + snd q).
Definition psub2 (p q : pt) : pt := (fst p - fst q, snd p - snd q).
Definition pscale (k : Q) (p : pt) : pt := (k * fst p, k * snd p).

(** the four corners grid[i:i+2, j:j+2] with i, j = ij // nz, ij % nz *)
Definition corners (grid : Z -> Z -> pt) (nz ij : Z) : pt * pt * pt * pt :=
  let i := (ij / nz)%Z in
  let j := (ij mod nz)%Z in
  let A := grid i j in
  let a := psub2 (grid i (j + 1)%Z) A in
  let b := psub2 (grid (i + 1)%Z j) A in
  let c := psub2 (psub2 (psub2 (grid (i + 1)%Z (j + 1)%Z) A) a) b in
  (A, a, b, c).
(** _ab_to_rz (fieldtracer.py:840-849); nz is the number of cells in that direction *)
Definition ab_to_rz (ab : pt) (grid : Z -> Z -> pt) (nz ij : Z) : pt :=
  let '(A, a, b, c) := corners grid nz ij in
  let '(al, be) := ab in
  padd2 (padd2 (padd2 A (pscale al a)) (pscale be b)) (pscale (al * be) c).

(** _rz_to_ab (fieldtracer.py:784-838): 100 Newton steps, then scipy's least
    squares.  A singular Jacobian makes np.linalg.inv raise LinAlgError. *)
Definition cell_fun (rz0 a b c ab : pt) : pt :=
  let '(al, be) := ab in psub2 (psub2 (psub2 rz0 (pscale al a)) (pscale be b)) (pscale (al * be) c).
Definition newton_step (rz0 a b c ab : pt) : option pt :=
  let '(al, be) := ab in
  let m11 := - fst a - fst c * be in
  let m12 := - fst b - fst c * al in
  let m21 := - snd a - snd c * be in
  let m22 := - snd b - snd c * al in
  let det := m11 * m22 - m12 * m21 in
  if Qeq_bool det 0 then None
  else
    let f := cell_fun rz0 a b c ab in
    Some (Qred (al - (m22 * fst f - m12 * snd f) / det), Qred (be - (m11 * snd f - m21 * fst f) / det)).
Fixpoint cell_newton (n : nat) (tol : Q) (rz0 a b c ab : pt) (fallback : res pt) : res pt :=
  match n with
  | O => fallback
  | S n =>
    match newton_step rz0 a b c ab with
    | None => Err OtherError
    | Some ab' =>
      let f := cell_fun rz0 a b c ab' in
      if Qlt_bool (fst f * fst f + snd f * snd f) tol then Ok ab' else cell_newton n tol rz0 a b c ab' fallback
    end
  end.
Definition rz_to_ab_cell (least_squares : pt -> pt -> pt -> pt -> pt) (rz : pt) (grid : Z -> Z -> pt) (nz ij : Z) : res pt :=
  let '(A, a, b, c) := corners grid nz ij in
  let rz0 := psub2 rz A in
  cell_newton 100 (1 # 10000000000000) rz0 a b c (1#2, 1#2) (Ok (least_squares a b c rz0)).

(** ** following a line *)
Section Follow.
(** a position inside the mesh: cell coordinates and cell number *)
Variable cell : Type.
(** rz_to_ab (fieldtracer.py:851-880) in the mesh at an angle, without the search
    hints; it raises RuntimeError outside the domain *)
Variable locate : Q -> pt -> res cell.
(** _ab_to_rz in the mesh at an angle *)
Variable place : Q -> cell -> pt.
Variable pmin pmax : Q.

Fixpoint find_cell (k : Z) (l : list (Z * cell)) : option cell :=
  match l with [] => None | (k', c) :: t => if (k =? k')%Z then Some c else find_cell k t end.
(** fieldtracer.py:774-778: the meshes at the two ends of the period *)
Definition cross (forward : bool) (c : cell) : res cell :=
  if forward then locate pmin (place pmax c) else locate pmax (place pmin c).
Fixpoint cross_n (n : nat) (forward : bool) (c : cell) : res cell :=
  match n with O => Ok c | S n => let* c' := cross forward c in cross_n n forward c' end.
(** fieldtracer.py:764-782, one start point; [meshes]: mesh.phi and mesh.perBC for each y *)
Definition follow_point (meshes : list (Q * Z)) (rz : pt) : res (list pt) :=
  match meshes with
  | [] => Err IndexError
  | m0 :: ms =>
    let* c0 := locate (fst m0) rz in
    let* r := foldM (fun (st : cell * list (Z * cell) * list pt) mj =>
        let '(cur, cache, out) := st in
        let perBC := (snd mj - snd m0)%Z in
        let* cache' := (match find_cell perBC cache with
          | Some _ => Ok cache
          | None =>
            let* _ := cross_n (Z.abs_nat perBC) (0 <? perBC)%Z cur in
            let* c := locate (fst m0) rz in
            Ok ((perBC, c) :: cache)
          end) in
        match find_cell perBC cache' with
        | Some c => Ok (c, cache', out ++ [place (fst mj) c])
        | None => Err KeyError
        end) ms (c0, [(0%Z, c0)], [rz]) in
    Ok (snd r)
  end.
(** fieldtracer.py:758-782: all start points, given as a list with the array's
    shape; a zero-dimensional array fails in (0, *None) *)
Definition emc_follow (shape : list nat) (meshes : list (Q * Z)) (points : list pt) : res (list (list pt)) :=
  foldM (fun out rz => let* l := (match shape with
      | [] => match meshes with [] => Err IndexError | m0 :: _ => let* _ := locate (fst m0) rz in Err TypeError end
      | _ => follow_point meshes rz end) in Ok (out ++ [l])) points [].
End Follow.
