(** SmoothedMagneticField of field.py as the tracers would use it.  Floats are exact
    rationals; findIndex of the poloidal grids is an oracle. *)
From Coq Require Import String List ZArith QArith Qabs Bool.
From Verif Require Import Prelude GridModel FieldModel.
Import ListNotations.
Open Scope Q_scope.

(** numpy.argmin: the first of the smallest; ValueError on an empty array *)
Fixpoint argmin_from (l : list Q) (best : Q) (ibest i : nat) : nat :=
  match l with
  | [] => ibest
  | a :: l' => if Qlt_bool a best then argmin_from l' a i (S i) else argmin_from l' best ibest (S i)
  end.
Definition argmin (l : list Q) : res nat := match l with [] => Err ValueError | a :: l' => Ok (argmin_from l' a 0 1) end.
(** The plane below phi (field.py:1153-1155) *)
Definition plane_below (ys : list Q) (phi : Q) : res Z :=
  let* i := argmin (map (fun y => Qabs (phi - y)) ys) in
  Ok (if Qlt_bool phi (nth i ys 0%Q) then Z.of_nat i - 1 else Z.of_nat i)%Z.

Section Smoothed.
Context {G : Type}.
Variable findIndex : G -> list Q -> list Q -> res (list Q * list Q).
(** What the object keeps (field.py:1143-1149); xboundary and zboundary are not used. *)
Record smoothed := { sm_field : field; sm_grid : grid G }.
(** None has no method findIndex. *)
Definition index_in (g : option G) (x z : list Q) : res (list Q * list Q) :=
  match g with None => Err OtherError | Some g => findIndex g x z end.
(** Bxfunc (field.py:1151-1162) ends without a return: the result is None. *)
Definition sm_Bx (s : smoothed) (x z : list Q) (phi : Q) : res (option (list Q)) :=
  let* ind := plane_below (ycoords (sm_grid s)) phi in
  let* down := getPoloidalGrid (sm_grid s) (inject_Z ind) in
  let* up := getPoloidalGrid (sm_grid s) (inject_Z (ind + 1)) in
  let* _ := index_in (fst down) x z in
  let* _ := index_in (fst down) x z in
  Ok None.
(** field_direction (field.py:198-227) from the point where x and z are known: Byfunc and
    Rfunc are those of the field inside (1164-1171), Bzfunc the zero of MagneticField (86-100). *)
Definition sm_direction (s : smoothed) (x z : list Q) (phi : Q) : res (list Q * list Q) :=
  let f := sm_field s in
  let* Bx := sm_Bx s x z phi in
  if negb (length x =? length z)%nat then Err ValueError
  else
    let pts := combine x z in
    let By := map (fun p => Byfunc f (fst p) (snd p) phi) pts in
    let Rmaj := match Rfunc f with
                | Some r => map (fun p => r (fst p) (snd p) phi) pts
                | None => map (fun _ => 1) pts
                end in
    let* m := amin (map Qabs By) in
    if Qlt_bool m (1 # 100000000) then Err ValueError
    else
      let R_By := map (fun p => fst p / snd p) (combine Rmaj By) in
      match Bx with
      | None => Err TypeError
      | Some Bx => Ok (map (fun p => fst p * snd p) (combine R_By Bx), map (fun _ => 0) R_By)
      end.
(** Bmag (field.py:140-162): None ** 2 is a TypeError. *)
Definition sm_Bmag (sqrt : Q -> Q) (s : smoothed) (x z : list Q) (phi : Q) : res (list Q) :=
  let* Bx := sm_Bx s x z phi in
  match Bx with
  | None => Err TypeError
  | Some Bx => Ok (map (fun p => sqrt (fst p * fst p + Byfunc (sm_field s) (fst (snd p)) (snd (snd p)) phi * Byfunc (sm_field s) (fst (snd p)) (snd (snd p)) phi)) (combine Bx (combine x z)))
  end.
(** The attributes of an object (field.py:1143-1149 and the class) *)
Definition sm_attributes : list string :=
  ["field"; "grid"; "xboundary"; "zboundary"; "boundary"; "attributes"; "Bxfunc"; "Byfunc"; "Bzfunc"; "Rfunc"; "pressure"; "Bmag"; "field_direction"; "smooth_field_line"]%string.
(** smooth_field_line (field.py:1173-1207) reads self.xl_inner first. *)
Definition sm_line (b : box) (xa za : Q) : res Q :=
  if forallb (fun a => existsb (String.eqb a) sm_attributes)
       ["xl_inner"; "xl_outer"; "xr_inner"; "xr_outer"; "zt_inner"; "zt_outer"; "zb_inner"; "zb_outer"]%string
  then Ok (smooth_field_line b xa za) else Err OtherError.
End Smoothed.
Arguments smoothed : clear implicits.
