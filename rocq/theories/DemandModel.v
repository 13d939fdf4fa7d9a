(** W7X_vacuum_on_demand and FusionSCField of field.py, which ask a service for the
    Cartesian components of the field at every call, and the samples of W7X_vacuum from
    the same service.  Over the reals; the services are oracles. *)
From Coq Require Import List ZArith Reals Bool.
From Verif Require Import Prelude TracerModel FieldModel FieldReal.
Import ListNotations.
Open Scope R_scope.

(** numpy arrays: shape and entries, row-major; the shape of a scalar is [] *)
Record rarr := { shp : list nat; ent : list R }.
(** f(a, b), entry by entry.  Simplified: of numpy's broadcasting only scalars *)
Definition bcast2 (f : R -> R -> R) (a b : rarr) : res rarr :=
  if shape_eqb (shp a) (shp b) then Ok {| shp := shp a; ent := map (fun p => f (fst p) (snd p)) (combine (ent a) (ent b)) |}
  else match shp a, shp b with
       | _, [] => Ok {| shp := shp a; ent := map (fun x => f x (hd 0 (ent b))) (ent a) |}
       | [], _ => Ok {| shp := shp b; ent := map (fun y => f (hd 0 (ent a)) y) (ent b) |}
       | _, _ => Err ValueError
       end.

(** The first axis of the array of components *)
Definition triple := (rarr * rarr * rarr)%type.

Section Service.
(** the n-th request to magneticField: configuration, x1, x2, x3 *)
Variable answer : nat -> config -> list R -> list R -> list R -> res (list R * list R * list R).
(** W7X_vacuum._calc_B and _calc_chunk (field.py:1678-1725).  numpy.array of arrays of
    different shapes and reshape to another size raise ValueError. *)
Definition calc_B (r z phi : rarr) (c : configuration) : res triple :=
  let* X := bcast2 (fun r p => r * cos p) r phi in
  let* Y := bcast2 (fun r p => r * sin p) r phi in
  if negb (shape_eqb (shp X) (shp z)) then Err ValueError
  else
    let* k := set_config c in
    match calc_chunk (fun n => answer n k (ent X) (ent Y) (ent z)) with
    | None => Err OtherError
    | Some (reply, _, _) =>
      let* b := reply in
      let '(b1, b2, b3) := b in
      if (length b1 =? nsize (shp z))%nat && (length b2 =? nsize (shp z))%nat && (length b3 =? nsize (shp z))%nat
      then Ok ({| shp := shp z; ent := b1 |}, {| shp := shp z; ent := b2 |}, {| shp := shp z; ent := b3 |})
      else Err ValueError
    end.
End Service.

(** FusionSCField.getB (field.py:1974-1977) *)
Definition fusionsc_B (interpolateXyz : rarr -> rarr -> rarr -> res triple) (x z phi : rarr) : res triple :=
  let* X := bcast2 (fun r p => cos p * r) x phi in
  let* Y := bcast2 (fun r p => sin p * r) x phi in
  interpolateXyz X Y z.

(** The functions that both classes have (field.py:1788-1811 and 1965-1994) *)
Section Components.
Variable getB : rarr -> rarr -> rarr -> res triple.
Definition c_Bx (x z phi : rarr) : res rarr :=
  let* B := getB x z phi in
  let* a := bcast2 (fun b p => b * cos p) (fst (fst B)) phi in
  let* b := bcast2 (fun b p => b * sin p) (snd (fst B)) phi in
  bcast2 Rplus a b.
Definition c_By (x z phi : rarr) : res rarr :=
  let* B := getB x z phi in
  let* a := bcast2 (fun b p => - b * sin p) (fst (fst B)) phi in
  let* b := bcast2 (fun b p => b * cos p) (snd (fst B)) phi in
  bcast2 Rplus a b.
Definition c_Bz (x z phi : rarr) : res rarr := let* B := getB x z phi in Ok (snd B).
(** numpy.sqrt(numpy.sum(B ** 2, axis=0)) *)
Definition c_Bmag (x z phi : rarr) : res rarr :=
  let* B := getB x z phi in
  let* a := bcast2 (fun a b => a ^ 2 + b ^ 2) (fst (fst B)) (snd (fst B)) in
  let* b := bcast2 (fun a b => a + b ^ 2) a (snd B) in
  Ok {| shp := shp b; ent := map sqrt (ent b) |}.
(** Bxyzfunc, and the samples of W7X_vacuum.field_values (field.py:1489-1494) *)
Definition c_Bxyz (x z phi : rarr) : res triple :=
  let* B := getB x z phi in
  let* a := bcast2 (fun b p => b * cos p) (fst (fst B)) phi in
  let* b := bcast2 (fun b p => b * sin p) (snd (fst B)) phi in
  let* Bx := bcast2 Rplus a b in
  let* a := bcast2 (fun b p => - b * sin p) (fst (fst B)) phi in
  let* b := bcast2 (fun b p => b * cos p) (snd (fst B)) phi in
  let* By := bcast2 Rplus a b in
  Ok (Bx, By, snd B).
(** numpy.zeros_like(x) *)
Definition c_pressure (x z phi : rarr) : rarr := {| shp := shp x; ent := map (fun _ => 0) (ent x) |}.
End Components.

(** numpy.meshgrid(r, phi, z, indexing="ij") (field.py:1364-1366) *)
Definition mesh_r (r phi z : list R) : rarr := {| shp := [length r; length phi; length z]; ent := flat_map (fun a => flat_map (fun _ => map (fun _ => a) z) phi) r |}.
Definition mesh_phi (r phi z : list R) : rarr := {| shp := [length r; length phi; length z]; ent := flat_map (fun _ => flat_map (fun p => map (fun _ => p) z) phi) r |}.
Definition mesh_z (r phi z : list R) : rarr := {| shp := [length r; length phi; length z]; ent := flat_map (fun _ => flat_map (fun _ => z) phi) r |}.
