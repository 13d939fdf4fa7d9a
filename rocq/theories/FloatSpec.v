(** What the theorems about double precision are stated with. *)
From Coq Require Import List ZArith QArith Qabs.
From Verif Require Import Prelude WeightsModel FloatModel.
Import ListNotations.
Open Scope Q_scope.

(** A double: at most 53 bits, times a power of two that is not below the smallest one. *)
Definition double (x : Q) : Prop := exists m e, (Z.abs m <= 2 ^ 53)%Z /\ (-1074 <= e)%Z /\ x == inject_Z m * Qpower 2 e.
(** An accurate power function: one unit in the last place. *)
Definition accurate_cube (cube : Q -> Q) : Prop := forall u, Qabs (cube u - u * u * u) <= (2 # (2 ^ 53)) * Qabs (u * u * u) + (1 # (2 ^ 53)).

(** The maps of lines that stay at their R and Z, on a rectangular grid made with double
    precision numbers: nx columns, mxg of them guard cells on each side, size L, centre c. *)
Definition own_index (L c : Q) (nx mxg : Z) (i : Z) : Q :=
  let d := rect_d b64 L (nx - 2 * mxg) in
  let m := rect_min b64 c d nx in
  rect_index b64 m d (rect_coordinate b64 m d (inject_Z i)).
Definition straight_maps (L c : Q) (nx ny nz mxg : Z) : maps :=
  let x := A3 (fun c0 : Z * Z * Z => own_index L c nx mxg (fst (fst c0))) in
  let z := A3 (fun c0 : Z * Z * Z => inject_Z (snd c0)) in
  {| m_nx := nx; m_ny := ny; m_nz := nz; m_mxg := mxg;
     m_fxts := None; m_fxt := Some x; m_fzts := None; m_fzt := Some z;
     m_bxts := None; m_bxt := Some x; m_bzts := None; m_bzt := Some z; m_subw := None |}.
