(** weights.py on the dictionary that make_maps returns, as in /repo/examples/rotating-ellipse.py:76-80: the entries
    it reads. *)
From Coq Require Import String List ZArith QArith.
From Verif Require Import Prelude MapsModel WeightsModel.
Open Scope string_scope.

(** the 4-d and 3-d arrays of make_maps (zoidberg.py:171-196) as read by weights.py:72-95; n is the length of
    the last axis.  MapsModel has one type for both: a 3-d array does not depend on the last index *)
Definition array4 (n : nat) (d : dict) (k : string) : option marr :=
  match d k with Some (VArr a) => Some (A4 n (fun '(x, y, z) s => a x y z (Z.of_nat s))) | Some _ => Some Abad | None => None end.
Definition array3 (d : dict) (k : string) : option marr :=
  match d k with Some (VArr a) => Some (A3 (fun '(x, y, z) => a x y z 0%Z)) | Some _ => Some Abad | None => None end.
(** maps["R"].shape is that of the grid (weights.py:178); MXG is read first where it is used (weights.py:179, 333, 494, 610) *)
Definition weights_input (d : dict) (nx ny nz : Z) (n : nat) : res maps :=
  match d "MXG" with
  | Some (VInt mxg) =>
    Ok {| m_nx := nx; m_ny := ny; m_nz := nz; m_mxg := mxg;
          m_fxts := array4 n d "forward_xt_primes"; m_fxt := array3 d "forward_xt_prime";
          m_fzts := array4 n d "forward_zt_primes"; m_fzt := array3 d "forward_zt_prime";
          m_bxts := array4 n d "backward_xt_primes"; m_bxt := array3 d "backward_xt_prime";
          m_bzts := array4 n d "backward_zt_primes"; m_bzt := array3 d "backward_zt_prime";
          m_subw := match d "subcell_weights" with Some (VList w) => Some (W1 w) | Some _ => Some Wbad | None => None end |}
  | Some _ => Err TypeError
  | None => Err KeyError
  end.
