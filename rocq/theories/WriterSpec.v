(** Vocabulary for the statements about MapWriter. *)
From Coq Require Import String List ZArith QArith Bool.
From Verif Require Import Prelude NamingModel WriterModel.
Import ListNotations.
Open Scope string_scope.

(** Every entry of [f] was already in [f0] or, if it is an array, is finite. *)
Definition only_finite_added {V} (is_array finite : V -> bool) (f0 f : string -> option V) : Prop :=
  forall k v, f k = Some v -> f0 k = Some v \/ (is_array v = true -> finite v = true).

(** Names under which get_metric returns its components for the library's
    poloidal grids (grid.py:203-216, zoidberg.py:463-465; no "J": neither
    RectangularPoloidalGrid.metric nor StructuredPoloidalGrid.metric has one). *)
Definition metric_names : list string :=
  ["dx"; "dy"; "dz"; "gyy"; "g_yy"; "gxx"; "g_xx"; "gxz"; "g_xz"; "gzz"; "g_zz"; "Bxy"; "B"; "pressure"].
(** What _write_metric adds. *)
Definition extra_metric_names : list string :=
  ["g_yy_old"; "g_yy_correct"; "g_yy_cell_ylow"; "g_yy_cell_yhigh"].
Definition size_names : list string := ["nx"; "ny"; "nz"; "ixseps1"; "ixseps2"].

(** The BOUT++ names of the metric components. *)
Definition old_name (k : string) : string :=
  if String.eqb k "g_yy" then "g_22" else if String.eqb k "gyy" then "g22" else
  if String.eqb k "gxx" then "g11" else if String.eqb k "gxz" then "g13" else if String.eqb k "gzz" then "g33" else
  if String.eqb k "g_xx" then "g_11" else if String.eqb k "g_xz" then "g_13" else if String.eqb k "g_zz" then "g_33" else
  if String.eqb k "g_yy_cell_ylow" then "g_22_cell_ylow" else
  if String.eqb k "g_yy_cell_yhigh" then "g_22_cell_yhigh" else k.
Definition out_name (new_names : bool) (k : string) : string := if new_names then k else old_name k.

(** Keys of the dictionary made by make_maps (zoidberg.py:151-157, 179-190,
    402-407) and "Rxy" (709). *)
Definition fixed_map_keys : list string :=
  ["R"; "Z"; "Rxy"; "MXG"; "MYG"; "subcell_weights"; "J";
   "Ly_cell_ylow"; "Ly"; "Ly_cell_yhigh"; "By_cell_ylow"; "By"; "By_cell_yhigh"].
Definition slice_fields : list string := ["R"; "Z"; "xt_prime"; "zt_prime"; "xt_primes"; "zt_primes"].
Definition map_key (repr : Q -> string) (k : string) : Prop :=
  In k fixed_map_keys \/
  exists f o, In f slice_fields /\ (o = OFloat (1#2) \/ o = OFloat (-(1#2)) \/ exists z, z <> 0%Z /\ o = OInt z) /\
              parallel_slice_field_name repr f o = Ok k.

(** Names of the parallel metric. *)
Definition par_key (repr : Q -> string) (nn : bool) (k : string) : Prop :=
  exists m z, In m metric_names /\ z <> 0%Z /\ parallel_slice_field_name repr (out_name nn m) (OInt z) = Ok k.

(** A name for a field attribute that collides with nothing the writer uses. *)
Definition free_key (repr : Q -> string) (nn : bool) (k : string) : Prop :=
  ~ map_key repr k /\ ~ In k size_names /\ ~ par_key repr nn k /\
  ~ In k (map (out_name nn) (metric_names ++ extra_metric_names)).

Definition keys {V} (d : pdict V) : list string := map fst d.

(** Interruption of add_dagp: any number of its steps were made; if the next one
    stores a slice, that store may also have happened with arbitrary contents. *)
Inductive interrupted {S} (fill : S) (doit : nat -> list (string * S)) (n : nat) (f : dfile S) : dfile S -> Prop :=
| at_step : forall m, interrupted fill doit n f (steps S fill f (firstn m (dagp_actions S fill doit n f)))
| torn : forall m k ind v junk,
    nth_error (dagp_actions S fill doit n f) m = Some (Put k ind v) ->
    interrupted fill doit n f
      (step S fill (steps S fill f (firstn m (dagp_actions S fill doit n f))) (Put k ind junk)).

(** Any number of interrupted calls one after the other. *)
Inductive interruptions {S} (fill : S) (doit : nat -> list (string * S)) (n : nat) : dfile S -> dfile S -> Prop :=
| none : forall f, interruptions fill doit n f f
| more : forall f g h, interrupted fill doit n f g -> interruptions fill doit n g h -> interruptions fill doit n f h.

(** Same progress and same variables with the same contents. *)
Definition same_file {S} (f g : dfile S) : Prop :=
  prog f = prog g /\
  forall k, match var f k, var g k with
            | Some c, Some c' => forall i, c i = c' i
            | None, None => True
            | _, _ => False
            end.

(** The slices for which doit was called. *)
Fixpoint computed {S} (l : list (action S)) : list nat :=
  match l with
  | [] => []
  | Compute i :: t => i :: computed t
  | _ :: t => computed t
  end.

Open Scope Q_scope.
Definition increasing (l : list Q) : Prop :=
  forall i, (S i < length l)%nat -> nth i l 0 < nth (S i) l 0.
