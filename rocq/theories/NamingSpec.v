(** Vocabulary for the statement about slice names. *)
From Coq Require Import String Ascii List ZArith QArith Bool.
From Verif Require Import Prelude NamingModel.
Import ListNotations.
Open Scope string_scope.

(** The offsets make_maps uses: 0.5, -0.5 and the non-zero integers. *)
Definition used_offset (o : offset) : Prop :=
  match o with OInt z => z <> 0%Z | OFloat q => q = 1#2 \/ q = -(1#2) end.

(** A set of field names with an unambiguous encoding: none of them is another
    one followed by "_" and the digits of a number, and none starts with
    "forward" or "backward". *)
Definition clash_free (fields : list string) : Prop :=
  (forall f g n, In f fields -> In g fields -> f <> g ++ "_" ++ dec n) /\
  (forall f, In f fields -> String.prefix "forward" f = false /\ String.prefix "backward" f = false).

(** A computable sufficient test. *)
Definition is_digit (c : ascii) : bool :=
  andb (Nat.leb 48 (nat_of_ascii c)) (Nat.leb (nat_of_ascii c) 57).

Fixpoint all_digits (s : string) : bool :=
  match s with "" => true | String c s' => andb (is_digit c) (all_digits s') end.

(** [s] is "_" and digits *)
Definition numeric_suffix (s : string) : bool :=
  match s with "" => false | String c s' => andb (Ascii.eqb c "_") (all_digits s') end.

(** [f = g ++ "_" ++ digits] *)
Fixpoint extends_by_number (f g : string) : bool :=
  match g, f with
  | "", _ => numeric_suffix f
  | String c g', String d f' => andb (Ascii.eqb c d) (extends_by_number f' g')
  | _, _ => false
  end.

Definition clash_free_b (fields : list string) : bool :=
  andb (forallb (fun f => forallb (fun g => negb (extends_by_number f g)) fields) fields)
       (forallb (fun f => andb (negb (String.prefix "forward" f)) (negb (String.prefix "backward" f))) fields).

(** Every field name that the library passes to [parallel_slice_field_name]:
    zoidberg.py:179,187-188 (maps), 678,715 ("R", "Z"), 699 (the keys of
    the dictionary built by grid.py:203-218 and zoidberg.py:464-466, both with
    the new names and as renamed by update_metric_names, 411-429). *)
Definition library_fields : list string :=
  ["R"; "Z"; "xt_prime"; "zt_prime"; "xt_primes"; "zt_primes";
   "dx"; "dy"; "dz"; "gyy"; "g_yy"; "gxx"; "g_xx"; "gxz"; "g_xz"; "gzz"; "g_zz"; "J";
   "Bxy"; "B"; "pressure";
   "g22"; "g_22"; "g11"; "g_11"; "g13"; "g_13"; "g33"; "g_33"].
