(** Property C13: names of parallel-slice variables. *)
From Coq Require Import String List ZArith QArith.
From Verif Require Import Prelude NamingModel NamingSpec NamingProofs.
Import ListNotations.
Open Scope string_scope.

(** Distinct (field, offset) pairs get distinct names, whatever the (finite)
    set of field names, as long as it is clash free. *)
Theorem C13_names_unique : forall repr fields f g o1 o2 n,
  clash_free fields -> In f fields -> In g fields ->
  used_offset o1 -> used_offset o2 ->
  parallel_slice_field_name repr f o1 = Ok n ->
  parallel_slice_field_name repr g o2 = Ok n -> f = g /\ o1 = o2.
Proof. exact slice_names_unique. Qed.
Print Assumptions C13_names_unique.

(** The names the library uses are clash free. *)
Theorem C13_library_fields_clash_free : clash_free library_fields.
Proof. exact (clash_free_b_sound library_fields eq_refl). Qed.
Print Assumptions C13_library_fields_clash_free.

(** A name exists for every offset in use; offset 0 is rejected. *)
Theorem C13_names_exist : forall repr f o, used_offset o ->
  exists n, parallel_slice_field_name repr f o = Ok n.
Proof. exact slice_names_ok. Qed.
Print Assumptions C13_names_exist.

Theorem C13_offset_zero_rejected : forall repr f,
  parallel_slice_field_name repr f (OInt 0) = Err AssertionError.
Proof. exact name_zero. Qed.
Print Assumptions C13_offset_zero_rejected.

(** Without the restriction on field names two pairs can share one name. *)
Theorem C13_arbitrary_fields_refuted : forall repr,
  parallel_slice_field_name repr "R_2" (OInt 1) = parallel_slice_field_name repr "R" (OInt 2)
  /\ parallel_slice_field_name repr "R" (OInt 2) = Ok "forward_R_2".
Proof. intros repr; split; reflexivity. Qed.
Print Assumptions C13_arbitrary_fields_refuted.

(** The documented, backwards-compatible names. *)
Example C13_concrete : forall repr,
  parallel_slice_field_name repr "xt_prime" (OInt 1) = Ok "forward_xt_prime" /\
  parallel_slice_field_name repr "xt_prime" (OInt (-1)) = Ok "backward_xt_prime" /\
  parallel_slice_field_name repr "g_22" (OInt (-12)) = Ok "backward_g_22_12" /\
  parallel_slice_field_name repr "R" (OFloat (-(1#2))) = Ok "R_cell_ylow".
Proof. intros; repeat split. Qed.

Example C13_hypotheses_met :
  In "g_22" library_fields /\ used_offset (OInt (-12)) /\ used_offset (OFloat (1#2)).
Proof. cbn. repeat split; auto 30; try discriminate. Qed.
