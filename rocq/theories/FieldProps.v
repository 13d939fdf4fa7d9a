(** Properties C60, C63, C64, C76 and C78. *)
From Coq Require Import String List ZArith QArith Qabs Qminmax.
From Verif Require Import Prelude FieldModel FieldSpec FieldProofs FieldMore.
Import ListNotations.
Open Scope Q_scope.

(** C60: at every point the direction is R Bx / By and R Bz / By, so (dx, R dy, dz)
    and B are parallel; *)
Theorem C60_direction f x z y : length x = length z -> x <> [] -> ~ small_By f x z y ->
  exists dx dz, field_direction_pair f [x; z] y = Ok [dx; dz] /\ length dx = length x /\ length dz = length x /\
  forall k, (k < length x)%nat ->
    along_B f (nth k x 0) (nth k z 0) y (nth k dx 0) (nth k dz 0) /\
    let '(bx, by_, bz) := B_at f (nth k x 0) (nth k z 0) y in
    nth k dx 0 == R_at f (nth k x 0) (nth k z 0) y * bx / by_ /\ nth k dz 0 == R_at f (nth k x 0) (nth k z 0) y * bz / by_.
Proof. exact (direction_pair_ok f x z y). Qed.
Print Assumptions C60_direction.
(** a vanishing By, and no points at all, are refused; *)
Theorem C60_refuses f x z y : length x = length z -> x = [] \/ small_By f x z y -> field_direction_pair f [x; z] y = Err ValueError.
Proof. exact (direction_pair_small f x z y). Qed.
Print Assumptions C60_refuses.
(** the flattened form is the same with x and z taking turns, and an odd number of
    values is refused. *)
Theorem C60_flatten f x z y : length x = length z ->
  match field_direction_pair f [x; z] y with
  | Ok [dx; dz] => field_direction_flat f (interleave x z) y = Ok (interleave dx dz)
  | Ok _ => False
  | Err e => field_direction_flat f (interleave x z) y = Err e
  end.
Proof. exact (flat_pair_ok f x z y). Qed.
Print Assumptions C60_flatten.
Theorem C60_interleave (a b : list Q) : length a = length b ->
  length (interleave a b) = (2 * length a)%nat /\
  (forall k, (k < length a)%nat -> nth (2 * k) (interleave a b) 0 = nth k a 0 /\ nth (2 * k + 1) (interleave a b) 0 = nth k b 0).
Proof. exact (interleave_split a b). Qed.
Print Assumptions C60_interleave.
Theorem C60_odd f pos y : Nat.even (length pos) = false -> field_direction_flat f pos y = Err AssertionError.
Proof. exact (direction_odd f pos y). Qed.
Print Assumptions C60_odd.
Theorem C60_odd_arrays f pos y : Nat.even (length pos) = false -> field_direction_pair f pos y = Err AssertionError.
Proof. intros H. unfold field_direction_pair. rewrite H. reflexivity. Qed.
Print Assumptions C60_odd_arrays.
(** for the slabs: no change in x, and a change in z that depends on x only. *)
Theorem C60_slab By Bz xc Bzp Rm x z y : 1 # 100000000 <= Qabs By ->
  (exists dx dz, field_direction_pair (slab By Bz xc Bzp) [[x]; [z]] y = Ok [[dx]; [dz]] /\ dx == 0 /\ dz == (Bz + (x - xc) * Bzp) / By) /\
  (exists dx dz, field_direction_pair (curved_slab By Bz xc Bzp Rm) [[x]; [z]] y = Ok [[dx]; [dz]] /\ dx == 0 /\ dz == Rm * (Bz + (x - xc) * Bzp) / By).
Proof. exact (slab_direction By Bz xc Bzp Rm x z y). Qed.
Print Assumptions C60_slab.
Example C60_example : let f := {| Bxfunc := fun x _ _ => x; Byfunc := fun _ _ _ => 2; Bzfunc := fun _ z y => z + y; Bxyzfunc := None; Rfunc := Some (fun x _ _ => 1 + x) |} in
  ~ small_By f [1; 3] [5; 7] 1 /\ ([1; 3] : list Q) <> [] /\
  field_direction_flat f [1; 5; 3; 7] 1 = Ok [(2 / 2) * 1; (2 / 2) * 6; (4 / 2) * 3; (4 / 2) * 8].
Proof.
  cbv zeta. split; [|split; [discriminate|vm_compute; reflexivity]].
  intros [k [_ H]]. cbn in H. discriminate H.
Qed.

(** C63: creating a field that is not read from a G-file changes no other field's
    attributes; *)
Theorem C63_not_geqdsk w k i : (i < length (objects w))%nat -> (forall psi, k <> Geqdsk psi) -> attributes (create w k) i = attributes w i.
Proof. exact (create_other w k i). Qed.
Print Assumptions C63_not_geqdsk.
(** a field with a dictionary of its own is not changed by any other one; *)
Theorem C63_own_dict w k i d : nth_error (objects w) i = Some (Some d) -> attributes (create w k) i = attributes w i.
Proof. exact (create_own w k i d). Qed.
Print Assumptions C63_own_dict.
(** without a G-file in the history the attributes stay empty. *)
Theorem C63_no_gfile ks : (forall psi, ~ In (Geqdsk psi) ks) -> forall i, (i < length ks)%nat -> attributes (created ks) i = Some [].
Proof. exact (fun N => proj2 (created_no_geqdsk ks N)). Qed.
Print Assumptions C63_no_gfile.
(** C63, false in general: reading a G-file puts its psi into the attributes of every
    field that has no dictionary of its own, *)
Theorem C63_all_fields_refuted w psi i : nth_error (objects w) i = Some None ->
  exists d, attributes (create w (Geqdsk psi)) i = Some d /\ dict_get d "psi" = Some (fun x z _ => psi x z).
Proof. exact (geqdsk_everywhere w psi i). Qed.
Print Assumptions C63_all_fields_refuted.
(** so that a slab gets a psi, and of two G-files the first one gets the psi of the
    second one. *)
Theorem C63_history_refuted :
  ~ forall ks k i, (i < length ks)%nat -> attributes (created (ks ++ [k])) i = attributes (created ks) i.
Proof. exact shared_witness. Qed.
Print Assumptions C63_history_refuted.
Example C63_example : (exists d, attributes (created [Plain; OwnDict; Geqdsk (fun x _ => x); Geqdsk (fun _ z => z)]) 2 = Some d /\
    exists v, dict_get d "psi" = Some v /\ v 1 5 0 = 5) /\
  attributes (created [Plain; OwnDict; Geqdsk (fun x _ => x)]) 1 = Some [].
Proof.
  split; [|reflexivity]. eexists. split; [reflexivity|]. eexists. split; reflexivity.
Qed.

(** C64: the factor is between 0 and 1, it is 1 exactly in the inner box, 0 exactly
    outside of the outer box, and in between the smallest of four straight ramps. *)
Theorem C64_range b x z : nested b -> 0 <= smooth_field_line b x z <= 1.
Proof. exact (smooth_range b x z). Qed.
Print Assumptions C64_range.
Theorem C64_inner b x z : nested b -> (smooth_field_line b x z == 1 <-> inside_inner b x z).
Proof. exact (smooth_one b x z). Qed.
Print Assumptions C64_inner.
Theorem C64_outer b x z : nested b -> (smooth_field_line b x z == 0 <-> outside_outer b x z).
Proof. exact (smooth_zero b x z). Qed.
Print Assumptions C64_outer.
Theorem C64_between b x z : nested b -> ~ outside_outer b x z ->
  smooth_field_line b x z == Qmin 1 (Qmin (Qmin (ramp (xl_inner b) (xl_outer b) x) (ramp (xr_inner b) (xr_outer b) x))
                       (Qmin (ramp (zb_inner b) (zb_outer b) z) (ramp (zt_inner b) (zt_outer b) z))).
Proof. exact (smooth_between b x z). Qed.
Print Assumptions C64_between.
Example C64_example : let b := {| xl_inner := 1; xl_outer := 0; xr_inner := 3; xr_outer := 4; zb_inner := 1; zb_outer := 0; zt_inner := 2; zt_outer := 4 |} in
  nested b /\ smooth_field_line b 2 2 == 1 /\ smooth_field_line b (1 # 2) 3 == 1 # 2 /\ smooth_field_line b 5 2 == 0 /\ smooth_field_line b 2 3 == 1 # 2.
Proof. vm_compute. repeat split; discriminate. Qed.

(** C76: a profile that is linear in radius, given on the half mesh, is reproduced on
    the full mesh by the inner points only; *)
Theorem C76_inner n a b : (3 <= n)%nat -> exists out, rolling_average (half_mesh n (fun s => a + b * s)) = Ok out /\ length out = n /\
  forall i, (2 <= i)%nat -> (i + 2 < n)%nat -> nth i out 0 == a + b * inject_Z (Z.of_nat i).
Proof. exact (rolling_inner n a b). Qed.
Print Assumptions C76_inner.
(** C76, false at the other four: a constant a becomes a/2 at the axis and 0 next to
    both ends, and a slope is not followed at the last point. *)
Theorem C76_ends_refuted n a b : (4 <= n)%nat -> exists out, rolling_average (half_mesh n (fun s => a + b * s)) = Ok out /\
  nth 0 out 0 == a / 2 - b / 4 /\ nth 1 out 0 == 0 /\ nth (n - 2) out 0 == 0 /\
  nth (n - 1) out 0 == a + b * inject_Z (Z.of_nat (n - 1)) - b / 2.
Proof. exact (rolling_ends n a b). Qed.
Print Assumptions C76_ends_refuted.
Theorem C76_short f : (length f < 3)%nat -> rolling_average f = Err IndexError.
Proof. exact (rolling_few f). Qed.
Print Assumptions C76_short.
Example C76_example : exists out, rolling_average [7; 7; 7; 7; 7; 7] = Ok out /\ map Qred out = [7 # 2; 0; 7; 7; 0; 7].
Proof. eexists. split; vm_compute; reflexivity. Qed.

(** C78: every coil of a set of currents has one current, no coil is there twice, and
    the ten coils of a kind have the same; *)
Theorem C78_coils c r : set_config c = Ok r ->
  match r with
  | ConfigId i => c = CInt i /\ (0 <= i)%Z
  | Coils ids currents => length ids = 70%nat /\ length currents = 70%nat /\ NoDup ids /\
      forall k j, (k < 70)%nat -> (j < 70)%nat -> (k / 10 = j / 10)%nat -> nth k currents 0%Z = nth j currents 0%Z
  end.
Proof. exact (set_config_ok c r). Qed.
Print Assumptions C78_coils.
(** the numbers: from 160 the five kinds of non-planar coils in turn, from 210 the two kinds of planar ones; *)
Theorem C78_numbers c ids currents : set_config c = Ok (Coils ids currents) ->
  forall g k, (k < 10)%nat -> ((g < 5)%nat -> nth (10 * g + k) ids 0%Z = (160 + 5 * Z.of_nat k + Z.of_nat g)%Z) /\
    ((g < 2)%nat -> nth (50 + 10 * g + k) ids 0%Z = (210 + 2 * Z.of_nat k + Z.of_nat g)%Z).
Proof. exact (set_config_ids c ids currents). Qed.
Print Assumptions C78_numbers.
(** 108 windings for the fifty non-planar coils, 36 for the twenty planar ones; *)
Theorem C78_windings k : (k < 70)%nat ->
  (exists ids currents, set_config (CName "FMM002") = Ok (Coils ids currents) /\ nth k currents 0%Z = if (k <? 50)%nat then (108 * 13423)%Z else (36 * -3544)%Z) /\
  (exists ids currents, set_config (CInt (-1)) = Ok (Coils ids currents) /\ nth k currents 0%Z = if (k <? 50)%nat then 108%Z else 36%Z).
Proof. exact (windings k). Qed.
Print Assumptions C78_windings.
(** an unknown name or number is refused; *)
Theorem C78_unknown c e : set_config c = Err e -> e = KeyError /\ match c with CInt i => (i < -1)%Z | CName s => s <> "FMM002"%string end.
Proof. exact (set_config_err c e). Qed.
Print Assumptions C78_unknown.
(** the service is asked once more after an error, and then what it says counts. *)
Theorem C78_retry {A} (call : nat -> res A) : calc_chunk call =
  match call 0%nat with
  | Ok a => Some (Ok a, 1%nat, [])
  | Err _ => Some (call 1%nat, 2%nat, [(6 # 10) - (4 # 10) * 1])
  end.
Proof. exact (calc_chunk_eq call). Qed.
Print Assumptions C78_retry.
Example C78_example : (exists ids currents, set_config (CName "FMM002") = Ok (Coils ids currents) /\ nth 0 currents 0%Z = 1449684%Z /\ nth 69 currents 0%Z = (-127584)%Z /\
    nth 0 ids 0%Z = 160%Z /\ nth 69 ids 0%Z = 229%Z) /\
  set_config (CInt 7) = Ok (ConfigId 7) /\ set_config (CInt (-2)) = Err KeyError.
Proof. split; [|split; reflexivity]. eexists _, _. split; [reflexivity|]. vm_compute. repeat split. Qed.
