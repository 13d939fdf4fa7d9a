(** Properties C23, C24: metrics. *)
From Coq Require Import List ZArith QArith Lia Lqa.
From Verif Require Import Prelude PreludeFacts GridModel GridSpec GridMetric MetricModel MetricSpec MetricProofs.
Import ListNotations.
Open Scope Q_scope.

(** C23, cylindrical fields: in every history of calls and cache resets all
    calls return the same metric, g_yy = R^2 (B/By)^2.  Missing: Cartesian fields. *)
Theorem C23_cylindrical_partial : forall G (pm : G -> pol_metric) Bmag pressure Byfunc sqrt (g : grid G) R bJ,
  well_formed g -> all_status pm g bJ -> forall ops,
  exists l, history G pm (Some R) Bmag pressure Byfunc sqrt g ops None = Ok l /\
    Forall (metric_is pm Bmag pressure g
      (fun p q x z => R p q x z * R p q x z * par Bmag Byfunc p q x z)
      (fun p q x z => 1 / (R p q x z * R p q x z) * rap Bmag Byfunc p q x z)) l.
Proof. exact (@cylindrical). Qed.
Print Assumptions C23_cylindrical_partial.

(** C23, Cartesian fields: every call since the last cache reset multiplies the
    cached g_yy once more by (B/By)^2. *)
Theorem C23_cartesian_calls_accumulate : forall G (pm : G -> pol_metric) Bmag pressure Byfunc sqrt (g : grid G) bJ,
  well_formed g -> all_status pm g bJ -> forall ops,
  exists l, history G pm None Bmag pressure Byfunc sqrt g ops None = Ok l /\
    Forall2 (fun m k => metric_is pm Bmag pressure g
      (fun p q x z => par Bmag Byfunc p q x z ^ Z.of_nat (S k))
      (fun p q x z => rap Bmag Byfunc p q x z ^ Z.of_nat (S k)) m) l (gets_since ops 0).
Proof. exact (@cartesian). Qed.
Print Assumptions C23_cartesian_calls_accumulate.

(** One slice, |B| = 2, By = 1: two calls, g_yy = 4 and then 16. *)
Definition one_slice : grid nat := {| poloidal_grids := [0%nat]; ycoords := [0]; Ly := 1; yperiodic := true |}.
Theorem C23_cartesian_refuted : exists m1 m2,
  history nat (fun _ => rect_metric 1 1) None (fun _ _ _ _ => 2) (fun _ _ _ _ => 0) (fun _ _ _ _ => 1) (fun q => q)
    one_slice [Get; Get] None = Ok [m1; m2] /\
  m_g_yy (md m1) 0%Z 0%Z 0%Z == 4 /\ m_g_yy (md m2) 0%Z 0%Z 0%Z == 16.
Proof. eexists _, _. split; [reflexivity|]. split; vm_compute; reflexivity. Qed.
Print Assumptions C23_cartesian_refuted.

(** C24, rectangular grids. *)
Theorem C24_rectangular_metric : forall dR dZ x z, 0 < dR -> 0 < dZ ->
  let m := rect_metric dR dZ in
  consistent_at m x z /\
  (p_g_xx m x z * p_g_zz m x z - p_g_xz m x z * p_g_xz m x z) * (p_dx m x z * p_dz m x z) * (p_dx m x z * p_dz m x z)
    == (dR * dZ) * (dR * dZ) /\
  p_g_xx m x z * (p_dx m x z * p_dx m x z) == dR * dR /\ p_g_zz m x z * (p_dz m x z * p_dz m x z) == dZ * dZ /\ p_g_xz m x z == 0.
Proof. intros. split; [apply rect_consistent|cbn; repeat split; ring]. Qed.
Print Assumptions C24_rectangular_metric.

(** C24, structured grids: the metric is accepted exactly if no cell is
    degenerate ... *)
Theorem C24_structured_accepted : forall nx nz Rx Zx Rz Zz, (0 < nx)%nat -> (0 < nz)%nat ->
  ((exists m, struct_metric nx nz Rx Zx Rz Zz = Ok m) <->
   forall x z, (0 <= x < Z.of_nat nx)%Z -> (0 <= z < Z.of_nat nz)%Z -> ~ Rx x z * Zz x z - Rz x z * Zx x z == 0).
Proof. exact struct_iff. Qed.
Print Assumptions C24_structured_accepted.

(** ... and then is symmetric, positive definite, inverse to the contravariant
    one, its lengths and angles are those of the index derivatives and its
    volume element is the area they span. *)
Theorem C24_structured_metric : forall nx nz Rx Zx Rz Zz, (0 < nx)%nat -> (0 < nz)%nat -> forall m,
  struct_metric nx nz Rx Zx Rz Zz = Ok m ->
  forall x z, (0 <= x < Z.of_nat nx)%Z -> (0 <= z < Z.of_nat nz)%Z ->
  consistent_at m x z /\ p_dx m x z == 1 / inject_Z (Z.of_nat nx) /\ p_dz m x z == 1 / inject_Z (Z.of_nat nz) /\
  p_g_xx m x z * (p_dx m x z * p_dx m x z) == Rx x z * Rx x z + Zx x z * Zx x z /\
  p_g_zz m x z * (p_dz m x z * p_dz m x z) == Rz x z * Rz x z + Zz x z * Zz x z /\
  p_g_xz m x z * (p_dx m x z * p_dz m x z) == Rx x z * Rz x z + Zx x z * Zz x z /\
  (p_g_xx m x z * p_g_zz m x z - p_g_xz m x z * p_g_xz m x z) * (p_dx m x z * p_dz m x z) * (p_dx m x z * p_dz m x z)
  == (Rx x z * Zz x z - Rz x z * Zx x z) * (Rx x z * Zz x z - Rz x z * Zx x z).
Proof. exact struct_ok. Qed.
Print Assumptions C24_structured_metric.

(** A sheared 2x2 grid: R = x + z/2, Z = z. *)
Example C24_concrete : exists m,
  struct_metric 2 2 (fun _ _ => 1) (fun _ _ => 0) (fun _ _ => 1#2) (fun _ _ => 1) = Ok m /\
  Qred (p_g_xz m 0%Z 0%Z) = 2 /\ Qred (p_gxx m 0%Z 0%Z) = 5#16.
Proof. eexists. split; [vm_compute; reflexivity|]. split; vm_compute; reflexivity. Qed.

Example C23_concrete : well_formed one_slice /\ all_status (fun _ => rect_metric 1 1) one_slice false.
Proof. split; [split; cbn; lia|]. intros y Hy. cbn in Hy. assert (y = 0%Z) by lia. now subst y. Qed.

Example C23_after_reset : gets_since [Get; Get; ResetCache; Get] 0 = [0; 1; 0]%nat.
Proof. reflexivity. Qed.
