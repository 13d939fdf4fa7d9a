(** The approximate invariant of the field lines of Dommaschk potentials. *)
From Coq Require Import List Reals ZArith Lra.
From Verif Require Import Prelude FieldReal CoilSpec CoilProofs DomModel DomHatModel DomHatSpec DomInv.
Import ListNotations.
Open Scope R_scope.

(** Without axisymmetric modes the invariant changes along field lines only in second order of the coefficients. *)
Theorem C100_second_order_partial n0 n1 A R_0 r1 r2 zm : 0 < R_0 -> 0 < r1 -> (forall j, A 0%nat j = (0, 0, 0, 0)) -> second_order n0 n1 A R_0 r1 r2 zm.
Proof. exact (invariant n0 n1 A R_0 r1 r2 zm). Qed.
Print Assumptions C100_second_order_partial.
(** With the axisymmetric mode n = 0, m = 2 it does not: V_hat multiplies phi by the coefficient -b, not a. *)
Theorem C100_axisymmetric_refuted : exists n0 n1 A R_0 r1 r2 zm, 0 < R_0 /\ 0 < r1 /\ ~ second_order n0 n1 A R_0 r1 r2 zm.
Proof. exists 1%nat, 3%nat, (mode02 1 0), 1, (1 / 2), 2, 3. split; [lra|]. split; [lra|]. exact not_second_order. Qed.
Print Assumptions C100_axisymmetric_refuted.
(** The coefficient b of that mode leaves the field as it is, and lets the invariant grow with every turn. *)
Theorem C100_secular_refuted : exists n0 n1 A R_0, 0 < R_0 /\
  (forall B_0 x z phi, 0 < x -> dom_Bx n0 n1 A R_0 B_0 x z phi = 0 /\ dom_By n0 n1 A R_0 B_0 x z phi = B_0 / x /\ dom_Bz n0 n1 A R_0 B_0 x z phi = 0) /\
  forall z phi, Sfunc n0 n1 A R_0 R_0 z (phi + 2 * PI) = Sfunc n0 n1 A R_0 R_0 z phi + 2 * PI * z ^ 2.
Proof.
  exists 1%nat, 3%nat, (scaled 1 (mode02 0 1)), 1. split; [lra|]. split; [exact b_mode_field|]. intros z phi. rewrite !S_02. ring.
Qed.
Print Assumptions C100_secular_refuted.
(** The invariant is made from the derivatives of the integrated sum of the modes, which exist. *)
Theorem C100_value n0 n1 A R_0 x z phi : 0 < R_0 -> 0 < x ->
  exists hx hz, d_x (integrated n0 n1 A R_0) x z phi hx /\ d_z (integrated n0 n1 A R_0) x z phi hz /\
    Sfunc n0 n1 A R_0 x z phi = (ln (x / R_0) ^ 2 + (z / R_0) ^ 2) / 2 - (x * ln (x / R_0) * hx + (x / R_0) ^ 2 * z * hz).
Proof.
  intros HR H. destruct (integrated_diff n0 n1 A R_0 x z phi HR H) as (hx & hz & Hx & Hz). exists hx, hz. split; [exact Hx|]. split; [exact Hz|].
  exact (S_formula n0 n1 A R_0 x z phi hx hz HR H Hx Hz).
Qed.
Print Assumptions C100_value.
(** The invariant is zero on the circle R = R_0, Z = 0, *)
Theorem C100_axis n0 n1 A R_0 phi : 0 < R_0 -> Sfunc n0 n1 A R_0 R_0 0 phi = 0.
Proof. exact (S_axis n0 n1 A R_0 phi). Qed.
Print Assumptions C100_axis.
(** is periodic in the toroidal angle without axisymmetric modes, *)
Theorem C100_periodic n0 n1 A R_0 x z phi : 0 < R_0 -> (forall j, A 0%nat j = (0, 0, 0, 0)) -> 0 < x -> Sfunc n0 n1 A R_0 x z (phi + 2 * PI) = Sfunc n0 n1 A R_0 x z phi.
Proof. exact (S_period n0 n1 A R_0 x z phi). Qed.
Print Assumptions C100_periodic.
(** and without modes has circles as contours, in ln R and Z. *)
Theorem C100_empty n0 n1 A R_0 x z phi : (forall i j, A i j = (0, 0, 0, 0)) -> Sfunc n0 n1 A R_0 x z phi = (ln (x / R_0) ^ 2 + (z / R_0) ^ 2) / 2.
Proof. exact (S_empty n0 n1 A R_0 x z phi). Qed.
Print Assumptions C100_empty.
(** a table and a field line that meet the hypotheses, for every multiple *)
Example C100_example eps : (forall j, mode52 0 j = (0, 0, 0, 0)) /\ mode52 5 2 <> (0, 0, 0, 0) /\
  field_line (dom_Bx 6 3 (scaled eps mode52) 1 2) (dom_By 6 3 (scaled eps mode52) 1 2) (dom_Bz 6 3 (scaled eps mode52) 1 2) radius (fun _ => 1) (fun _ => 0) 0 (2 * PI).
Proof.
  split; [reflexivity|]. split; [|apply axis_line; lra]. intros E. apply (f_equal (fun t => fst (fst (fst t)))) in E. cbn in E. lra.
Qed.
