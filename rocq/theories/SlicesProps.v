(** Property C116: slices of the examples. *)
From Coq Require Import List ZArith QArith Lia Lqa.
From Verif Require Import Prelude PreludeFacts GridModel GridSpec SlicesModel SlicesProofs.
Import ListNotations.
Open Scope Q_scope.

(** ** C116 *)
Theorem C116_even : forall G (pols : list G) L n g, ellipse_grid pols L n = Ok g ->
  (forall i, exists p, nth_error pols (Z.to_nat (i mod Z.of_nat n)) = Some p /\
     returns (getPoloidalGrid g (inject_Z i)) (Some p) (inject_Z i * (L / inject_Z (Z.of_nat n)))) /\
  exists dy, metric_dy g = Ok dy /\ length dy = n /\ (forall k, (k < n)%nat -> nth k dy 0 == L / inject_Z (Z.of_nat n)) /\ qsum dy == L.
Proof. exact @open_all. Qed.
Print Assumptions C116_even.

Theorem C116_even_single : forall G (pol : G) L n g, screwpinch_grid pol L n = Ok g ->
  (forall i, returns (getPoloidalGrid g (inject_Z i)) (Some pol) (inject_Z i * (L / inject_Z (Z.of_nat n)))) /\
  exists dy, metric_dy g = Ok dy /\ length dy = n /\ (forall k, (k < n)%nat -> nth k dy 0 == L / inject_Z (Z.of_nat n)) /\ qsum dy == L.
Proof. exact @open_single. Qed.
Print Assumptions C116_even_single.

(** In the scripts with both ends of the period slice i is i - floor(i / n) steps of L / (n - 1)
    from the start: none from the last slice of a period to the first of the next one.  dy is the
    step for all slices, L + L / (n - 1) in all. *)
Theorem C116_scripts : forall G (pols : list G) L n g, (2 <= n)%nat -> script_grid pols L n = Ok g ->
  (forall i, exists p, nth_error pols (Z.to_nat (i mod Z.of_nat n)) = Some p /\
     returns (getPoloidalGrid g (inject_Z i)) (Some p) (inject_Z (i - i / Z.of_nat n) * (L / inject_Z (Z.of_nat (n - 1))))) /\
  exists dy, metric_dy g = Ok dy /\ length dy = n /\ (forall k, (k < n)%nat -> nth k dy 0 == L / inject_Z (Z.of_nat (n - 1))) /\
    qsum dy == L + L / inject_Z (Z.of_nat (n - 1)).
Proof. exact @closed_all. Qed.
Print Assumptions C116_scripts.

(** The eight slices of examples/straight-stellarator-curvilinear.py *)
Theorem C116_scripts_refuted : exists g, script_grid [0; 1; 2; 3; 4; 5; 6; 7]%nat 10 8 = Ok g /\
  (exists y y', getPoloidalGrid g (inject_Z 7) = Ok (Some 7%nat, y) /\ getPoloidalGrid g (inject_Z 8) = Ok (Some 0%nat, y') /\ y' == y) /\
  exists dy, metric_dy g = Ok dy /\ nth 7 dy 0 == 10 / 7 /\ ~ qsum dy == 10.
Proof.
  eexists. split; [reflexivity|]. split; [do 2 eexists; split; [reflexivity|]; split; [reflexivity|]; reflexivity|].
  eexists. split; [reflexivity|]. split; [reflexivity|]. discriminate.
Qed.
Print Assumptions C116_scripts_refuted.

(** With the angle P in a grid of length L *)
Theorem C116_mms : forall G (pol : G) P L n g, (2 <= n)%nat -> mms_grid pol P L n = Ok g ->
  (forall i, returns (getPoloidalGrid g (inject_Z i)) (Some pol) (inject_Z (i mod Z.of_nat n) * (P / inject_Z (Z.of_nat n)) + inject_Z (i / Z.of_nat n) * L)) /\
  ((forall i p p' y y', getPoloidalGrid g (inject_Z i) = Ok (p, y) -> getPoloidalGrid g (inject_Z (i + 1)) = Ok (p', y') ->
     y' - y == L / inject_Z (Z.of_nat n)) <-> P == L).
Proof. intros G pol P L n g H E. split; [exact (mms_all pol P L n g E)|exact (mms_even pol P L n g H E)]. Qed.
Print Assumptions C116_mms.

Example C116_example : (exists g, ellipse_grid [0; 1; 2; 3]%nat 10 4 = Ok g /\ exists y, getPoloidalGrid g (inject_Z 5) = Ok (Some 1%nat, y) /\ y == 25 # 2) /\
  (exists g, screwpinch_grid tt 10 4 = Ok g) /\ exists g, mms_grid tt (125664 # 100000) 5 4 = Ok g.
Proof. split; [|split]; eexists; [split; [reflexivity|eexists; split; reflexivity]|reflexivity|reflexivity]. Qed.
