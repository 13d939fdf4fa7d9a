(** Property C88: calc_iota. *)
From Coq Require Import List ZArith Reals.
From Verif Require Import Prelude IotaModel IotaProofs.
Import ListNotations.
Open Scope R_scope.

(** For a line whose major radius goes like a cosine of iota times the angle, the turn
    found is right up to the distance of two samples, as long as no maximum is midway
    between two samples.  Missing: those, see below. *)
Theorem C88_accuracy_partial trace x i ph A R0 : trace (angles (400 * PI) (Z.to_nat 10000)) = Ok x ->
  like_cosine i ph A R0 (angles (400 * PI) (Z.to_nat 10000)) x -> 0 < A -> 1 / 99 <= i <= 9 / 2 ->
  (forall (k : nat) (q : Z), Rabs (i * (PI / 25) * INR k + ph - 2 * PI * IZR q) <> i * (PI / 25) / 2) ->
  exists v, calc_iota trace = Ok v /\ 0 < v /\ Rabs (2 * PI / v - 2 * PI / i) < PI / 25.
Proof. exact (calc_close trace x i ph A R0). Qed.
Print Assumptions C88_accuracy_partial.

(** A maximum midway between two samples is no maximum, as neither is greater than the other
    one: lines started at a maximum that take an odd number of half samples for each turn get
    half of their iota. *)
Theorem C88_half_refuted trace x A R0 (j : nat) : (11 <= j <= 2498)%nat -> trace (angles (400 * PI) (Z.to_nat 10000)) = Ok x ->
  like_cosine (100 / INR (2 * j + 1)) 0 A R0 (angles (400 * PI) (Z.to_nat 10000)) x -> 0 < A -> calc_iota trace = Ok (100 / INR (2 * j + 1) / 2).
Proof. exact (calc_half trace x A R0 j). Qed.
Print Assumptions C88_half_refuted.

(** Lines that make less than a turn while being followed are an IndexError, *)
Theorem C88_short trace x i A R0 : trace (angles (400 * PI) (Z.to_nat 10000)) = Ok x ->
  like_cosine i 0 A R0 (angles (400 * PI) (Z.to_nat 10000)) x -> 0 < A -> 0 < i <= 1 / 201 -> calc_iota trace = Err IndexError.
Proof. exact (calc_short trace x i A R0). Qed.
Print Assumptions C88_short.

(** and whatever the line, the result is positive: it does not tell the sense of rotation. *)
Theorem C88_positive trace x v : trace (angles (400 * PI) (Z.to_nat 10000)) = Ok x -> length x = Z.to_nat 10000 -> calc_iota trace = Ok v -> 0 < v.
Proof. exact (calc_positive trace x v). Qed.
Print Assumptions C88_positive.

(** Concrete: iota = 1, R = 5 + cos(phi)/2. *)
Example C88_example : let trace := fun l => Ok (map (fun t => 5 + / 2 * cos (1 * t + 0)) l) in
  (exists v, calc_iota trace = Ok v /\ 0 < v /\ Rabs (2 * PI / v - 2 * PI / 1) < PI / 25) /\
  calc_iota (fun l => Ok (map (fun t => 5 + / 2 * cos (100 / INR (2 * 50 + 1) * t + 0)) l)) = Ok (100 / INR (2 * 50 + 1) / 2).
Proof.
  cbv zeta. split.
  - eapply (C88_accuracy_partial _ _ 1 0 (/ 2) 5); [reflexivity|reflexivity| | |exact no_tie_one]; [apply Rinv_0_lt_compat, Rlt_0_2|split].
    + apply Rmult_le_reg_r with 99; [now apply IZR_lt|]. unfold Rdiv. rewrite Rmult_assoc, Rinv_l, !Rmult_1_l by now apply IZR_neq. now apply IZR_le.
    + apply Rmult_le_reg_r with 2; [exact Rlt_0_2|]. unfold Rdiv. rewrite Rmult_assoc, Rinv_l, Rmult_1_l, Rmult_1_r by now apply IZR_neq. now apply IZR_le.
  - eapply (C88_half_refuted _ _ (/ 2) 5 50); [split; now apply Nat.leb_le|reflexivity|reflexivity|apply Rinv_0_lt_compat, Rlt_0_2].
Qed.
