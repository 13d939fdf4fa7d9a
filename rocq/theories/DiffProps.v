(** Properties C54 and C55. *)
From Coq Require Import List ZArith QArith Qabs.
From Verif Require Import Prelude SmoothModel DiffModel DiffSpec DiffProofs.
Import ListNotations.
Open Scope Q_scope.

(** C54, what holds: on data a + b i + c i^2 the interior values are exactly the
    derivative; the first and last value are the derivative at the neighbouring
    point, so exact for c = 0 only. *)
Theorem C54_quadratic_partial junk f a b c : (3 <= len f)%Z -> (forall i, (0 <= i < len f)%Z -> at_ f i == quad a b c i) ->
  exists out, c2 junk f = Ok out /\ len out = len f /\
    (forall i, (0 < i < len f - 1)%Z -> at_ out i == b + 2 * c * inject_Z i) /\
    at_ out 0 == b + 2 * c * 1 /\ at_ out (len f - 1) == b + 2 * c * inject_Z (len f - 2).
Proof. exact (c2_quadratic junk f a b c). Qed.
Print Assumptions C54_quadratic_partial.
(** The periodic version takes half the difference of the two neighbours around the
    period and sums to zero. *)
Theorem C54_periodic f : len (c2_periodic f) = len f /\ qsum (c2_periodic f) == 0 /\
  forall i, (0 <= i < len f)%Z -> at_ (c2_periodic f) i == (at_ f ((i + 1) mod len f) - at_ f ((i - 1) mod len f)) / 2.
Proof. exact (c2_periodic_ok f). Qed.
Print Assumptions C54_periodic.
Theorem C54_short junk f : (len f < 3)%Z -> c2 junk f = Err IndexError.
Proof. exact (c2_short junk f). Qed.
Print Assumptions C54_short.
Example C54_example : c2 77 [0; 1; 4; 9; 16] = Ok [4 / 2; (4 - 0) / 2; (9 - 1) / 2; (16 - 4) / 2; (16 - 4) / 2] /\
  forall i, (0 <= i < 5)%Z -> at_ [0; 1; 4; 9; 16] i == quad 0 0 1 i.
Proof.
  split; [vm_compute; reflexivity|]. intros i Hi.
  assert (H : (i = 0 \/ i = 1 \/ i = 2 \/ i = 3 \/ i = 4)%Z) by Lia.lia. destruct H as [->|[->|[->|[->| ->]]]]; vm_compute; reflexivity.
Qed.
(** C54, false at the ends: on i^2 the first value is 2, not 0. *)
Theorem C54_ends_refuted : ~ forall junk f out a b c, (3 <= len f)%Z -> (forall i, (0 <= i < len f)%Z -> at_ f i == quad a b c i) ->
  c2 junk f = Ok out -> forall i, (0 <= i < len f)%Z -> at_ out i == b + 2 * c * inject_Z i.
Proof. exact c2_ends_wrong. Qed.
Print Assumptions C54_ends_refuted.

(** C55: on data of degree four the interior values are exactly the derivative.  At
    the two points next to each end the coefficients are decimals of 25/12, 4/3, 5/6
    and 1/12, so the values are the derivative up to a third of 1e-16 of the two
    data they multiply; with the exact fractions they would be exact. *)
Theorem C55_quartic_partial junk f a b c d e : (5 <= len f)%Z -> (forall i, (0 <= i < len f)%Z -> at_ f i == quartic a b c d e i) ->
  exists out, c4 junk f = Ok out /\ len out = len f /\
    (forall i, (2 <= i < len f - 2)%Z -> at_ out i == quartic' b c d e i) /\
    Qabs (at_ out 0 - quartic' b c d e 0) <= (1 # 30000000000000000) * (Qabs (at_ f 0) + Qabs (at_ f 3)) /\
    Qabs (at_ out 1 - quartic' b c d e 1) <= (1 # 30000000000000000) * (Qabs (at_ f 1) + Qabs (at_ f 4)) /\
    Qabs (at_ out (len f - 2) - quartic' b c d e (len f - 2)) <= (1 # 30000000000000000) * (Qabs (at_ f (len f - 2)) + Qabs (at_ f (len f - 5))) /\
    Qabs (at_ out (len f - 1) - quartic' b c d e (len f - 1)) <= (1 # 30000000000000000) * (Qabs (at_ f (len f - 1)) + Qabs (at_ f (len f - 4))).
Proof. exact (c4_quartic junk f a b c d e). Qed.
Print Assumptions C55_quartic_partial.
(** Exactly they are not: the derivative of a constant is 3e-18 there (below the
    rounding of doubles). *)
Theorem C55_ends_refuted : ~ forall junk f a b c d e, (5 <= len f)%Z -> (forall i, (0 <= i < len f)%Z -> at_ f i == quartic a b c d e i) ->
  exists out, c4 junk f = Ok out /\ at_ out 1 == quartic' b c d e 1.
Proof. exact c4_inexact. Qed.
Print Assumptions C55_ends_refuted.
Theorem C55_periodic f : len (c4_periodic f) = len f /\ qsum (c4_periodic f) == 0 /\
  forall i, (0 <= i < len f)%Z -> at_ (c4_periodic f) i ==
    (- at_ f ((i + 2) mod len f) + 8 * at_ f ((i + 1) mod len f) - 8 * at_ f ((i - 1) mod len f) + at_ f ((i - 2) mod len f)) / 12.
Proof. exact (c4_periodic_ok f). Qed.
Print Assumptions C55_periodic.
Theorem C55_short junk f : (len f < 5)%Z -> c4 junk f = Err IndexError.
Proof. exact (c4_short junk f). Qed.
Print Assumptions C55_short.
Example C55_example : (5 <= len w_quart)%Z /\ (forall i, (0 <= i < len w_quart)%Z -> at_ w_quart i == quartic 1 0 (- (2)) 0 1 i) /\
  exists out, c4 77 w_quart = Ok out /\ at_ out 3 == quartic' 0 (- (2)) 0 1 3.
Proof. exact w_quart_ok. Qed.
