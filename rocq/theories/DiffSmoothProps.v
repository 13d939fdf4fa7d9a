(** C122: the differences of diff.py on smooth functions.  The functions return the difference per point: the
    derivative times the distance [h] of the points. *)
From Coq Require Import List ZArith QArith Reals Qreals Lra.
From Verif Require Import Prelude SmoothModel DiffModel DiffSpec DiffSmoothSpec DiffSmooth.
Import ListNotations.
Open Scope R_scope.

(** [c2]: second order inside, first order at the two ends. *)
Theorem C122_c2 l f f1 x0 h delta M2 M3 junk : third M2 M3 f f1 -> 0 < h -> samples l f x0 h delta -> (3 <= len l)%Z ->
  exists out, c2 junk l = Ok out /\ len out = len l /\
  (forall i, (0 < i < len l - 1)%Z -> Rabs (Q2R (at_ out i) - h * f1 (x0 + IZR i * h)) <= M3 * (h * h * h) / 6 + delta) /\
  (forall i, (i = 0 \/ i = len l - 1)%Z -> Rabs (Q2R (at_ out i) - h * f1 (x0 + IZR i * h)) <= M2 * (h * h) + M3 * (h * h * h) / 6 + delta).
Proof. exact (fun S3 Hh V => c2_smooth l f f1 x0 h delta M2 M3 S3 Hh V junk). Qed.
Print Assumptions C122_c2.
(** At the ends it is not second order, whatever the constant; for the sine at 0, which test_diff.py looks at, the
    second derivative happens to vanish. *)
Theorem C122_c2_ends_refuted K : ~ forall l f f1 x0 h delta M2 M3 junk out i, third M2 M3 f f1 -> 0 < h -> samples l f x0 h delta -> (3 <= len l)%Z ->
  c2 junk l = Ok out -> (0 <= i < len l)%Z -> Rabs (Q2R (at_ out i) - h * f1 (x0 + IZR i * h)) <= K * M3 * (h * h * h) + K * delta.
Proof. exact (c2_ends_first_order K). Qed.
Print Assumptions C122_c2_ends_refuted.
Theorem C122_c2_periodic l f f1 x0 h delta M2 M3 i : third M2 M3 f f1 -> 0 < h -> samples l f x0 h delta -> (forall t, f (t + IZR (len l) * h) = f t) -> (0 <= i < len l)%Z ->
  Rabs (Q2R (at_ (c2_periodic l) i) - h * f1 (x0 + IZR i * h)) <= M3 * (h * h * h) / 6 + delta.
Proof. exact (c2_periodic_smooth l f f1 x0 h delta M2 M3 i). Qed.
Print Assumptions C122_c2_periodic.
(** [c4]: fourth order at every point; [B] bounds the data and pays for the decimals of the coefficients at the ends. *)
Theorem C122_c4 l f f1 x0 h delta M5 B junk : fifth M5 f f1 -> 0 < h -> samples l f x0 h delta -> (forall i, (0 <= i < len l)%Z -> Rabs (Q2R (at_ l i)) <= B) -> (5 <= len l)%Z ->
  exists out, c4 junk l = Ok out /\ len out = len l /\
  (forall i, (2 <= i < len l - 2)%Z -> Rabs (Q2R (at_ out i) - h * f1 (x0 + IZR i * h)) <= M5 * (h * h * h * h * h) / 18 + 3 / 2 * delta) /\
  (forall i, (i = 1 \/ i = len l - 2)%Z -> Rabs (Q2R (at_ out i) - h * f1 (x0 + IZR i * h)) <= M5 * (h * h * h * h * h) * 19 / 60 + 19 / 6 * delta + B / 15000000000000000) /\
  (forall i, (i = 0 \/ i = len l - 1)%Z -> Rabs (Q2R (at_ out i) - h * f1 (x0 + IZR i * h)) <= M5 * (h * h * h * h * h) * 17 / 3 + 32 / 3 * delta + B / 15000000000000000).
Proof. exact (fun S5 Hh V Hb => c4_smooth l f f1 x0 h delta M5 B S5 Hh V Hb junk). Qed.
Print Assumptions C122_c4.
Theorem C122_c4_periodic l f f1 x0 h delta M5 i : fifth M5 f f1 -> 0 < h -> samples l f x0 h delta -> (forall t, f (t + IZR (len l) * h) = f t) -> (0 <= i < len l)%Z ->
  Rabs (Q2R (at_ (c4_periodic l) i) - h * f1 (x0 + IZR i * h)) <= M5 * (h * h * h * h * h) / 18 + 3 / 2 * delta.
Proof. exact (c4_periodic_smooth l f f1 x0 h delta M5 i). Qed.
Print Assumptions C122_c4_periodic.

(** The sine at multiples of a right angle meets the hypotheses. *)
Example C122_example : third 1 1 sin cos /\ fifth 1 sin cos /\ 0 < PI / 2 /\
  (samples [0; 1; 0; - (1)]%Q sin 0 (PI / 2) 0 /\ forall t, sin (t + IZR (len [0; 1; 0; - (1)]%Q) * (PI / 2)) = sin t) /\
  (5 <= len [0; 1; 0; - (1); 0; 1]%Q)%Z /\ samples [0; 1; 0; - (1); 0; 1]%Q sin 0 (PI / 2) 0 /\
  (forall i, (0 <= i < len [0; 1; 0; - (1); 0; 1]%Q)%Z -> Rabs (Q2R (at_ [0; 1; 0; - (1); 0; 1]%Q i)) <= 1).
Proof. exact (conj sine_third (conj sine_fifth (conj PI2_RGT_0 (conj four_samples six_samples)))). Qed.
