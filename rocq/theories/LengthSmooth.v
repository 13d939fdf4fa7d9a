(** The length of a field line and the arc length of its interpolation. *)
From Coq Require Import List ZArith Reals Lia Lra Bool.
From Verif Require Import Prelude FieldReal CoilProofs ShapeProofs LengthModel LengthProofs LengthWitness RevAcc WeightsSmooth.
Import ListNotations.
Open Scope R_scope.

Definition norm3 (a b c : R) : R := sqrt (a ^ 2 + b ^ 2 + c ^ 2).
Lemma norm3_nonneg a b c : 0 <= norm3 a b c. Proof. apply sqrt_pos. Qed.
Lemma norm3_sq a b c : norm3 a b c * norm3 a b c = a ^ 2 + b ^ 2 + c ^ 2.
Proof. unfold norm3. apply sqrt_sqrt. pose proof (pow2_ge_0 a). pose proof (pow2_ge_0 b). pose proof (pow2_ge_0 c). lra. Qed.
Lemma norm3_reverse a b c d e f : Rabs (norm3 a b c - norm3 d e f) <= norm3 (a - d) (b - e) (c - f).
Proof.
  assert (A := norm_triangle (a - d) (b - e) (c - f) d e f). assert (B := norm_triangle (d - a) (e - b) (f - c) a b c). fold (norm3 (a - d) (b - e) (c - f)) in A. fold (norm3 d e f) in A. fold (norm3 a b c) in B.
  replace (a - d + d) with a in A by ring. replace (b - e + e) with b in A by ring. replace (c - f + f) with c in A by ring.
  replace (d - a + a) with d in B by ring. replace (e - b + b) with e in B by ring. replace (f - c + c) with f in B by ring.
  replace ((d - a) ^ 2 + (e - b) ^ 2 + (f - c) ^ 2) with ((a - d) ^ 2 + (b - e) ^ 2 + (c - f) ^ 2) in B by ring. fold (norm3 (a - d) (b - e) (c - f)) in B. fold (norm3 a b c) in A. fold (norm3 d e f) in B. apply Rabs_le. lra.
Qed.
Lemma sq_le x e : Rabs x <= e -> x ^ 2 <= e * e.
Proof. intros H. unfold Rabs in H. destruct (Rcase_abs x) in H; nra. Qed.
Lemma norm3_small a b c e : Rabs a <= e -> Rabs b <= e -> Rabs c <= e -> norm3 a b c <= 2 * e.
Proof.
  intros A B C. assert (0 <= e) by (apply Rle_trans with (2 := A); apply Rabs_pos). apply sq_le in A. apply sq_le in B. apply sq_le in C.
  unfold norm3. rewrite <- (sqrt_square (2 * e)) by lra. apply sqrt_le_1_alt. nra.
Qed.
Lemma norm3_scale h a b c : 0 <= h -> norm3 (h * a) (h * b) (h * c) = h * norm3 a b c.
Proof.
  intros H. unfold norm3. replace ((h * a) ^ 2 + (h * b) ^ 2 + (h * c) ^ 2) with ((h * h) * (a ^ 2 + b ^ 2 + c ^ 2)) by ring.
  rewrite sqrt_mult_alt by nra. now rewrite sqrt_square.
Qed.
Lemma cauchy_norm a b c d e f : a * d + b * e + c * f <= norm3 a b c * norm3 d e f.
Proof.
  assert (C := cauchy3 a b c d e f). assert (P := norm3_nonneg a b c). assert (Q := norm3_nonneg d e f). rewrite <- !norm3_sq in C.
  apply Rnot_lt_le. intros L. set (p := norm3 a b c) in *. set (q := norm3 d e f) in *. assert (0 <= p * q) by nra. nra.
Qed.

Lemma shift_lim f f' c s : (forall t, derivable_pt_lim f t (f' t)) -> derivable_pt_lim (fun s => f (c + s)) s (f' (c + s)).
Proof.
  intros D. assert (X := turn_lim f f' c 1 s D). rewrite !Rmult_1_l, Rmult_1_r in X. apply (derivable_pt_lim_ext (fun s => f (c + 1 * s))); [intros t; now rewrite Rmult_1_l|exact X].
Qed.
Section Component.
Variables (g g1 g2 : R -> R) (A : R).
Hypothesis D1 : forall t, derivable_pt_lim g t (g1 t).
Hypothesis D2 : forall t, derivable_pt_lim g1 t (g2 t).
Hypothesis B : forall t, 0 <= t <= 1 -> Rabs (g2 t) <= A.
Lemma slope_near t h : 0 <= t -> 0 <= h -> t + h <= 1 -> Rabs (g1 (t + h) - g1 t) <= h * A.
Proof.
  intros Ht Hh H1. apply (grows (fun u => g1 (t + u) - g1 t) (fun u => g2 (t + u) - 0) (fun u => u * A) (fun _ => A) h Hh).
  - intros u _. apply (derivable_pt_lim_minus (fun u => g1 (t + u)) (fun _ => g1 t)); [now apply shift_lim|apply derivable_pt_lim_const].
  - intros u _. apply lim_id_scal.
  - intros u Hu. rewrite Rminus_0_r. apply B. lra.
  - rewrite Rplus_0_r. ring.
  - ring.
Qed.
Lemma step_near t h : 0 <= t -> 0 <= h -> t + h <= 1 -> Rabs (g (t + h) - g t - h * g1 t) <= h * h / 2 * A.
Proof.
  intros Ht Hh H1. apply (grows (fun u => g (t + u) - g t - u * g1 t) (fun u => g1 (t + u) - 0 - g1 t) (fun u => u * u / 2 * A) (fun u => u * A) h Hh).
  - intros u _. apply (derivable_pt_lim_minus (fun u => g (t + u) - g t) (fun u => u * g1 t)); [|apply lim_id_scal].
    apply (derivable_pt_lim_minus (fun u => g (t + u)) (fun _ => g t)); [now apply shift_lim|apply derivable_pt_lim_const].
  - intros u _. apply lim_sq_scal.
  - intros u Hu. rewrite Rminus_0_r. apply slope_near; lra.
  - rewrite Rplus_0_r. ring.
  - field.
Qed.
End Component.

Section Curve.
Variables (X Y Z X1 Y1 Z1 X2 Y2 Z2 s : R -> R) (A : R).
Hypothesis DX : forall t, derivable_pt_lim X t (X1 t).
Hypothesis DY : forall t, derivable_pt_lim Y t (Y1 t).
Hypothesis DZ : forall t, derivable_pt_lim Z t (Z1 t).
Hypothesis Ds : forall t, derivable_pt_lim s t (norm3 (X1 t) (Y1 t) (Z1 t)).
Definition curve (t : R) : point3 := (X t, Y t, Z t).
Lemma chord_norm t u : dist3 (curve t) (curve u) = norm3 (X u - X t) (Y u - Y t) (Z u - Z t).
Proof. reflexivity. Qed.
Lemma arc_grows t h : 0 <= h -> s t <= s (t + h).
Proof.
  intros H. destruct (Req_dec h 0) as [->|N]; [rewrite Rplus_0_r; lra|].
  destruct (MVT_cor2 s (fun t => norm3 (X1 t) (Y1 t) (Z1 t)) t (t + h) ltac:(lra)) as (c & E & _); [intros; apply Ds|].
  assert (P := norm3_nonneg (X1 c) (Y1 c) (Z1 c)). assert (0 <= norm3 (X1 c) (Y1 c) (Z1 c) * (t + h - t)) by (apply Rmult_le_pos; lra). lra.
Qed.
Lemma chord_arc t h : 0 <= h -> dist3 (curve t) (curve (t + h)) <= s (t + h) - s t.
Proof.
  intros H. rewrite chord_norm. set (a := X (t + h) - X t). set (b := Y (t + h) - Y t). set (c := Z (t + h) - Z t). set (n := norm3 a b c).
  assert (P : 0 <= n) by apply norm3_nonneg. assert (G := arc_grows t h H). destruct (Req_dec n 0) as [->|N]; [lra|].
  destruct (Req_dec h 0) as [->|Nh].
  { exfalso. apply N. unfold n, a, b, c, norm3. rewrite Rplus_0_r. replace ((X t - X t) ^ 2 + (Y t - Y t) ^ 2 + (Z t - Z t) ^ 2) with 0 by ring. apply sqrt_0. }
  destruct (MVT_cor2 (fun u => n * s u - (a * X u + b * Y u + c * Z u)) (fun u => n * norm3 (X1 u) (Y1 u) (Z1 u) - (a * X1 u + b * Y1 u + c * Z1 u)) t (t + h) ltac:(lra)) as (u & E & _).
  { intros u _. apply (derivable_pt_lim_minus (fun u => n * s u) (fun u => a * X u + b * Y u + c * Z u)); [apply (derivable_pt_lim_scal s), Ds|].
    apply (derivable_pt_lim_plus (fun u => a * X u + b * Y u) (fun u => c * Z u)); [|apply (derivable_pt_lim_scal Z), DZ].
    apply (derivable_pt_lim_plus (fun u => a * X u) (fun u => b * Y u)); [apply (derivable_pt_lim_scal X), DX|apply (derivable_pt_lim_scal Y), DY]. }
  assert (C := cauchy_norm a b c (X1 u) (Y1 u) (Z1 u)). fold n in C.
  assert (0 <= (n * norm3 (X1 u) (Y1 u) (Z1 u) - (a * X1 u + b * Y1 u + c * Z1 u)) * (t + h - t)) by (apply Rmult_le_pos; lra).
  assert (Sq := norm3_sq a b c). fold n in Sq.
  assert (K : n * n <= n * (s (t + h) - s t)).
  { replace (n * n) with (a * (X (t + h) - X t) + b * (Y (t + h) - Y t) + c * (Z (t + h) - Z t)) by (fold a b c; rewrite Sq; ring). lra. }
  apply Rmult_le_reg_l with n; lra.
Qed.
Hypothesis DX2 : forall t, derivable_pt_lim X1 t (X2 t).
Hypothesis DY2 : forall t, derivable_pt_lim Y1 t (Y2 t).
Hypothesis DZ2 : forall t, derivable_pt_lim Z1 t (Z2 t).
Hypothesis B : forall t, 0 <= t <= 1 -> Rabs (X2 t) <= A /\ Rabs (Y2 t) <= A /\ Rabs (Z2 t) <= A.
Notation v t := (norm3 (X1 t) (Y1 t) (Z1 t)).
Lemma chord_step t h : 0 <= t -> 0 <= h -> t + h <= 1 -> Rabs (dist3 (curve t) (curve (t + h)) - h * v t) <= h * h * A.
Proof.
  intros Ht Hh H1. rewrite chord_norm, <- norm3_scale by exact Hh. apply Rle_trans with (1 := norm3_reverse _ _ _ _ _ _). replace (h * h * A) with (2 * (h * h / 2 * A)) by field.
  apply norm3_small.
  - apply (step_near X X1 X2 A DX DX2); try assumption. intros u Hu. now apply B.
  - apply (step_near Y Y1 Y2 A DY DY2); try assumption. intros u Hu. now apply B.
  - apply (step_near Z Z1 Z2 A DZ DZ2); try assumption. intros u Hu. now apply B.
Qed.
Lemma arc_step t h : 0 <= t -> 0 <= h -> t + h <= 1 -> Rabs (s (t + h) - s t - h * v t) <= h * h * A.
Proof.
  intros Ht Hh H1. replace (h * h * A) with (h * h / 2 * (2 * A)) by field.
  apply (grows (fun u => s (t + u) - s t - u * v t) (fun u => v (t + u) - 0 - v t) (fun u => u * u / 2 * (2 * A)) (fun u => u * (2 * A)) h Hh).
  - intros u _. apply (derivable_pt_lim_minus (fun u => s (t + u) - s t) (fun u => u * v t)); [|apply lim_id_scal].
    apply (derivable_pt_lim_minus (fun u => s (t + u)) (fun _ => s t)); [|apply derivable_pt_lim_const]. apply (shift_lim s (fun t => v t)), Ds.
  - intros u _. apply lim_sq_scal.
  - intros u Hu. rewrite Rminus_0_r. apply Rle_trans with (1 := norm3_reverse _ _ _ _ _ _). replace (u * (2 * A)) with (2 * (u * A)) by ring. apply norm3_small.
    + apply (slope_near X1 X2 A DX2); [intros w Hw; now apply B|lra..].
    + apply (slope_near Y1 Y2 A DY2); [intros w Hw; now apply B|lra..].
    + apply (slope_near Z1 Z2 A DZ2); [intros w Hw; now apply B|lra..].
  - rewrite Rplus_0_r. ring.
  - field.
Qed.
(** second order for curves whose speed is v0 at least *)
Variable v0 : R.
Hypothesis v0_pos : 0 < v0.
Hypothesis speed : forall t, 0 <= t <= 1 -> v0 <= v t.
Lemma chord_along t h w1 w2 w3 : (X (t + h) - X t) * w1 + (Y (t + h) - Y t) * w2 + (Z (t + h) - Z t) * w3 <= dist3 (curve t) (curve (t + h)) * norm3 w1 w2 w3.
Proof. rewrite chord_norm. apply cauchy_norm. Qed.
Lemma turn_small a b c d e f m : norm3 (a - d) (b - e) (c - f) <= m -> 0 <= norm3 a b c * norm3 d e f - (a * d + b * e + c * f) <= m * m / 2.
Proof.
  intros H. assert (C := cauchy_norm a b c d e f). split; [lra|]. assert (P := norm3_nonneg (a - d) (b - e) (c - f)). assert (S1 := norm3_sq a b c). assert (S2 := norm3_sq d e f). assert (S3 := norm3_sq (a - d) (b - e) (c - f)).
  assert (norm3 (a - d) (b - e) (c - f) * norm3 (a - d) (b - e) (c - f) <= m * m) by (apply Rmult_le_compat; lra).
  assert (0 <= (norm3 a b c - norm3 d e f) * (norm3 a b c - norm3 d e f)) by apply Rle_0_sqr. nra.
Qed.
Lemma chord_arc2 t h : 0 <= t -> 0 <= h -> t + h <= 1 -> s (t + h) - s t <= dist3 (curve t) (curve (t + h)) + h * h * h / 6 * (4 * A * A / v0).
Proof.
  intros Ht Hh H1. set (w1 := X1 t). set (w2 := Y1 t). set (w3 := Z1 t). set (n := norm3 w1 w2 w3). assert (Pn : v0 <= n) by (apply speed; lra).
  assert (G : Rabs ((s (t + h) - s t) * n - ((X (t + h) - X t) * w1 + (Y (t + h) - Y t) * w2 + (Z (t + h) - Z t) * w3)) <= h * h * h / 6 * (4 * A * A)).
  { apply (grows (fun u => (s (t + u) - s t) * n - ((X (t + u) - X t) * w1 + (Y (t + u) - Y t) * w2 + (Z (t + u) - Z t) * w3))
      (fun u => (v (t + u) - 0) * n - ((X1 (t + u) - 0) * w1 + (Y1 (t + u) - 0) * w2 + (Z1 (t + u) - 0) * w3)) (fun u => u * u * u / 6 * (4 * A * A)) (fun u => u * u / 2 * (4 * A * A)) h Hh).
    - assert (one : forall f f' c k, (forall t, derivable_pt_lim f t (f' t)) -> forall u, derivable_pt_lim (fun u => (f (t + u) - c) * k) u ((f' (t + u) - 0) * k)).
      { intros f f' c k D u. apply (derivable_pt_lim_ext (fun u => k * (f (t + u) - c))); [intros; ring|]. rewrite (Rmult_comm _ k). apply (derivable_pt_lim_scal (fun u => f (t + u) - c)).
        apply (derivable_pt_lim_minus (fun u => f (t + u)) (fun _ => c)); [now apply shift_lim|apply derivable_pt_lim_const]. }
      intros u _. apply (derivable_pt_lim_minus (fun u => (s (t + u) - s t) * n) (fun u => (X (t + u) - X t) * w1 + (Y (t + u) - Y t) * w2 + (Z (t + u) - Z t) * w3)); [apply (one s (fun t => v t)), Ds|].
      apply (derivable_pt_lim_plus (fun u => (X (t + u) - X t) * w1 + (Y (t + u) - Y t) * w2) (fun u => (Z (t + u) - Z t) * w3)); [|apply one, DZ].
      apply (derivable_pt_lim_plus (fun u => (X (t + u) - X t) * w1) (fun u => (Y (t + u) - Y t) * w2)); [apply one, DX|apply one, DY].
    - intros u _. apply lim_cube_scal.
    - intros u Hu. rewrite !Rminus_0_r. destruct (turn_small (X1 (t + u)) (Y1 (t + u)) (Z1 (t + u)) w1 w2 w3 (2 * (u * A))) as [L U].
      + apply norm3_small.
        * apply (slope_near X1 X2 A DX2); [intros w Hw; now apply B|lra..].
        * apply (slope_near Y1 Y2 A DY2); [intros w Hw; now apply B|lra..].
        * apply (slope_near Z1 Z2 A DZ2); [intros w Hw; now apply B|lra..].
      + fold n in L, U. rewrite Rabs_pos_eq by exact L. replace (u * u / 2 * (4 * A * A)) with (2 * (u * A) * (2 * (u * A)) / 2) by field. exact U.
    - rewrite Rplus_0_r. ring.
    - field. }
  assert (C := chord_along t h w1 w2 w3). fold n in C. set (d := dist3 (curve t) (curve (t + h))) in *.
  apply (Rle_trans _ _ _ (Rle_abs _)) in G. assert (K : (s (t + h) - s t - d) * n <= h * h * h / 6 * (4 * A * A)) by lra.
  assert (P3 : 0 <= h * h * h / 6 * (4 * A * A)). { assert (0 <= h * h * h) by (repeat apply Rmult_le_pos; lra). assert (0 <= A * A) by apply Rle_0_sqr. apply Rmult_le_pos; lra. }
  replace (h * h * h / 6 * (4 * A * A / v0)) with (h * h * h / 6 * (4 * A * A) / v0) by (field; lra).
  enough (s (t + h) - s t - d <= h * h * h / 6 * (4 * A * A) / v0) by lra. apply Rmult_le_reg_r with v0; [exact v0_pos|]. unfold Rdiv at 1. rewrite Rmult_assoc, Rinv_l, Rmult_1_r by lra.
  destruct (Rle_lt_dec 0 (s (t + h) - s t - d)) as [Ps|Ps]; [|nra]. apply Rle_trans with (2 := K). apply Rmult_le_compat_l; lra.
Qed.
Lemma sum_S (f : nat -> R) n : rsum (map f (seq 0 (S n))) = rsum (map f (seq 0 n)) + f n.
Proof.
  rewrite seq_S, map_app. unfold rsum. cbn [map Nat.add]. generalize (map f (seq 0 n)). induction l as [|x l IH]; cbn [app fold_right]; [ring|]. rewrite IH. ring.
Qed.
Lemma path_arc N : (1 <= N)%nat -> let L := path_length (map (fun k => curve (INR k / INR N)) (seq 0 (S N))) in L <= s 1 - s 0 <= L + 2 * A / INR N.
Proof.
  intros HN. assert (PN : 0 < INR N) by (apply lt_0_INR; lia). set (h := / INR N). assert (Ph : 0 < h) by now apply Rinv_0_lt_compat.
  assert (Hn : INR N * h = 1) by (apply Rinv_r; lra).
  assert (T : forall n, (n <= N)%nat -> let S' := rsum (map (fun k => dist3 (curve (INR k / INR N)) (curve (INR (S k) / INR N))) (seq 0 n)) in S' <= s (INR n * h) - s 0 <= S' + INR n * (2 * (h * h * A))).
  { induction n as [|n IH]; intros Hm; cbv zeta.
    - cbn [seq map rsum fold_right INR]. rewrite Rmult_0_l. unfold rsum. cbn. lra.
    - rewrite sum_S. specialize (IH ltac:(lia)). cbv zeta in IH. rewrite S_INR. unfold Rdiv. fold h. replace ((INR n + 1) * h) with (INR n * h + h) by ring.
      assert (P0 : 0 <= INR n * h) by (apply Rmult_le_pos; [apply pos_INR|lra]).
      assert (P1 : INR n * h + h <= 1). { rewrite <- Hn. replace (INR n * h + h) with (INR (S n) * h) by (rewrite S_INR; ring). apply Rmult_le_compat_r; [lra|]. apply le_INR. lia. }
      assert (C := chord_arc (INR n * h) h ltac:(lra)). assert (C1 := chord_step (INR n * h) h P0 ltac:(lra) P1). assert (C2 := arc_step (INR n * h) h P0 ltac:(lra) P1).
      assert (R1 : forall x e, Rabs x <= e -> - e <= x <= e) by (intros x e H; unfold Rabs in H; destruct (Rcase_abs x) in H; lra). apply R1 in C1. apply R1 in C2.
      unfold Rdiv in IH. fold h in IH. rewrite Rmult_plus_distr_r. lra. }
  specialize (T N (le_n N)). cbv zeta in T |- *. rewrite path_sum. rewrite Hn in T. replace (2 * A / INR N) with (INR N * (2 * (h * h * A))); [exact T|].
  unfold Rdiv. fold h. transitivity (INR N * h * (2 * A * h)); [ring|]. rewrite Hn. ring.
Qed.
Lemma path_arc2 N : (1 <= N)%nat -> s 1 - s 0 <= path_length (map (fun k => curve (INR k / INR N)) (seq 0 (S N))) + 2 * A * A / (3 * v0) / (INR N * INR N).
Proof.
  intros HN. assert (PN : 0 < INR N) by (apply lt_0_INR; lia). set (h := / INR N). assert (Ph : 0 < h) by now apply Rinv_0_lt_compat.
  assert (Hn : INR N * h = 1) by (apply Rinv_r; lra). set (e := h * h * h / 6 * (4 * A * A / v0)).
  assert (T : forall n, (n <= N)%nat -> let S' := rsum (map (fun k => dist3 (curve (INR k / INR N)) (curve (INR (S k) / INR N))) (seq 0 n)) in s (INR n * h) - s 0 <= S' + INR n * e).
  { induction n as [|n IH]; intros Hm; cbv zeta.
    - cbn [seq map rsum fold_right INR]. rewrite Rmult_0_l. unfold rsum. cbn. lra.
    - rewrite sum_S. specialize (IH ltac:(lia)). cbv zeta in IH. rewrite S_INR. unfold Rdiv. fold h. replace ((INR n + 1) * h) with (INR n * h + h) by ring.
      assert (P0 : 0 <= INR n * h) by (apply Rmult_le_pos; [apply pos_INR|lra]).
      assert (P1 : INR n * h + h <= 1). { rewrite <- Hn. replace (INR n * h + h) with (INR (S n) * h) by (rewrite S_INR; ring). apply Rmult_le_compat_r; [lra|]. apply le_INR. lia. }
      assert (C := chord_arc2 (INR n * h) h P0 ltac:(lra) P1). fold e in C. unfold Rdiv in IH. fold h in IH. rewrite Rmult_plus_distr_r. lra. }
  specialize (T N (le_n N)). cbv zeta in T. rewrite path_sum. rewrite Hn in T. replace (2 * A * A / (3 * v0) / (INR N * INR N)) with (INR N * e); [exact T|].
  unfold e, h. field. lra.
Qed.
End Curve.

Section Line.
Variable spline : list R -> list R -> R -> R.
Lemma line_arc RZ ys refine L X1 Y1 Z1 X2 Y2 Z2 s A : (1 <= refine)%nat -> field_line_length spline RZ ys refine = Ok L ->
  let y t := spline (linspace01 (length ys)) ys t in
  (forall t, derivable_pt_lim (fun t => cos (y t) * spline ys (map fst RZ) (y t)) t (X1 t)) -> (forall t, derivable_pt_lim (fun t => sin (y t) * spline ys (map fst RZ) (y t)) t (Y1 t)) ->
  (forall t, derivable_pt_lim (fun t => spline ys (map snd RZ) (y t)) t (Z1 t)) ->
  (forall t, derivable_pt_lim X1 t (X2 t)) -> (forall t, derivable_pt_lim Y1 t (Y2 t)) -> (forall t, derivable_pt_lim Z1 t (Z2 t)) ->
  (forall t, 0 <= t <= 1 -> Rabs (X2 t) <= A /\ Rabs (Y2 t) <= A /\ Rabs (Z2 t) <= A) ->
  (forall t, derivable_pt_lim s t (sqrt (X1 t ^ 2 + Y1 t ^ 2 + Z1 t ^ 2))) ->
  L <= s 1 - s 0 <= L + 2 * A / INR ((length ys - 1) * refine).
Proof.
  intros Hr E y DX DY DZ DX2 DY2 DZ2 HB Ds.
  assert (O : (2 <= length ys)%nat /\ length RZ = length ys /\ increasing ys = true).
  { destruct (Nat.ltb_spec (length ys) 2) as [C|C]; [rewrite length_fails in E by tauto; discriminate|]. destruct (Nat.eq_dec (length RZ) (length ys)) as [C'|C']; [|rewrite length_fails in E by tauto; discriminate].
    destruct (increasing ys) eqn:I; [tauto|]. rewrite length_fails in E by tauto. discriminate. }
  destruct O as (H2 & Hl & Hi). rewrite (length_ok spline RZ ys refine H2 Hl Hi) in E. injection E as <-.
  apply (path_arc (fun t => cos (y t) * spline ys (map fst RZ) (y t)) (fun t => sin (y t) * spline ys (map fst RZ) (y t)) (fun t => spline ys (map snd RZ) (y t)) X1 Y1 Z1 X2 Y2 Z2 s A DX DY DZ Ds DX2 DY2 DZ2 HB). nia.
Qed.
Lemma line_arc2 RZ ys refine L X1 Y1 Z1 X2 Y2 Z2 s A v0 : (1 <= refine)%nat -> field_line_length spline RZ ys refine = Ok L ->
  let y t := spline (linspace01 (length ys)) ys t in
  (forall t, derivable_pt_lim (fun t => cos (y t) * spline ys (map fst RZ) (y t)) t (X1 t)) -> (forall t, derivable_pt_lim (fun t => sin (y t) * spline ys (map fst RZ) (y t)) t (Y1 t)) ->
  (forall t, derivable_pt_lim (fun t => spline ys (map snd RZ) (y t)) t (Z1 t)) ->
  (forall t, derivable_pt_lim X1 t (X2 t)) -> (forall t, derivable_pt_lim Y1 t (Y2 t)) -> (forall t, derivable_pt_lim Z1 t (Z2 t)) ->
  (forall t, 0 <= t <= 1 -> Rabs (X2 t) <= A /\ Rabs (Y2 t) <= A /\ Rabs (Z2 t) <= A) ->
  (forall t, derivable_pt_lim s t (sqrt (X1 t ^ 2 + Y1 t ^ 2 + Z1 t ^ 2))) ->
  0 < v0 -> (forall t, 0 <= t <= 1 -> v0 <= sqrt (X1 t ^ 2 + Y1 t ^ 2 + Z1 t ^ 2)) ->
  L <= s 1 - s 0 <= L + 2 * A * A / (3 * v0) / (INR ((length ys - 1) * refine) * INR ((length ys - 1) * refine)).
Proof.
  intros Hr E y DX DY DZ DX2 DY2 DZ2 HB Ds P0 Hv. split; [apply (line_arc RZ ys refine L X1 Y1 Z1 X2 Y2 Z2 s A Hr E DX DY DZ DX2 DY2 DZ2 HB Ds)|].
  assert (O : (2 <= length ys)%nat /\ length RZ = length ys /\ increasing ys = true).
  { destruct (Nat.ltb_spec (length ys) 2) as [C|C]; [rewrite length_fails in E by tauto; discriminate|]. destruct (Nat.eq_dec (length RZ) (length ys)) as [C'|C']; [|rewrite length_fails in E by tauto; discriminate].
    destruct (increasing ys) eqn:I; [tauto|]. rewrite length_fails in E by tauto. discriminate. }
  destruct O as (H2 & Hl & Hi). rewrite (length_ok spline RZ ys refine H2 Hl Hi) in E. injection E as <-.
  apply (path_arc2 (fun t => cos (y t) * spline ys (map fst RZ) (y t)) (fun t => sin (y t) * spline ys (map fst RZ) (y t)) (fun t => spline ys (map snd RZ) (y t)) X1 Y1 Z1 X2 Y2 Z2 s A DX DY DZ Ds DX2 DY2 DZ2 HB v0 P0 Hv). nia.
Qed.
Lemma line_refined RZ ys refine m L L' : (1 <= m)%nat -> field_line_length spline RZ ys refine = Ok L -> field_line_length spline RZ ys (refine * m) = Ok L' -> (1 <= refine)%nat -> L <= L'.
Proof.
  intros Hm E E' Hr.
  assert (O : (2 <= length ys)%nat /\ length RZ = length ys /\ increasing ys = true).
  { destruct (Nat.ltb_spec (length ys) 2) as [C|C]; [rewrite length_fails in E by tauto; discriminate|]. destruct (Nat.eq_dec (length RZ) (length ys)) as [C'|C']; [|rewrite length_fails in E by tauto; discriminate].
    destruct (increasing ys) eqn:I; [tauto|]. rewrite length_fails in E by tauto. discriminate. }
  assert (I : forall x y : R, Ok x = Ok y -> y = x) by congruence. destruct O as (H2 & Hl & Hi).
  rewrite (length_ok spline RZ ys _ H2 Hl Hi) in E. apply I in E. rewrite (length_ok spline RZ ys _ H2 Hl Hi) in E'. apply I in E'. rewrite E, E'.
  set (N := ((length ys - 1) * refine)%nat). assert (N1 : (1 <= N)%nat) by (unfold N; nia). replace ((length ys - 1) * (refine * m))%nat with (N * m)%nat by (unfold N; ring).
  apply Rle_trans with (2 := path_coarse (fun k => fine spline RZ ys (INR k / INR (N * m))) m N 0).
  apply Req_le, (f_equal path_length), map_ext. intros k. apply (f_equal (fine spline RZ ys)). cbn [Nat.add]. rewrite !mult_INR. field. split; apply not_0_INR; lia.
Qed.
End Line.

(** * A helix with the radius 2, for the examples *)
Definition hRZ : list (R * R) := [(2, 0); (2, 1)].
Definition hys : list R := [0; 1].
Lemma h_y t : plin (linspace01 (length hys)) hys t = t.
Proof. unfold linspace01, hys. cbn. field. Qed.
Lemma h_R t : plin hys (map fst hRZ) t = 2. Proof. cbn. field. Qed.
Lemma h_Z t : plin hys (map snd hRZ) t = t. Proof. cbn. field. Qed.
Lemma h_ok refine : exists L, field_line_length plin hRZ hys refine = Ok L.
Proof.
  assert (I : increasing hys = true) by (unfold hys; cbn; unfold Rltb; destruct (Rlt_dec 0 1); [reflexivity|lra]).
  eexists. apply (length_ok plin hRZ hys refine); [cbn; lia|reflexivity|exact I].
Qed.
Lemma h_DX t : derivable_pt_lim (fun t => cos (plin (linspace01 (length hys)) hys t) * plin hys (map fst hRZ) (plin (linspace01 (length hys)) hys t)) t (2 * - sin t).
Proof. apply (derivable_pt_lim_ext (fun t => 2 * cos t)); [intros u; rewrite h_R, h_y; ring|]. apply (derivable_pt_lim_scal cos), derivable_pt_lim_cos. Qed.
Lemma h_DY t : derivable_pt_lim (fun t => sin (plin (linspace01 (length hys)) hys t) * plin hys (map fst hRZ) (plin (linspace01 (length hys)) hys t)) t (2 * cos t).
Proof. apply (derivable_pt_lim_ext (fun t => 2 * sin t)); [intros u; rewrite h_R, h_y; ring|]. apply (derivable_pt_lim_scal sin), derivable_pt_lim_sin. Qed.
Lemma h_DZ t : derivable_pt_lim (fun t => plin hys (map snd hRZ) (plin (linspace01 (length hys)) hys t)) t 1.
Proof. apply (derivable_pt_lim_ext (fun t => t)); [intros u; now rewrite h_Z, h_y|]. apply derivable_pt_lim_id. Qed.
Lemma h_DX2 t : derivable_pt_lim (fun t => 2 * - sin t) t (2 * - cos t).
Proof. apply (derivable_pt_lim_scal (fun t => - sin t)), (derivable_pt_lim_opp sin), derivable_pt_lim_sin. Qed.
Lemma h_DY2 t : derivable_pt_lim (fun t => 2 * cos t) t (2 * - sin t).
Proof. apply (derivable_pt_lim_scal cos), derivable_pt_lim_cos. Qed.
Lemma h_bound t : Rabs (2 * - cos t) <= 2 /\ Rabs (2 * - sin t) <= 2 /\ Rabs 0 <= 2.
Proof. pose proof (SIN_bound t). pose proof (COS_bound t). rewrite Rabs_R0. repeat split; [apply Rabs_le; lra..|lra]. Qed.
Lemma h_arc t : derivable_pt_lim (fun t => t * sqrt 5) t (sqrt ((2 * - sin t) ^ 2 + (2 * cos t) ^ 2 + 1 ^ 2)).
Proof.
  replace ((2 * - sin t) ^ 2 + (2 * cos t) ^ 2 + 1 ^ 2) with 5; [apply lim_id_scal|]. pose proof (sin2_cos2 t) as E. unfold Rsqr in E. nra.
Qed.
Lemma h_pos : 0 < 4 / 3. Proof. lra. Qed.
Lemma h_speed t : 4 / 3 <= sqrt ((2 * - sin t) ^ 2 + (2 * cos t) ^ 2 + 1 ^ 2).
Proof.
  replace ((2 * - sin t) ^ 2 + (2 * cos t) ^ 2 + 1 ^ 2) with 5; [|pose proof (sin2_cos2 t) as E; unfold Rsqr in E; nra].
  rewrite <- (sqrt_square (4 / 3)) by lra. apply sqrt_le_1_alt. lra.
Qed.

(** * Convergence; no refinement at all *)
Lemma above x : exists n, x < INR n.
Proof.
  destruct (archimed x) as [A _]. exists (Z.to_nat (up x)). destruct (Z.le_gt_cases 0 (up x)) as [P|P].
  - rewrite INR_IZR_INZ, Z2Nat.id by exact P. exact A.
  - apply IZR_lt in P. replace (Z.to_nat (up x)) with 0%nat; [cbn; lra|]. apply lt_IZR in P. lia.
Qed.
Lemma line_converges spline RZ ys X1 Y1 Z1 X2 Y2 Z2 s A : (2 <= length ys)%nat -> length RZ = length ys -> increasing ys = true ->
  let y t := spline (linspace01 (length ys)) ys t in
  (forall t, derivable_pt_lim (fun t => cos (y t) * spline ys (map fst RZ) (y t)) t (X1 t)) -> (forall t, derivable_pt_lim (fun t => sin (y t) * spline ys (map fst RZ) (y t)) t (Y1 t)) ->
  (forall t, derivable_pt_lim (fun t => spline ys (map snd RZ) (y t)) t (Z1 t)) ->
  (forall t, derivable_pt_lim X1 t (X2 t)) -> (forall t, derivable_pt_lim Y1 t (Y2 t)) -> (forall t, derivable_pt_lim Z1 t (Z2 t)) ->
  (forall t, 0 <= t <= 1 -> Rabs (X2 t) <= A /\ Rabs (Y2 t) <= A /\ Rabs (Z2 t) <= A) ->
  (forall t, derivable_pt_lim s t (sqrt (X1 t ^ 2 + Y1 t ^ 2 + Z1 t ^ 2))) ->
  forall eps, 0 < eps -> exists n0, forall refine, (n0 <= refine)%nat -> exists L, field_line_length spline RZ ys refine = Ok L /\ Rabs (L - (s 1 - s 0)) < eps.
Proof.
  intros H2 Hl Hi y DX DY DZ DX2 DY2 DZ2 HB Ds eps He. assert (PA : 0 <= A). { destruct (HB 0 ltac:(lra)) as [b _]. apply Rle_trans with (2 := b). apply Rabs_pos. }
  destruct (above (2 * A / eps)) as [n0 Hn]. exists (S n0). intros refine Hr. exists (path_length (map (fun k => fine spline RZ ys (INR k / INR ((length ys - 1) * refine))) (seq 0 (S ((length ys - 1) * refine))))).
  assert (E := length_ok spline RZ ys refine H2 Hl Hi). split; [exact E|].
  set (L := path_length _) in *. assert (T := line_arc spline RZ ys refine L X1 Y1 Z1 X2 Y2 Z2 s A ltac:(lia) E DX DY DZ DX2 DY2 DZ2 HB Ds).
  set (N := INR ((length ys - 1) * refine)) in *. assert (HN : INR n0 <= N) by (apply le_INR; nia). assert (P0 := pos_INR n0). assert (PN : 0 < N) by (apply lt_0_INR; nia).
  assert (K : 2 * A / N < eps).
  { apply Rmult_lt_reg_r with N; [exact PN|]. unfold Rdiv. rewrite Rmult_assoc, Rinv_l, Rmult_1_r by lra. apply Rmult_lt_reg_r with (/ eps); [now apply Rinv_0_lt_compat|].
    replace (eps * N * / eps) with N by (field; lra). unfold Rdiv in Hn. lra. }
  unfold Rabs. destruct (Rcase_abs _); lra.
Qed.
Lemma line_zero spline RZ ys : (2 <= length ys)%nat -> length RZ = length ys -> increasing ys = true -> field_line_length spline RZ ys 0 = Ok 0.
Proof. intros H2 Hl Hi. rewrite (length_ok spline RZ ys 0 H2 Hl Hi). rewrite Nat.mul_0_r. reflexivity. Qed.
