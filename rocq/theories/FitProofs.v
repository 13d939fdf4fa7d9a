(** Proofs about the least squares problem of smooth.py. *)
From Coq Require Import List Reals Lra Lia.
From Verif Require Import FitModel FitSpec.
Import ListNotations.
Open Scope R_scope.

(** the derivative of the curve *)
Definition vel (x : coefs) (s : R) : R * R := (fst (x1 x) + fst (x2 x) * s + fst (x3 x) * s ^ 2, snd (x1 x) + snd (x2 x) * s + snd (x3 x) * s ^ 2).
Lemma poly_deriv r a b c s : derivable_pt_lim (fun s => r + a * s + (b * s ^ 2) * (1 / 2) + c * s ^ 3 / 3) s (a + b * s + c * s ^ 2).
Proof.
  assert (P : forall n, derivable_pt_lim (fun s => s ^ n) s (INR n * s ^ pred n)) by (intros n; apply derivable_pt_lim_pow).
  assert (D0 : derivable_pt_lim (fun _ : R => r) s 0) by apply derivable_pt_lim_const.
  assert (D1 : derivable_pt_lim (fun s => a * s) s (a * 1)) by (apply (derivable_pt_lim_scal id), derivable_pt_lim_id).
  assert (D2 : derivable_pt_lim (fun s => (1 / 2 * b) * s ^ 2) s (1 / 2 * b * (INR 2 * s ^ 1))) by apply (derivable_pt_lim_scal _ _ _ _ (P 2%nat)).
  assert (D3 : derivable_pt_lim (fun s => (c / 3) * s ^ 3) s (c / 3 * (INR 3 * s ^ 2))) by apply (derivable_pt_lim_scal _ _ _ _ (P 3%nat)).
  pose proof (derivable_pt_lim_plus _ _ _ _ _ (derivable_pt_lim_plus _ _ _ _ _ (derivable_pt_lim_plus _ _ _ _ _ D0 D1) D2) D3) as D.
  unfold plus_fct in D. intros e He. destruct (D e He) as [d Hd]. exists d. intros h Hh Hhd. specialize (Hd h Hh Hhd).
  replace (a + b * s + c * s ^ 2) with (0 + a * 1 + 1 / 2 * b * (INR 2 * s ^ 1) + c / 3 * (INR 3 * s ^ 2)) by (cbn [INR]; field).
  match goal with |- Rabs ?u < _ => match type of Hd with Rabs ?v < _ => replace u with v; [exact Hd|] end end. cbn [INR]. field. exact Hh.
Qed.
Lemma curve_velocity r0 x s : velocity (curve r0 x) s (vel x s).
Proof. split; cbn [curve vel fst snd]; apply poly_deriv. Qed.
Lemma velocity_unique c s v w : velocity c s v -> velocity c s w -> v = w.
Proof. intros [A B] [C D]. destruct v, w. f_equal; [exact (uniqueness_limite _ _ _ _ A C)|exact (uniqueness_limite _ _ _ _ B D)]. Qed.
Lemma quadratic_deriv a b c s : derivable_pt_lim (fun s => a + b * s + c * s ^ 2) s (b + 2 * c * s).
Proof.
  replace (b + 2 * c * s) with (0 + b * 1 + c * (INR 2 * s ^ 1)) by (cbn; ring).
  apply (derivable_pt_lim_plus (fun s => a + b * s) (fun s => c * s ^ 2)).
  - apply (derivable_pt_lim_plus (fun _ => a) (fun s => b * s)); [apply derivable_pt_lim_const|].
    apply (derivable_pt_lim_scal (fun s => s)), derivable_pt_lim_id.
  - apply (derivable_pt_lim_scal (fun s => s ^ 2)), (derivable_pt_lim_pow s 2).
Qed.
Lemma curvature r0 x (v : R -> pt) a0 a1 : (forall s, velocity (curve r0 x) s (v s)) -> velocity v 0 a0 -> velocity v 1 a1 ->
  curv x = (norm2 a1 / 1000, norm2 a0 / 1000).
Proof.
  intros H H0 H1. assert (A : forall s, velocity v s (fst (x2 x) + 2 * fst (x3 x) * s, snd (x2 x) + 2 * snd (x3 x) * s)).
  { assert (E : forall s, v s = vel x s) by (intros s; apply (velocity_unique _ _ _ _ (H s) (curve_velocity r0 x s))).
    intros s. split; cbn [fst snd]; (eapply derivable_pt_lim_ext; [|apply quadratic_deriv]); intros t; rewrite E; reflexivity. }
  rewrite (velocity_unique _ _ _ _ H0 (A 0)), (velocity_unique _ _ _ _ H1 (A 1)). unfold curv, norm2. cbn [fst snd]. f_equal; field.
Qed.
Lemma speed_vel x s : speed x s = sqrt (norm2 (vel x s)).
Proof. unfold speed, norm2, vel, dot. f_equal. cbn [fst snd]. ring. Qed.

(** the conditions *)
Lemma end_residual r0 x : curve r0 x 1 = (fst r0 + (1 * fst (x1 x) + 1 / 2 * fst (x2 x) + 1 / 3 * fst (x3 x)), snd r0 + (1 * snd (x1 x) + 1 / 2 * snd (x2 x) + 1 / 3 * snd (x3 x))).
Proof. unfold curve. f_equal; field. Qed.
Lemma conditions rm r0 r1 rp x : firstn 4 (residuals rm r0 r1 rp x) = [0; 0; 0; 0] <->
  curve r0 x 1 = r1 /\ parallel (step rm r0) (vel x 0) /\ parallel (step rp r1) (vel x 1).
Proof.
  rewrite end_residual. destruct r1 as [r1r r1z]. unfold parallel, step, vel. cbn [residuals firstn fst snd]. split.
  - intros E. injection E as E1 E2 E3 E4. split; [f_equal; lra|]. split; [|nra].
    rewrite (pow_ne_zero 2), !Rmult_0_r, !Rplus_0_r by lia. lra.
  - intros (E & E3 & E4). injection E as E1 E2. rewrite (pow_ne_zero 2), !Rmult_0_r, !Rplus_0_r in E3 by lia. repeat f_equal; first [lra|nra].
Qed.

(** sums *)
Lemma sum_nonneg (f : R -> R) l : (forall s, 0 <= f s) -> 0 <= fold_right Rplus 0 (map f l).
Proof. intros H. induction l as [|a l IH]; cbn; [lra|]. specialize (H a). lra. Qed.
Lemma sum_ge (f : R -> R) l a : (forall s, 0 <= f s) -> In a l -> f a <= fold_right Rplus 0 (map f l).
Proof.
  intros H. induction l as [|b l IH]; intros I; [destruct I|]. destruct I as [-> | I]; cbn [map fold_right].
  - pose proof (sum_nonneg f l H). lra.
  - specialize (IH I). specialize (H b). lra.
Qed.
Lemma sum_le (f : R -> R) m l : (forall s, In s l -> f s <= m) -> fold_right Rplus 0 (map f l) <= INR (length l) * m.
Proof.
  induction l as [|a l IH]; intros H; cbn [map fold_right length]; [cbn; lra|]. rewrite S_INR.
  pose proof (H a (or_introl eq_refl)). assert (forall s, In s l -> f s <= m) by (intros s I; apply H; now right). specialize (IH H1). lra.
Qed.
Lemma sum_mul k (f : R -> R) l : fold_right Rplus 0 (map (fun s => k * f s) l) = k * fold_right Rplus 0 (map f l).
Proof. induction l as [|a l IH]; cbn; [ring|]. rewrite IH. ring. Qed.
Lemma samples_length n : length (samples n) = n.
Proof. unfold samples. now rewrite map_length, seq_length. Qed.
Lemma samples_range n s : In s (samples n) -> 0 <= s <= 1.
Proof.
  unfold samples. rewrite in_map_iff. intros (k & <- & I). apply in_seq in I. destruct (Nat.eq_dec n 1) as [-> | H].
  - replace k with 0%nat by lia. cbn. unfold Rdiv. rewrite Rmult_0_l. lra.
  - assert (0 < INR (n - 1)) by (apply lt_0_INR; lia). assert (INR k <= INR (n - 1)) by (apply le_INR; lia). pose proof (pos_INR k).
    split; [apply Rmult_le_reg_r with (INR (n - 1))|apply Rmult_le_reg_r with (INR (n - 1))]; try assumption; unfold Rdiv; rewrite Rmult_assoc, Rinv_l; lra.
Qed.
Lemma samples_zero n : (0 < n)%nat -> In 0 (samples n).
Proof. intros H. unfold samples. apply in_map_iff. exists 0%nat. split; [cbn [INR]; unfold Rdiv; ring|]. apply in_seq. lia. Qed.
Lemma speed_nonneg x s : 0 <= speed x s.
Proof. apply sqrt_pos. Qed.
Lemma lenofs_nonneg x : 0 <= lenofs x.
Proof. unfold lenofs. pose proof (sum_nonneg (speed x) (samples 100) (speed_nonneg x)). lra. Qed.
Lemma lenofs_le x m : (forall s, 0 <= s <= 1 -> speed x s <= m) -> lenofs x <= m.
Proof.
  intros H. unfold lenofs. assert (E : fold_right Rplus 0 (map (speed x) (samples 100)) <= INR (length (samples 100)) * m).
  { apply sum_le. intros s I. apply H. exact (samples_range 100 s I). }
  rewrite samples_length in E. replace (INR 100) with 100 in E by (cbn; lra). lra.
Qed.
Lemma lenofs_pos x : 0 < speed x 0 -> 0 < lenofs x.
Proof.
  intros H. unfold lenofs. pose proof (sum_ge (speed x) (samples 100) 0 (speed_nonneg x) (samples_zero 100 ltac:(lia))). lra.
Qed.

(** the curve that stops at both ends *)
Definition stopping (r0 r1 : R * R) : coefs := {| x1 := (0, 0); x2 := (6 * fst (step r0 r1), 6 * snd (step r0 r1)); x3 := (- 6 * fst (step r0 r1), - 6 * snd (step r0 r1)) |}.
Lemma stopping_speed r0 r1 s : 0 <= s <= 1 -> speed (stopping r0 r1) s <= 3 / 2 * sqrt (norm2 (step r0 r1)).
Proof.
  intros H. rewrite speed_vel. unfold vel, stopping. cbn [x1 x2 x3 fst snd].
  replace (norm2 _) with ((6 * s * (1 - s)) ^ 2 * norm2 (step r0 r1)) by (unfold norm2; cbn [fst snd]; ring).
  rewrite sqrt_mult by (try apply pow2_ge_0; unfold norm2; pose proof (pow2_ge_0 (fst (step r0 r1))); pose proof (pow2_ge_0 (snd (step r0 r1))); lra).
  rewrite sqrt_pow2 by nra. apply Rmult_le_compat_r; [apply sqrt_pos|]. pose proof (pow2_ge_0 (s - 1 / 2)). lra.
Qed.
Lemma norm2_nonneg p : 0 <= norm2 p.
Proof. unfold norm2. pose proof (pow2_ge_0 (fst p)). pose proof (pow2_ge_0 (snd p)). lra. Qed.
Lemma stopping_cost rm r0 r1 rp : cost (residuals rm r0 r1 rp (stopping r0 r1)) <= (9 / 4 / 10 ^ 10 * norm2 (step r0 r1) + 2 * (36 / 1000 * norm2 (step r0 r1)) ^ 2) / 2.
Proof.
  pose proof (lenofs_le (stopping r0 r1) _ (stopping_speed r0 r1)) as L. pose proof (lenofs_nonneg (stopping r0 r1)) as L0.
  pose proof (norm2_nonneg (step r0 r1)) as N. pose proof (sqrt_pos (norm2 (step r0 r1))) as S0. pose proof (sqrt_sqrt _ N) as SS.
  unfold residuals, cost. generalize dependent (lenofs (stopping r0 r1)). intros l Hl Hl0.
  assert (Hll : l * l <= 9 / 4 * norm2 (step r0 r1)) by nra.
  cbn [fold_right]. unfold curv, stopping. cbn [x1 x2 x3 fst snd]. unfold norm2, step in *. cbn [fst snd] in *.
  apply Rmult_le_compat_r; [lra|].
  match goal with |- ?u <= _ => replace u with (l * l / 10 ^ 10 + 2 * (36 / 1000 * ((fst r1 - fst r0) ^ 2 + (snd r1 - snd r0) ^ 2)) ^ 2) by field end.
  apply Rplus_le_compat_r. lra.
Qed.
Lemma cost_split a b c d e f g : cost [a; b; c; d; e; f; g] = (a * a + b * b + c * c + d * d + (e * e + f * f + g * g)) / 2.
Proof. unfold cost. cbn [fold_right]. field. Qed.
Lemma close rm r0 r1 rp x : cost (residuals rm r0 r1 rp x) <= cost (residuals rm r0 r1 rp (stopping r0 r1)) ->
  norm2 (step (curve r0 x 1) r1) + cross (step rm r0) (vel x 0) ^ 2 + cross (step rp r1) (vel x 1) ^ 2 <= 9 / 4 / 10 ^ 10 * norm2 (step r0 r1) + 2 * (36 / 1000 * norm2 (step r0 r1)) ^ 2.
Proof.
  intros H. pose proof (stopping_cost rm r0 r1 rp) as S. generalize dependent (cost (residuals rm r0 r1 rp (stopping r0 r1))). intros c H S.
  unfold residuals in H. cbv zeta in H. rewrite cost_split in H.
  match type of H with (?a * ?a + ?b * ?b + ?u * ?u + ?v * ?v + (?e * ?e + ?f * ?f + ?g * ?g)) / 2 <= _ =>
    pose proof (Rle_0_sqr e) as E1; pose proof (Rle_0_sqr f) as E2; pose proof (Rle_0_sqr g) as E3; unfold Rsqr in E1, E2, E3 end.
  remember (norm2 (step r0 r1)) as N eqn:EN. clear EN. rewrite end_residual. unfold cross, vel, step, norm2. cbn [fst snd].
  match goal with |- ?u <= _ => match type of H with (?w + _) / 2 <= _ => replace u with w by ring end end. lra.
Qed.

(** no exact curve is the best one *)
Definition scale (k : R) (x : coefs) : coefs := {| x1 := (k * fst (x1 x), k * snd (x1 x)); x2 := (k * fst (x2 x), k * snd (x2 x)); x3 := (k * fst (x3 x), k * snd (x3 x)) |}.
Lemma speed_scale k x s : 0 <= k -> speed (scale k x) s = k * speed x s.
Proof.
  intros H. rewrite !speed_vel. replace (norm2 (vel (scale k x) s)) with (k ^ 2 * norm2 (vel x s)) by (unfold norm2, vel, scale; cbn [x1 x2 x3 fst snd]; ring).
  rewrite sqrt_mult by (try apply pow2_ge_0; apply norm2_nonneg). now rewrite sqrt_pow2.
Qed.
Lemma lenofs_scale k x : 0 <= k -> lenofs (scale k x) = k * lenofs x.
Proof.
  intros H. unfold lenofs. rewrite (map_ext (speed (scale k x)) (fun s => k * speed x s)) by (intros s; now apply speed_scale).
  rewrite sum_mul. field.
Qed.
Lemma speed_0 x : speed x 0 = sqrt (norm2 (x1 x)).
Proof. rewrite speed_vel. f_equal. unfold norm2, vel. cbn [fst snd]. ring. Qed.
Lemma penalty_pos x r0 : curve r0 x 1 <> r0 -> 0 < lenofs x / 100000 * (lenofs x / 100000) + (fst (curv x) * fst (curv x) + snd (curv x) * snd (curv x)).
Proof.
  intros H. pose proof (lenofs_nonneg x) as L. pose proof (Rle_0_sqr (fst (curv x))) as F. pose proof (Rle_0_sqr (snd (curv x))) as S. unfold Rsqr in F, S.
  assert (L2 : 0 <= lenofs x / 100000 * (lenofs x / 100000)) by nra.
  destruct (Rlt_dec 0 (speed x 0)) as [P | P].
  - pose proof (lenofs_pos x P). assert (0 < lenofs x / 100000 * (lenofs x / 100000)) by nra. lra.
  - apply Rnot_lt_le in P. pose proof (speed_nonneg x 0). assert (E : speed x 0 = 0) by lra. rewrite speed_0 in E.
    apply sqrt_eq_0 in E; [|apply norm2_nonneg]. unfold norm2 in E.
    assert (A1 : fst (x1 x) = 0) by nra. assert (A2 : snd (x1 x) = 0) by nra.
    destruct (Req_dec (fst (curv x) * fst (curv x) + snd (curv x) * snd (curv x)) 0) as [Z | Z]; [|lra]. exfalso.
    assert (Z1 : fst (curv x) = 0) by nra. assert (Z2 : snd (curv x) = 0) by nra. unfold curv in Z1, Z2. cbn [fst snd] in Z1, Z2.
    assert (B1 : fst (x2 x) = 0) by nra. assert (B2 : snd (x2 x) = 0) by nra. rewrite B1, B2, A1, A2 in Z1.
    assert (C1 : fst (x3 x) = 0) by nra. assert (C2 : snd (x3 x) = 0) by nra.
    apply H. rewrite end_residual, A1, A2, B1, B2, C1, C2. destruct r0. cbn [fst snd]. f_equal; ring.
Qed.
Lemma sq_sum a b : a ^ 2 + b ^ 2 = 0 -> a = 0 /\ b = 0.
Proof. intros H. split; nra. Qed.
Lemma improvable rm r0 r1 rp x : r0 <> r1 -> firstn 4 (residuals rm r0 r1 rp x) = [0; 0; 0; 0] ->
  exists x', cost (residuals rm r0 r1 rp x') < cost (residuals rm r0 r1 rp x).
Proof.
  intros Hne H4. pose proof (proj1 (conditions rm r0 r1 rp x) H4) as (E & _).
  pose proof (penalty_pos x r0 ltac:(rewrite E; intros F; apply Hne; now rewrite F)) as HP.
  set (P := lenofs x / 100000 * (lenofs x / 100000) + (fst (curv x) * fst (curv x) + snd (curv x) * snd (curv x))) in *.
  set (N := norm2 (step r0 r1)).
  assert (HN : 0 < N).
  { destruct (Rle_lt_or_eq_dec 0 N (norm2_nonneg _)) as [h | h]; [exact h|]. exfalso. apply Hne. unfold N, norm2, step in h. cbn [fst snd] in h.
    destruct (sq_sum _ _ (eq_sym h)) as [h1 h2]. destruct r0, r1. cbn [fst snd] in h1, h2. f_equal; lra. }
  set (k := N / (N + P)). assert (K : 0 < k) by (apply Rdiv_lt_0_compat; lra).
  assert (K1 : 1 - k = P / (N + P)) by (unfold k; field; lra).
  assert (T : 0 < 1 - k) by (rewrite K1; apply Rdiv_lt_0_compat; lra).
  exists (scale k x).
  assert (C : curv (scale k x) = (k ^ 2 * fst (curv x), k ^ 2 * snd (curv x))) by (unfold curv, scale; cbn [x1 x2 x3 fst snd]; f_equal; ring).
  unfold residuals in *. cbv zeta in *. rewrite !cost_split, lenofs_scale, C by lra. cbn [firstn] in H4. injection H4 as R1 R2 R3 R4. rewrite R1, R2, R3, R4.
  unfold scale. cbn [x1 x2 x3 fst snd].
  set (l := lenofs x / 100000) in *. replace (k * lenofs x / 100000) with (k * l) by (unfold l; field). set (f := fst (curv x)) in *. set (g := snd (curv x)) in *.
  replace (1 * (k * fst (x1 x)) + 1 / 2 * (k * fst (x2 x)) + 1 / 3 * (k * fst (x3 x)) - (fst r1 - fst r0)) with ((k - 1) * (fst r1 - fst r0)) by (apply Rminus_diag_uniq; rewrite <- (Rmult_0_r (- k)), <- R1; ring).
  replace (1 * (k * snd (x1 x)) + 1 / 2 * (k * snd (x2 x)) + 1 / 3 * (k * snd (x3 x)) - (snd r1 - snd r0)) with ((k - 1) * (snd r1 - snd r0)) by (apply Rminus_diag_uniq; rewrite <- (Rmult_0_r (- k)), <- R2; ring).
  match goal with |- (_ + ?u * ?u + _ + _) / 2 < _ => replace u with 0 by (rewrite <- (Rmult_0_r k), <- R3; ring) end.
  match goal with |- (_ + ?u * ?u + _) / 2 < _ => replace u with 0 by (rewrite <- (Rmult_0_r k), <- R4; ring) end.
  assert (G : k ^ 2 * f * (k ^ 2 * f) + k ^ 2 * g * (k ^ 2 * g) <= k ^ 2 * (f * f + g * g)).
  { assert (0 <= f * f + g * g) by nra. assert (k ^ 2 * k ^ 2 <= k ^ 2 * 1) by (apply Rmult_le_compat_l; nra). nra. }
  assert (M : (1 - k) ^ 2 * N + k ^ 2 * P < P).
  { assert (Q1 : (1 - k) * N = k * P) by (rewrite K1; unfold k; field; lra). replace ((1 - k) ^ 2 * N) with ((1 - k) * ((1 - k) * N)) by ring. rewrite Q1. nra. }
  unfold P, N, norm2, step in M. cbn [fst snd] in M. fold l f g in M. nra.
Qed.
(** the direction *)
Lemma direction rm r0 r1 rp x : cost (residuals (reflect r0 rm) r0 r1 rp x) = cost (residuals rm r0 r1 rp x) /\ cost (residuals rm r0 r1 (reflect r1 rp) x) = cost (residuals rm r0 r1 rp x).
Proof. unfold residuals, reflect. cbv zeta. cbn [fst snd]. rewrite !cost_split. split; f_equal; ring. Qed.
Lemma opposite c p v : dot (step (reflect c p) c) v = - dot (step p c) v.
Proof. unfold dot, step, reflect. cbn [fst snd]. ring. Qed.

(** a quarter turn *)
Definition w_x : coefs := {| x1 := (2, 0); x2 := (-2, 2); x3 := (0, 0) |}.
Lemma w_conditions : firstn 4 (residuals (0, 0) (1, 0) (2, 1) (2, 2) w_x) = [0; 0; 0; 0].
Proof. cbn [residuals firstn w_x x1 x2 x3 fst snd]. repeat f_equal; lra. Qed.
Lemma w_speed s : 0 <= s <= 1 -> speed w_x s <= 2.
Proof.
  intros H. rewrite speed_vel. rewrite <- (sqrt_pow2 2) by lra. apply sqrt_le_1_alt. unfold norm2, vel, w_x. cbn [x1 x2 x3 fst snd]. nra.
Qed.
Lemma w_better : cost (residuals (0, 0) (1, 0) (2, 1) (2, 2) w_x) <= cost (residuals (0, 0) (1, 0) (2, 1) (2, 2) (stopping (1, 0) (2, 1))).
Proof.
  pose proof (lenofs_le w_x 2 w_speed) as L. pose proof (lenofs_nonneg w_x) as L0. pose proof (lenofs_nonneg (stopping (1, 0) (2, 1))) as L1.
  unfold residuals. rewrite !cost_split. generalize dependent (lenofs w_x). generalize dependent (lenofs (stopping (1, 0) (2, 1))). intros a Ha b Hb Hb0.
  cbn [w_x stopping step curv x1 x2 x3 fst snd]. nra.
Qed.
