(** The rows of the parallel operators on smooth fields: the error of the interpolation. *)
From Coq Require Import List ZArith QArith Qabs Qround Reals Qreals Lia Lra Bool.
From Verif Require Import Prelude PreludeFacts RevLipSpec RevLip RevAcc.
From Verif Require Import WeightsModel WeightsSpec WeightsInput WeightsTop WeightsLip SmoothRowSpec.
Import ListNotations.
Open Scope R_scope.

(** ** Taylor's theorem *)
Lemma turn_lim f f' c a s : (forall t, derivable_pt_lim f t (f' t)) -> derivable_pt_lim (fun s => f (c + a * s)) s (f' (c + a * s) * a).
Proof.
  intros D. apply (derivable_pt_lim_comp (fun s => c + a * s) f s a (f' (c + a * s))); [|apply D].
  assert (E : derivable_pt_lim (fun s => c + a * s) s (0 + a * 1)) by (apply (derivable_pt_lim_plus (fun _ => c) (fun s => a * s)); [apply derivable_pt_lim_const|apply (derivable_pt_lim_scal (fun s => s)), derivable_pt_lim_id]).
  replace (0 + a * 1) with a in E by ring. exact E.
Qed.
Lemma lim_id_scal c s : derivable_pt_lim (fun s => s * c) s c.
Proof.
  apply (derivable_pt_lim_ext (fun s => c * s)); [intros; ring|]. assert (E := derivable_pt_lim_scal (fun s => s) c s 1 (derivable_pt_lim_id s)).
  replace (c * 1) with c in E by ring. exact E.
Qed.
Lemma lim_sq_scal c s : derivable_pt_lim (fun s => s * s / 2 * c) s (s * c).
Proof.
  apply (derivable_pt_lim_ext (fun s => c / 2 * (s * s))); [intros; field|]. replace (s * c) with (c / 2 * (1 * s + s * 1)) by field.
  apply (derivable_pt_lim_scal (fun s => s * s)). apply (derivable_pt_lim_mult (fun s => s) (fun s => s)); apply derivable_pt_lim_id.
Qed.
Lemma lim_cube_scal c s : derivable_pt_lim (fun s => s * s * s / 6 * c) s (s * s / 2 * c).
Proof.
  apply (derivable_pt_lim_ext (fun s => c / 6 * (s * s * s))); [intros; field|]. replace (s * s / 2 * c) with (c / 6 * ((1 * s + s * 1) * s + s * s * 1)) by field.
  apply (derivable_pt_lim_scal (fun s => s * s * s)). apply (derivable_pt_lim_mult (fun s => s * s) (fun s => s)); [|apply derivable_pt_lim_id].
  apply (derivable_pt_lim_mult (fun s => s) (fun s => s)); apply derivable_pt_lim_id.
Qed.

Section T.
Variables (f f1 f2 f3 : R -> R) (M : R).
Hypothesis D1 : forall t, derivable_pt_lim f t (f1 t).
Hypothesis D2 : forall t, derivable_pt_lim f1 t (f2 t).
Hypothesis D3 : forall t, derivable_pt_lim f2 t (f3 t).
Hypothesis B : forall t, Rabs (f3 t) <= M.

Lemma taylor_dir c a h : a * a = 1 -> 0 <= h -> Rabs (f (c + a * h) - f c - h * (a * f1 c) - h * h / 2 * f2 c) <= h * h * h / 6 * M.
Proof.
  intros Ha Hh.
  assert (A1 : Rabs a <= 1). { apply Rabs_le. split; nra. }
  assert (G2 : forall s, 0 <= s -> Rabs (f2 (c + a * s) - f2 c) <= s * M).
  { intros s0 Hs0. apply (grows (fun s => f2 (c + a * s) - f2 c) (fun s => f3 (c + a * s) * a - 0) (fun s => s * M) (fun _ => M) s0 Hs0).
    - intros s _. apply (derivable_pt_lim_minus (fun s => f2 (c + a * s)) (fun _ => f2 c)); [now apply turn_lim|apply derivable_pt_lim_const].
    - intros s _. apply lim_id_scal.
    - intros s _. rewrite Rminus_0_r, Rabs_mult. assert (X := B (c + a * s)). assert (0 <= Rabs (f3 (c + a * s))) by apply Rabs_pos. assert (0 <= Rabs a) by apply Rabs_pos. nra.
    - rewrite Rmult_0_r, Rplus_0_r. ring.
    - ring. }
  assert (G1 : forall s, 0 <= s -> Rabs (f1 (c + a * s) * a - a * f1 c - s * f2 c) <= s * s / 2 * M).
  { intros s0 Hs0. apply (grows (fun s => f1 (c + a * s) * a - a * f1 c - s * f2 c) (fun s => (f2 (c + a * s) * a) * a - 0 - f2 c) (fun s => s * s / 2 * M) (fun s => s * M) s0 Hs0).
    - intros s _. apply (derivable_pt_lim_minus (fun s => f1 (c + a * s) * a - a * f1 c) (fun s => s * f2 c)); [|apply lim_id_scal].
      apply (derivable_pt_lim_minus (fun s => f1 (c + a * s) * a) (fun _ => a * f1 c)); [|apply derivable_pt_lim_const].
      apply (derivable_pt_lim_ext (fun s => a * f1 (c + a * s))); [intros; ring|]. rewrite Rmult_comm. apply (derivable_pt_lim_scal (fun s => f1 (c + a * s))). now apply turn_lim.
    - intros s _. apply lim_sq_scal.
    - intros s Hs. replace (f2 (c + a * s) * a * a - 0 - f2 c) with (f2 (c + a * s) - f2 c) by (rewrite Rmult_assoc, Ha; ring). apply G2. lra.
    - rewrite Rmult_0_r, Rplus_0_r. ring.
    - field. }
  apply (grows (fun s => f (c + a * s) - f c - s * (a * f1 c) - s * s / 2 * f2 c) (fun s => f1 (c + a * s) * a - 0 - a * f1 c - s * f2 c) (fun s => s * s * s / 6 * M) (fun s => s * s / 2 * M) h Hh).
  - intros s _. apply (derivable_pt_lim_minus (fun s => f (c + a * s) - f c - s * (a * f1 c)) (fun s => s * s / 2 * f2 c)); [|apply lim_sq_scal].
    apply (derivable_pt_lim_minus (fun s => f (c + a * s) - f c) (fun s => s * (a * f1 c))); [|apply lim_id_scal].
    apply (derivable_pt_lim_minus (fun s => f (c + a * s)) (fun _ => f c)); [now apply turn_lim|apply derivable_pt_lim_const].
  - intros s _. apply lim_cube_scal.
  - intros s Hs. rewrite Rminus_0_r. apply G1. lra.
  - rewrite Rmult_0_r, Rplus_0_r. field.
  - field.
Qed.

Lemma taylor c t h : Rabs (t - c) <= h -> 0 <= h -> Rabs (f t - f c - (t - c) * f1 c - (t - c) * (t - c) / 2 * f2 c) <= h * h * h / 6 * M.
Proof.
  intros Hd Hh. assert (M0 : 0 <= M) by (apply Rle_trans with (2 := B 0); apply Rabs_pos).
  assert (K : forall s, 0 <= s <= h -> s * s * s / 6 * M <= h * h * h / 6 * M).
  { intros s Hs. apply Rmult_le_compat_r; [exact M0|]. assert (s * s <= h * h) by (apply Rmult_le_compat; lra). assert (s * s * s <= h * h * h) by (apply Rmult_le_compat; nra). lra. }
  destruct (Rle_dec c t) as [H|H].
  - rewrite Rabs_pos_eq in Hd by lra. assert (E := taylor_dir c 1 (t - c) ltac:(ring) ltac:(lra)). replace (c + 1 * (t - c)) with t in E by ring. rewrite Rmult_1_l in E.
    apply Rle_trans with (1 := E). apply K. lra.
  - rewrite Rabs_left in Hd by lra. assert (E := taylor_dir c (-1) (c - t) ltac:(ring) ltac:(lra)). replace (c + -1 * (c - t)) with t in E by ring.
    replace (f t - f c - (t - c) * f1 c - (t - c) * (t - c) / 2 * f2 c) with (f t - f c - (c - t) * (-1 * f1 c) - (c - t) * (c - t) / 2 * f2 c) by field.
    apply Rle_trans with (1 := E). apply K. lra.
Qed.
End T.

(** ** one dimension *)
Definition cr0 (u : R) := - (u * ((1 - u) * (1 - u)) / 2).
Definition cr1 (u : R) := 1 - 5 / 2 * (u * u) + 3 / 2 * (u * u * u).
Definition cr2 (u : R) := u / 2 + 2 * (u * u) - 3 / 2 * (u * u * u).
Definition cr3 (u : R) := - (u * u * (1 - u) / 2).
Lemma hermite_R p0 p1 p2 p3 u : Q2R (hermite p0 p1 p2 p3 u) = cr0 (Q2R u) * Q2R p0 + cr1 (Q2R u) * Q2R p1 + cr2 (Q2R u) * Q2R p2 + cr3 (Q2R u) * Q2R p3.
Proof.
  assert (E : (hermite p0 p1 p2 p3 u == - (u * ((1 - u) * (1 - u)) * (1 # 2)) * p0 + (1 - (5 # 2) * (u * u) + (3 # 2) * (u * u * u)) * p1
    + (u * (1 # 2) + 2 * (u * u) - (3 # 2) * (u * u * u)) * p2 + - (u * u * (1 - u) * (1 # 2)) * p3)%Q) by (unfold hermite; field).
  rewrite (Qeq_eqR _ _ E). rewrite !Q2R_plus, !Q2R_mult, !Q2R_plus, !Q2R_opp, !Q2R_minus, !Q2R_mult, !Q2R_plus, !Q2R_minus, !Q2R_mult, ?Q2R_minus. unfold cr0, cr1, cr2, cr3.
  replace (Q2R 1) with 1 by (unfold Q2R; cbn; lra). replace (Q2R (1 # 2)) with (/ 2) by (unfold Q2R; cbn; lra). replace (Q2R (5 # 2)) with (5 / 2) by (unfold Q2R; cbn; lra).
  replace (Q2R (3 # 2)) with (3 / 2) by (unfold Q2R; cbn; lra). replace (Q2R 2) with 2 by (unfold Q2R; cbn; lra). field.
Qed.
Lemma cr_signs u : 0 <= u <= 1 -> cr0 u <= 0 /\ 0 <= cr1 u /\ 0 <= cr2 u /\ cr3 u <= 0.
Proof.
  intros H. unfold cr0, cr1, cr2, cr3. assert (A : 0 <= u * (1 - u)) by (apply Rmult_le_pos; lra). assert (0 <= (1 - u) * (1 - u)) by apply Rle_0_sqr. assert (0 <= u * u) by apply Rle_0_sqr.
  split; [assert (0 <= u * ((1 - u) * (1 - u))) by (apply Rmult_le_pos; lra); lra|]. split; [|split].
  - assert (0 <= (1 - u) * (1 + u - 3 / 2 * (u * u))) by (apply Rmult_le_pos; nra). nra.
  - assert (0 <= u * (/ 2 + 2 * u - 3 / 2 * (u * u))) by (apply Rmult_le_pos; nra). nra.
  - assert (0 <= u * u * (1 - u)) by (apply Rmult_le_pos; lra). lra.
Qed.
Lemma cr_sums u : cr0 u + cr1 u + cr2 u + cr3 u = 1 /\ cr0 u * (-1 - u) + cr1 u * (0 - u) + cr2 u * (1 - u) + cr3 u * (2 - u) = 0 /\
  cr0 u * ((-1 - u) * (-1 - u)) + cr1 u * ((0 - u) * (0 - u)) + cr2 u * ((1 - u) * (1 - u)) + cr3 u * ((2 - u) * (2 - u)) = 0.
Proof. unfold cr0, cr1, cr2, cr3. repeat split; field. Qed.
Lemma cr_abs u : 0 <= u <= 1 -> - cr0 u + cr1 u + cr2 u - cr3 u <= 5 / 4.
Proof. intros H. unfold cr0, cr1, cr2, cr3. assert (0 <= (u - / 2) * (u - / 2)) by apply Rle_0_sqr. nra. Qed.
Lemma cr_cubes u : 0 <= u <= 1 -> - cr0 u * ((1 + u) * (1 + u) * (1 + u)) + cr1 u * (u * u * u) + cr2 u * ((1 - u) * (1 - u) * (1 - u)) - cr3 u * ((2 - u) * (2 - u) * (2 - u)) <= 9 / 16.
Proof.
  intros H. set (s := u * (1 - u)). assert (S0 : 0 <= s <= / 4) by (unfold s; split; [apply Rmult_le_pos; lra|assert (0 <= (u - / 2) * (u - / 2)) by apply Rle_0_sqr; nra]).
  replace (- cr0 u * ((1 + u) * (1 + u) * (1 + u)) + cr1 u * (u * u * u) + cr2 u * ((1 - u) * (1 - u) * (1 - u)) - cr3 u * ((2 - u) * (2 - u) * (2 - u)))
    with (s + 6 * (s * s) - 4 * (s * s * s)) by (unfold s, cr0, cr1, cr2, cr3; field).
  assert (0 <= (/ 4 - s) * (9 / 4 + 5 * s - 4 * (s * s))) by (apply Rmult_le_pos; [lra|]; assert (s * s <= s * / 4) by (apply Rmult_le_compat_l; lra); lra). lra.
Qed.

Lemma mix4 u e0 e1 e2 e3 b0 b1 b2 b3 : 0 <= u <= 1 -> Rabs e0 <= b0 -> Rabs e1 <= b1 -> Rabs e2 <= b2 -> Rabs e3 <= b3 ->
  Rabs (cr0 u * e0 + cr1 u * e1 + cr2 u * e2 + cr3 u * e3) <= - cr0 u * b0 + cr1 u * b1 + cr2 u * b2 - cr3 u * b3.
Proof.
  intros H H0 H1 H2 H3. destruct (cr_signs u H) as (S0 & S1 & S2 & S3).
  assert (X : forall x b, Rabs x <= b -> - b <= x <= b) by (intros x b Hx; unfold Rabs in Hx; destruct (Rcase_abs x); lra).
  apply X in H0. apply X in H1. apply X in H2. apply X in H3. apply Rabs_le.
  assert (0 <= - cr0 u * (b0 - e0)) by (apply Rmult_le_pos; lra). assert (0 <= - cr0 u * (b0 + e0)) by (apply Rmult_le_pos; lra).
  assert (0 <= cr1 u * (b1 - e1)) by (apply Rmult_le_pos; lra). assert (0 <= cr1 u * (b1 + e1)) by (apply Rmult_le_pos; lra).
  assert (0 <= cr2 u * (b2 - e2)) by (apply Rmult_le_pos; lra). assert (0 <= cr2 u * (b2 + e2)) by (apply Rmult_le_pos; lra).
  assert (0 <= - cr3 u * (b3 - e3)) by (apply Rmult_le_pos; lra). assert (0 <= - cr3 u * (b3 + e3)) by (apply Rmult_le_pos; lra). split; lra.
Qed.

Lemma smooth_interp f f' M b u d0 d1 d2 d3 a0 a1 a2 a3 : smooth M f f' -> 0 <= u <= 1 ->
  Rabs (a0 - f (b - 1)) <= d0 -> Rabs (a1 - f b) <= d1 -> Rabs (a2 - f (b + 1)) <= d2 -> Rabs (a3 - f (b + 2)) <= d3 ->
  Rabs (cr0 u * a0 + cr1 u * a1 + cr2 u * a2 + cr3 u * a3 - f (b + u)) <= 3 / 32 * M + (- cr0 u * d0 + cr1 u * d1 + cr2 u * d2 - cr3 u * d3).
Proof.
  intros (f2 & f3 & D1 & D2 & D3 & B) Hu A0 A1 A2 A3. assert (M0 : 0 <= M) by (apply Rle_trans with (2 := B 0); apply Rabs_pos).
  assert (T := taylor f f' f2 f3 M D1 D2 D3 B (b + u)).
  assert (T0 := T (b - 1) (1 + u) ltac:(apply Rabs_le; lra) ltac:(lra)). assert (T1 := T b u ltac:(apply Rabs_le; lra) ltac:(lra)).
  assert (T2 := T (b + 1) (1 - u) ltac:(apply Rabs_le; lra) ltac:(lra)). assert (T3 := T (b + 2) (2 - u) ltac:(apply Rabs_le; lra) ltac:(lra)). clear T.
  set (e0 := f (b - 1) - f (b + u) - (b - 1 - (b + u)) * f' (b + u) - (b - 1 - (b + u)) * (b - 1 - (b + u)) / 2 * f2 (b + u)) in *.
  set (e1 := f b - f (b + u) - (b - (b + u)) * f' (b + u) - (b - (b + u)) * (b - (b + u)) / 2 * f2 (b + u)) in *.
  set (e2 := f (b + 1) - f (b + u) - (b + 1 - (b + u)) * f' (b + u) - (b + 1 - (b + u)) * (b + 1 - (b + u)) / 2 * f2 (b + u)) in *.
  set (e3 := f (b + 2) - f (b + u) - (b + 2 - (b + u)) * f' (b + u) - (b + 2 - (b + u)) * (b + 2 - (b + u)) / 2 * f2 (b + u)) in *.
  destruct (cr_sums u) as (S0 & S1 & S2).
  assert (EQ : cr0 u * a0 + cr1 u * a1 + cr2 u * a2 + cr3 u * a3 - f (b + u) =
    (cr0 u * (a0 - f (b - 1)) + cr1 u * (a1 - f b) + cr2 u * (a2 - f (b + 1)) + cr3 u * (a3 - f (b + 2))) + (cr0 u * e0 + cr1 u * e1 + cr2 u * e2 + cr3 u * e3)).
  { unfold e0, e1, e2, e3.
    replace (f (b + u)) with ((cr0 u + cr1 u + cr2 u + cr3 u) * f (b + u) + (cr0 u * (-1 - u) + cr1 u * (0 - u) + cr2 u * (1 - u) + cr3 u * (2 - u)) * f' (b + u)
      + (cr0 u * ((-1 - u) * (-1 - u)) + cr1 u * ((0 - u) * (0 - u)) + cr2 u * ((1 - u) * (1 - u)) + cr3 u * ((2 - u) * (2 - u))) * (f2 (b + u) / 2)) at 1 by (rewrite S0, S1, S2; ring).
    field. }
  rewrite EQ. apply Rle_trans with (1 := Rabs_triang _ _).
  assert (X1 := mix4 u _ _ _ _ _ _ _ _ Hu A0 A1 A2 A3). assert (X2 := mix4 u _ _ _ _ _ _ _ _ Hu T0 T1 T2 T3).
  assert (C2 := cr_cubes u Hu).
  assert (Y2 : (- cr0 u * ((1 + u) * (1 + u) * (1 + u)) + cr1 u * (u * u * u) + cr2 u * ((1 - u) * (1 - u) * (1 - u)) - cr3 u * ((2 - u) * (2 - u) * (2 - u))) * (M / 6) <= 9 / 16 * (M / 6)) by (apply Rmult_le_compat_r; lra).
  lra.
Qed.

(** ** two dimensions *)
Lemma floor_frac x : 0 <= Q2R (x - inject_Z (Qfloor x)) <= 1.
Proof.
  assert (A := Qfloor_le x). assert (B := Qlt_floor x). rewrite inject_Z_plus in B. apply Qle_Rle in A. apply Qlt_Rlt in B. rewrite Q2R_plus in B. rewrite Q2R_minus.
  replace (Q2R (inject_Z 1)) with 1 in B by (unfold Q2R; cbn; lra). lra.
Qed.
Lemma Q2R_Z k : Q2R (inject_Z k) = IZR k.
Proof. unfold Q2R. cbn. field. Qed.
Lemma interp1_near f f' M F x d (b := Qfloor x) (u := Q2R (x - inject_Z (Qfloor x))) : smooth M f f' -> (forall i, (b - 1 <= i <= b + 2)%Z -> Rabs (Q2R (F i) - f (IZR i)) <= d i) ->
  Rabs (Q2R (interp1 F x) - f (Q2R x)) <= 3 / 32 * M + (- cr0 u * d (b - 1)%Z + cr1 u * d b + cr2 u * d (b + 1)%Z - cr3 u * d (b + 2)%Z).
Proof.
  intros Sm HF. unfold interp1. rewrite hermite_R. fold b. fold u.
  assert (E : Q2R x = IZR b + u) by (unfold u; rewrite Q2R_minus, Q2R_Z; unfold b; ring). rewrite E.
  apply (smooth_interp f f' M (IZR b) u); [exact Sm|apply floor_frac| | | |].
  - rewrite <- minus_IZR. apply HF. lia.
  - apply HF. lia.
  - rewrite <- plus_IZR. apply HF. lia.
  - rewrite <- plus_IZR. apply HF. lia.
Qed.
Lemma interp1_smooth f f' M F x delta : smooth M f f' -> 0 <= delta -> (forall i, (Qfloor x - 1 <= i <= Qfloor x + 2)%Z -> Rabs (Q2R (F i) - f (IZR i)) <= delta) ->
  Rabs (Q2R (interp1 F x) - f (Q2R x)) <= 3 / 32 * M + 5 / 4 * delta.
Proof.
  intros Sm Hd HF. apply Rle_trans with (1 := interp1_near f f' M F x (fun _ => delta) Sm HF). cbv beta.
  assert (C := cr_abs _ (floor_frac x)). assert (Y := Rmult_le_compat_r delta _ _ Hd C). lra.
Qed.
Lemma smooth_nonneg M f f' : smooth M f f' -> 0 <= M.
Proof. intros (f2 & f3 & _ & _ & _ & B). apply Rle_trans with (2 := B 0). apply Rabs_pos. Qed.
Section I2.
Variables (G : R -> R -> R) (Mx Mz delta L : R) (F : Z -> Z -> Q) (x z : Q).
Hypothesis SM : smooth2 Mx Mz G.
Hypothesis Hd : 0 <= delta.
Lemma row_near i : (forall k, Rabs (Q2R (F i k) - G (IZR i) (IZR k)) <= delta) -> Rabs (Q2R (interp1 (F i) z) - G (IZR i) (Q2R z)) <= 3 / 32 * Mz + 5 / 4 * delta.
Proof. intros H. destruct (proj2 SM (IZR i)) as (gz & Sz). apply (interp1_smooth (fun z => G (IZR i) z) gz); [exact Sz|exact Hd|]. intros k _. apply H. Qed.
Lemma Mz_nonneg : 0 <= Mz.
Proof. destruct (proj2 SM 0) as (gz & Sz). exact (smooth_nonneg _ _ _ Sz). Qed.
Lemma Mx_nonneg : 0 <= Mx.
Proof. destruct (proj1 SM 0) as (gz & Sz). exact (smooth_nonneg _ _ _ Sz). Qed.
Lemma interp2_smooth : (forall i k, (Qfloor x - 1 <= i <= Qfloor x + 2)%Z -> Rabs (Q2R (F i k) - G (IZR i) (IZR k)) <= delta) ->
  Rabs (Q2R (interp2 F x z) - G (Q2R x) (Q2R z)) <= 3 / 32 * Mx + 15 / 128 * Mz + 25 / 16 * delta.
Proof.
  intros HF. unfold interp2. destruct (proj1 SM (Q2R z)) as (gx & Sx). assert (M0 := Mz_nonneg).
  apply Rle_trans with (3 / 32 * Mx + 5 / 4 * (3 / 32 * Mz + 5 / 4 * delta)); [|lra].
  apply (interp1_smooth (fun x => G x (Q2R z)) gx); [exact Sx|lra|]. intros i Hi. apply row_near. intros k. now apply HF.
Qed.

(** the rows outside of [lo, hi] read as the row on the boundary *)
Variables lo hi : Z.
Hypothesis LH : (lo < hi)%Z.
Hypothesis HI : (lo <= Qfloor x <= hi - 1)%Z.
Hypothesis HL : forall a b z, Rabs (G a z - G b z) <= L * Rabs (a - b).
Hypothesis HF : forall i k, (lo <= i <= hi)%Z -> Rabs (Q2R (F i k) - G (IZR i) (IZR k)) <= delta.
Hypothesis HC : forall i k, F i k = F (clampZ i lo hi) k.
Lemma interp2_clamped : Rabs (Q2R (interp2 F x z) - G (Q2R x) (Q2R z)) <= 3 / 32 * Mx + 15 / 128 * Mz + 25 / 16 * delta + L / 8.
Proof.
  unfold interp2. destruct (proj1 SM (Q2R z)) as (gx & Sx). assert (M0 := Mz_nonneg). set (E := 3 / 32 * Mz + 5 / 4 * delta).
  set (b := Qfloor x) in *. set (u := Q2R (x - inject_Z b)).
  assert (L0 : 0 <= L). { assert (X := HL 1 0 0). rewrite Rminus_0_r, Rabs_R1, Rmult_1_r in X. apply Rle_trans with (2 := X). apply Rabs_pos. }
  assert (N : forall i, (lo <= i <= hi)%Z -> Rabs (Q2R (interp1 (F i) z) - G (IZR i) (Q2R z)) <= E) by (intros i Hi; apply row_near; intros k; now apply HF).
  assert (O : forall i, (lo - 1 <= i <= hi + 1)%Z -> Rabs (Q2R (interp1 (F i) z) - G (IZR i) (Q2R z)) <= E + L).
  { intros i Hi. set (j := clampZ i lo hi). assert (J : (lo <= j <= hi /\ Z.abs (j - i) <= 1)%Z) by (unfold j, clampZ; destruct (i <? lo)%Z eqn:E1; [|destruct (hi <? i)%Z eqn:E2]; lia). destruct J as (J & J').
    replace (interp1 (F i) z) with (interp1 (F j) z) by (unfold interp1; rewrite <- !(HC i); reflexivity).
    replace (Q2R (interp1 (F j) z) - G (IZR i) (Q2R z)) with ((Q2R (interp1 (F j) z) - G (IZR j) (Q2R z)) + (G (IZR j) (Q2R z) - G (IZR i) (Q2R z))) by ring.
    apply Rle_trans with (1 := Rabs_triang _ _). assert (N1 := N j J). assert (N2 := HL (IZR j) (IZR i) (Q2R z)). rewrite <- minus_IZR, <- abs_IZR in N2.
    assert (N3 : IZR (Z.abs (j - i)) <= 1) by (apply IZR_le, J'). assert (L * IZR (Z.abs (j - i)) <= L * 1) by (apply Rmult_le_compat_l; assumption). lra. }
  set (d := fun i : Z => if (i <? lo)%Z then E + L else if (hi <? i)%Z then E + L else E).
  assert (X := interp1_near (fun x => G x (Q2R z)) gx Mx (fun i => interp1 (F i) z) x d Sx). cbv zeta in X. fold b in X. fold u in X.
  apply Rle_trans with (3 / 32 * Mx + (- cr0 u * d (b - 1)%Z + cr1 u * d b + cr2 u * d (b + 1)%Z - cr3 u * d (b + 2)%Z)).
  - apply X. intros i Hi. unfold d. destruct (i <? lo)%Z eqn:E1; [apply O; lia|]. destruct (hi <? i)%Z eqn:E2; [apply O; lia|apply N; lia].
  - assert (U : 0 <= u <= 1) by apply floor_frac. destruct (cr_signs u U) as (S0 & S1 & S2 & S3). assert (C := cr_abs u U).
    assert (E0 : 0 <= E) by (unfold E; lra).
    assert (D1 : d b = E) by (unfold d; replace (b <? lo)%Z with false by (symmetry; apply Z.ltb_ge; lia); replace (hi <? b)%Z with false by (symmetry; apply Z.ltb_ge; lia); reflexivity).
    assert (D2 : d (b + 1)%Z = E) by (unfold d; replace (b + 1 <? lo)%Z with false by (symmetry; apply Z.ltb_ge; lia); replace (hi <? b + 1)%Z with false by (symmetry; apply Z.ltb_ge; lia); reflexivity).
    assert (D0 : forall i, d i <= E + L) by (intros i; unfold d; destruct (i <? lo)%Z, (hi <? i)%Z; lra). rewrite D1, D2.
    assert (P0 := Rmult_le_compat_l (- cr0 u) _ _ ltac:(lra) (D0 (b - 1)%Z)). assert (P3 := Rmult_le_compat_l (- cr3 u) _ _ ltac:(lra) (D0 (b + 2)%Z)).
    assert (Y := Rmult_le_compat_r E _ _ E0 C).
    assert (W : - cr0 u - cr3 u <= / 8) by (unfold cr0, cr3; assert (0 <= (u - / 2) * (u - / 2)) by apply Rle_0_sqr; nra).
    assert (Y' := Rmult_le_compat_r L _ _ L0 W). unfold E in *. lra.
Qed.
End I2.
Lemma interp1_node F x : (x == inject_Z (Qfloor x))%Q -> (interp1 F x == F (Qfloor x))%Q.
Proof. intros E. unfold interp1, hermite. assert (U : (x - inject_Z (Qfloor x) == 0)%Q) by (rewrite E at 1; ring). rewrite U. field. Qed.

(** ** averages *)
Lemma qsum_R l : Q2R (qsum l) = total_R (map Q2R l).
Proof. induction l as [|q l IH]; cbn [qsum map total_R]; [apply Q2R_0|]. now rewrite Q2R_plus, IH. Qed.
Lemma total_R_ext (f g : nat -> R) l : (forall s, In s l -> f s = g s) -> total_R (map f l) = total_R (map g l).
Proof. induction l as [|s l IH]; intros H; cbn; [reflexivity|]. rewrite (H s (or_introl eq_refl)), IH; [reflexivity|]. intros s' I. apply H. now right. Qed.
Lemma total_R_diff (f g : nat -> R) (B : nat -> R) l : (forall s, In s l -> Rabs (f s - g s) <= B s) -> Rabs (total_R (map f l) - total_R (map g l)) <= total_R (map B l).
Proof.
  induction l as [|s l IH]; intros H; cbn [map total_R].
  - rewrite Rminus_0_r, Rabs_R0. lra.
  - assert (A := H s (or_introl eq_refl)). assert (C := IH (fun s' I => H s' (or_intror I))).
    replace (f s + total_R (map f l) - (g s + total_R (map g l))) with ((f s - g s) + (total_R (map f l) - total_R (map g l))) by ring.
    apply Rle_trans with (1 := Rabs_triang _ _). lra.
Qed.
Lemma total_R_scaled (f : nat -> R) a l : total_R (map (fun s => f s * a) l) = total_R (map f l) * a.
Proof. induction l as [|s l IH]; cbn [map total_R]; [ring|]. rewrite IH. ring. Qed.
Lemma leavesb_inside m x : leavesb m x = false <-> ~ leaves m x.
Proof.
  unfold leavesb, leaves. rewrite negb_false_iff, andb_true_iff, !Qle_bool_iff. split.
  - intros [A C] [D|D]; [apply (Qlt_not_le _ _ D A)|apply (Qlt_not_le _ _ D C)].
  - intros D. split; apply Qnot_lt_le; intros C; apply D; [left|right]; exact C.
Qed.
Lemma area_R m n X w c : total_R (map (fun s => if leavesb m (X c s) then 0 else Q2R (nth s w 0%Q)) (seq 0 n)) = Q2R (inside_area m n X w c).
Proof. unfold inside_area. rewrite qsum_R, map_map. apply total_R_ext. intros s _. destruct (leavesb m (X c s)); [symmetry; apply Q2R_0|reflexivity]. Qed.
Lemma area_pos m n X w c : Forall (fun q => 0 < q)%Q w -> length w = n -> some_inside m n X c -> (0 < inside_area m n X w c)%Q.
Proof.
  intros HW HL (s0 & Hs0 & I0).
  assert (WP : forall s, (s < n)%nat -> (0 < nth s w 0)%Q) by (intros s Hs; rewrite Forall_forall in HW; apply HW, nth_In; lia).
  unfold inside_area. assert (G : forall l, (forall s, In s l -> (s < n)%nat) -> (0 <= qsum (map (fun s => if leavesb m (X c s) then 0 else nth s w 0) l) /\ (In s0 l -> 0 < qsum (map (fun s => if leavesb m (X c s) then 0 else nth s w 0) l)))%Q).
  { induction l as [|s l IH]; intros Hl; cbn [map qsum In]; [split; [apply Qle_refl|intros []]|]. destruct (IH (fun s' I => Hl s' (or_intror I))) as (Q1 & Q2). assert (Q3 := WP s (Hl s (or_introl eq_refl))).
    split.
    - destruct (leavesb m (X c s)); [rewrite Qplus_0_l; exact Q1|]. apply Qle_trans with (0 + 0)%Q; [apply Qle_refl|]. apply Qplus_le_compat; [now apply Qlt_le_weak|exact Q1].
    - intros [->|I].
      + apply leavesb_inside in I0. rewrite I0. apply Qlt_le_trans with (nth s0 w 0 + 0)%Q; [rewrite Qplus_0_r; exact Q3|]. apply Qplus_le_compat; [apply Qle_refl|exact Q1].
      + apply Qlt_le_trans with (1 := Q2 I). destruct (leavesb m (X c s)); [rewrite Qplus_0_l; apply Qle_refl|]. rewrite <- (Qplus_0_l (qsum _)) at 1. apply Qplus_le_compat; [now apply Qlt_le_weak|apply Qle_refl]. }
  apply G; [intros s; rewrite in_seq; lia|]. apply in_seq. lia.
Qed.
Lemma average_R m n X w c g h B : Forall (fun q => 0 < q)%Q w -> length w = n -> some_inside m n X c ->
  (forall s, (s < n)%nat -> ~ leaves m (X c s) -> Rabs (Q2R (g s) - h s) <= B) ->
  Rabs (Q2R (inside_average m n X w c g) - inside_average_R m n X w c h) <= B.
Proof.
  intros HW HL HI HB. assert (AP := area_pos m n X w c HW HL HI).
  assert (WP : forall s, (s < n)%nat -> 0 <= Q2R (nth s w 0%Q)).
  { intros s Hs. rewrite Forall_forall in HW. rewrite <- Q2R_0. apply Qle_Rle, Qlt_le_weak, HW, nth_In. lia. }
  unfold inside_average, inside_average_R. rewrite area_R. unfold Qdiv. rewrite Q2R_mult, Q2R_inv by (intros C; rewrite C in AP; discriminate (proj1 (Qlt_alt 0 0) AP)).
  assert (AR : 0 < Q2R (inside_area m n X w c)) by (rewrite <- Q2R_0; now apply Qlt_Rlt). set (A := Q2R (inside_area m n X w c)) in *.
  rewrite qsum_R, map_map.
  match goal with |- Rabs (?a * / A - ?b / A) <= B => replace (a * / A - b / A) with ((a - b) / A) by (unfold Rdiv; ring) end.
  unfold Rdiv. rewrite Rabs_mult, (Rabs_pos_eq (/ A)) by (apply Rlt_le, Rinv_0_lt_compat, AR).
  apply Rmult_le_reg_r with A; [exact AR|]. rewrite Rmult_assoc, Rinv_l, Rmult_1_r by lra.
  apply Rle_trans with (total_R (map (fun s => (if leavesb m (X c s) then 0 else Q2R (nth s w 0%Q)) * B) (seq 0 n))).
  - apply total_R_diff. intros s Hs. apply in_seq in Hs. destruct (leavesb m (X c s)) eqn:E.
    + rewrite Q2R_0, Rminus_0_r, Rabs_R0. lra.
    + rewrite Q2R_mult. rewrite <- Rmult_minus_distr_l, Rabs_mult, (Rabs_pos_eq (Q2R (nth s w 0%Q))) by (apply WP; lia).
      apply Rmult_le_compat_l; [apply WP; lia|]. apply HB; [lia|now apply leavesb_inside].
  - rewrite total_R_scaled, area_R. unfold A. lra.
Qed.

(** ** rows *)
Lemma periodic_mod (G : R -> R -> R) nz x k : (0 < nz)%Z -> (forall z, G x (z + IZR nz) = G x z) -> G x (IZR k) = G x (IZR (k mod nz)).
Proof.
  intros N P. assert (PN : forall q z, G x (z + INR q * IZR nz) = G x z).
  { induction q as [|q IH]; intros z; [cbn [INR]; f_equal; ring|]. rewrite S_INR. replace (z + (INR q + 1) * IZR nz) with (z + INR q * IZR nz + IZR nz) by ring. now rewrite P, IH. }
  assert (PZ : forall q z, G x (z + IZR q * IZR nz) = G x z).
  { intros q z. destruct (Z_le_gt_dec 0 q) as [H|H].
    - rewrite <- (Z2Nat.id q H), <- INR_IZR_INZ. apply PN.
    - replace q with (- Z.of_nat (Z.to_nat (- q)))%Z by lia. rewrite opp_IZR, <- INR_IZR_INZ. rewrite <- (PN (Z.to_nat (- q)) (z + - INR (Z.to_nat (- q)) * IZR nz)). f_equal. ring. }
  rewrite (Z.div_mod k nz) at 1 by lia. rewrite Z.add_comm, plus_IZR, Z.mul_comm, mult_IZR. apply PZ.
Qed.

(** the field [g] on the next slice is [G] within [delta] *)
Lemma extend_near m d c g G delta : evolving m c -> (forall x z, G x (z + IZR (m_nz m)) = G x z) ->
  (forall i k, evolving m (i, next_y m d c, k) -> Rabs (Q2R (g (i, next_y m d c, k)) - G (IZR i) (IZR k)) <= delta) ->
  forall i k, (m_mxg m <= i <= m_nx m - m_mxg m - 1)%Z -> Rabs (Q2R (extend m d c g i k) - G (IZR i) (IZR k)) <= delta.
Proof.
  intros Hc P HG i k Hi. unfold extend. replace (clampZ i (m_mxg m) (m_nx m - m_mxg m - 1)) with i by (unfold clampZ; destruct (i <? m_mxg m)%Z eqn:E1; [lia|]; destruct (m_nx m - m_mxg m - 1 <? i)%Z eqn:E2; lia).
  destruct c as ((cx, cy), cz). destruct Hc as (Hx & Hy & Hz). rewrite (periodic_mod G (m_nz m) (IZR i) k); [|lia|intros z; apply P]. apply HG. unfold evolving.
  assert (next_y m d (cx, cy, cz) = next_y m d (cx, cy, cz)) by reflexivity.
  repeat split; try lia; unfold next_y; destruct d; try (apply Z.mod_pos_bound; lia).
Qed.
Lemma tri_R r q t a b : Rabs (r - q) <= a -> Rabs (q - t) <= b -> Rabs (r - t) <= a + b.
Proof. intros A B. replace (r - t) with ((r - q) + (q - t)) by ring. apply Rle_trans with (1 := Rabs_triang _ _). lra. Qed.
Section Rows.
Variables (jw : Q) (jc : Z) (m : maps) (n : nat) (X Zm : dir -> cell -> nat -> Q) (w : list Q).
Hypothesis V : valid_maps m n X Zm w.
Variable v : weight_vars.
Hypothesis C : calculate_parallel_map_operators jw jc m = Ok v.
Variables (d : dir) (c : cell) (f : Z -> Q) (g : cell -> Q) (M : Q).
Hypothesis Hc : evolving m c.
Hypothesis Hi : some_inside m n (X d) c.
Hypothesis Hf : forall c', evolving m c' -> (f (wv_cell_number v c') == g c')%Q.
Hypothesis HM : forall c', evolving m c' -> (Qabs (g c') <= M)%Q.
Lemma row_field h B : (forall s, (s < n)%nat -> ~ leaves m (X d c s) -> (0 <= Zm d c s)%Q) ->
  (forall s, (s < n)%nat -> ~ leaves m (X d c s) -> Rabs (Q2R (interp2 (extend m d c g) (X d c s) (Zm d c s)) - h s) <= B) ->
  Rabs (Q2R (row_apply (leg_row v d (lo_interior_number (wv_dir d v) c)) f) - inside_average_R m n (X d) w c h) <= B + 5 / 10000000000 * Q2R M.
Proof.
  intros HZ HB. assert (A := decoded_interp jw jc m n X Zm w V v C d c f g M Hc Hi HZ Hf HM). apply Qle_Rle in A. rewrite Q2R_abs, Q2R_minus, Q2R_mult in A.
  replace (Q2R (5 # 10000000000)) with (5 / 10000000000) in A by (unfold Q2R; cbn; lra).
  assert (A' := average_R m n (X d) w c _ h B (vm_pos _ _ _ _ _ V) (vm_len _ _ _ _ _ V) Hi HB).
  change (decoded_row v d) with (leg_row v d) in A.
  set (r := Q2R (row_apply _ f)) in *. set (q := Q2R (inside_average _ _ _ _ _ _)) in *. set (t := inside_average_R _ _ _ _ _ _) in *.
  replace (r - t) with ((r - q) + (q - t)) by ring. apply Rle_trans with (1 := Rabs_triang _ _). lra.
Qed.
Variables (G : R -> R -> R) (Mx Mz delta : R).
Hypothesis SM : smooth2 Mx Mz G.
Hypothesis Hd : 0 <= delta.
Hypothesis PG : forall x z, G x (z + IZR (m_nz m)) = G x z.
Hypothesis HG : forall i k, evolving m (i, next_y m d c, k) -> Rabs (Q2R (g (i, next_y m d c, k)) - G (IZR i) (IZR k)) <= delta.
Lemma smooth_rows : (forall s, (s < n)%nat -> ~ leaves m (X d c s) -> (0 <= Zm d c s)%Q /\ (m_mxg m + 1 <= Qfloor (X d c s) <= m_nx m - m_mxg m - 3)%Z) ->
  Rabs (Q2R (row_apply (leg_row v d (lo_interior_number (wv_dir d v) c)) f) - inside_average_R m n (X d) w c (fun s => G (Q2R (X d c s)) (Q2R (Zm d c s))))
    <= 3 / 32 * Mx + 15 / 128 * Mz + 25 / 16 * delta + 5 / 10000000000 * Q2R M.
Proof.
  intros HX. apply row_field; [intros s A B; now apply HX|]. intros s Hs Is. destruct (HX s Hs Is) as (_ & FX).
  apply interp2_smooth; [exact SM|exact Hd|]. intros i k Hi'. apply extend_near; [exact Hc|exact PG|exact HG|lia].
Qed.
Lemma smooth_rows_edge L : (forall a b z, Rabs (G a z - G b z) <= L * Rabs (a - b)) -> (forall s, (s < n)%nat -> ~ leaves m (X d c s) -> (0 <= Zm d c s)%Q) ->
  Rabs (Q2R (row_apply (leg_row v d (lo_interior_number (wv_dir d v) c)) f) - inside_average_R m n (X d) w c (fun s => G (Q2R (X d c s)) (Q2R (Zm d c s))))
    <= 3 / 32 * Mx + 15 / 128 * Mz + 25 / 16 * delta + L / 8 + 5 / 10000000000 * Q2R M.
Proof.
  intros HL HZ. apply row_field; [exact HZ|]. intros s Hs Is.
  assert (L0 : 0 <= L). { assert (T := HL 1 0 0). rewrite Rminus_0_r, Rabs_R1, Rmult_1_r in T. apply Rle_trans with (2 := T). apply Rabs_pos. }
  assert (NL : (inject_Z (m_mxg m) <= X d c s <= inject_Z (m_nx m - m_mxg m - 1))%Q) by (split; apply Qnot_lt_le; intros T; apply Is; [left|right]; exact T).
  destruct NL as (N1 & N2). assert (F1 := Qfloor_resp_le _ _ N1). assert (F2 := Qfloor_resp_le _ _ N2). rewrite !Qfloor_Z in F1, F2.
  destruct (Z.eq_dec (Qfloor (X d c s)) (m_nx m - m_mxg m - 1)) as [E|E].
  - assert (EQ : (X d c s == inject_Z (Qfloor (X d c s)))%Q) by (apply Qle_antisym; [rewrite E; exact N2|apply Qfloor_le]).
    assert (EQ2 := interp1_node (fun i => interp1 (extend m d c g i) (Zm d c s)) _ EQ). unfold interp2. rewrite (Qeq_eqR _ _ EQ2). rewrite (Qeq_eqR _ _ EQ), Q2R_Z.
    assert (T := row_near G Mx Mz delta (extend m d c g) (Zm d c s) SM Hd (Qfloor (X d c s))). assert (M0 := Mz_nonneg G Mx Mz SM). assert (M1 := Mx_nonneg G Mx Mz SM).
    apply Rle_trans with (3 / 32 * Mz + 5 / 4 * delta); [|lra].
    apply T. intros k. apply extend_near; [exact Hc|exact PG|exact HG|lia].
  - apply (interp2_clamped G Mx Mz delta L _ _ _ SM Hd (m_mxg m) (m_nx m - m_mxg m - 1)); [lia|lia|exact HL| |].
    + intros i k Hi'. apply extend_near; [exact Hc|exact PG|exact HG|lia].
    + intros i k. unfold extend. do 3 f_equal. unfold clampZ. destruct (i <? m_mxg m)%Z eqn:E1.
      * rewrite Z.ltb_irrefl. destruct (m_nx m - m_mxg m - 1 <? m_mxg m)%Z eqn:E2; lia.
      * destruct (m_nx m - m_mxg m - 1 <? i)%Z eqn:E2; [|rewrite E1, E2; reflexivity]. rewrite Z.ltb_irrefl. destruct (m_nx m - m_mxg m - 1 <? m_mxg m)%Z eqn:E3; lia.
Qed.
(** at the points where the lines really end *)
Lemma average_R_near h h' B : (forall s, (s < n)%nat -> ~ leaves m (X d c s) -> Rabs (h s - h' s) <= B) -> Rabs (inside_average_R m n (X d) w c h - inside_average_R m n (X d) w c h') <= B.
Proof.
  intros HB. assert (AP := area_pos m n (X d) w c (vm_pos _ _ _ _ _ V) (vm_len _ _ _ _ _ V) Hi).
  assert (WP : forall s, (s < n)%nat -> 0 <= Q2R (nth s w 0%Q)).
  { intros s Hs. assert (HW := vm_pos _ _ _ _ _ V). rewrite Forall_forall in HW. rewrite <- Q2R_0. apply Qle_Rle, Qlt_le_weak, HW, nth_In. rewrite (vm_len _ _ _ _ _ V). exact Hs. }
  unfold inside_average_R. rewrite area_R.
  assert (AR : 0 < Q2R (inside_area m n (X d) w c)) by (rewrite <- Q2R_0; now apply Qlt_Rlt). set (A := Q2R (inside_area m n (X d) w c)) in *.
  match goal with |- Rabs (?a / A - ?b / A) <= B => replace (a / A - b / A) with ((a - b) * / A) by (unfold Rdiv; ring) end.
  rewrite Rabs_mult, (Rabs_pos_eq (/ A)) by (apply Rlt_le, Rinv_0_lt_compat, AR).
  apply Rmult_le_reg_r with A; [exact AR|]. rewrite Rmult_assoc, Rinv_l, Rmult_1_r by lra.
  apply Rle_trans with (total_R (map (fun s => (if leavesb m (X d c s) then 0 else Q2R (nth s w 0%Q)) * B) (seq 0 n))).
  - apply total_R_diff. intros s Hs. apply in_seq in Hs. destruct (leavesb m (X d c s)) eqn:E.
    + rewrite Rminus_0_r, Rabs_R0. lra.
    + rewrite <- Rmult_minus_distr_l, Rabs_mult, (Rabs_pos_eq (Q2R (nth s w 0%Q))) by (apply WP; lia).
      apply Rmult_le_compat_l; [apply WP; lia|]. apply HB; [lia|now apply leavesb_inside].
  - rewrite total_R_scaled, area_R. unfold A. lra.
Qed.
Lemma smooth_rows_ends L e xs zs : (forall a b a' b', Rabs (G a b - G a' b') <= L * (Rabs (a - a') + Rabs (b - b'))) ->
  (forall s, (s < n)%nat -> ~ leaves m (X d c s) -> (0 <= Zm d c s)%Q /\ (m_mxg m + 1 <= Qfloor (X d c s) <= m_nx m - m_mxg m - 3)%Z /\ Rabs (Q2R (X d c s) - xs s) <= e /\ Rabs (Q2R (Zm d c s) - zs s) <= e) ->
  Rabs (Q2R (row_apply (leg_row v d (lo_interior_number (wv_dir d v) c)) f) - inside_average_R m n (X d) w c (fun s => G (xs s) (zs s)))
    <= 3 / 32 * Mx + 15 / 128 * Mz + 25 / 16 * delta + 2 * L * e + 5 / 10000000000 * Q2R M.
Proof.
  intros HL HX. assert (A := smooth_rows (fun s Hs Is => conj (proj1 (HX s Hs Is)) (proj1 (proj2 (HX s Hs Is))))).
  assert (B := average_R_near (fun s => G (Q2R (X d c s)) (Q2R (Zm d c s))) (fun s => G (xs s) (zs s)) (2 * L * e)).
  assert (L0 : 0 <= L). { assert (T := HL 1 0 0 0). rewrite !Rminus_0_r, Rabs_R1, Rabs_R0, Rplus_0_r, Rmult_1_r in T. apply Rle_trans with (2 := T). apply Rabs_pos. }
  assert (B' : Rabs (inside_average_R m n (X d) w c (fun s => G (Q2R (X d c s)) (Q2R (Zm d c s))) - inside_average_R m n (X d) w c (fun s => G (xs s) (zs s))) <= 2 * L * e).
  { apply B. intros s Hs Is. destruct (HX s Hs Is) as (_ & _ & E1 & E2). apply Rle_trans with (1 := HL _ _ _ _). rewrite (Rmult_comm 2 L), Rmult_assoc. apply Rmult_le_compat_l; lra. }
  apply Rle_trans with (1 := tri_R _ _ _ _ _ A B'). lra.
Qed.
End Rows.

(** ** cubics *)
Lemma cubic_error : (interp1 (fun i => inject_Z (i * i * i)) (1 # 4) - (1 # 4) * (1 # 4) * (1 # 4) == 3 # 32)%Q.
Proof. vm_compute. reflexivity. Qed.
Lemma third_power_smooth : smooth 6 (fun t => t * t * t) (fun t => 3 * (t * t)).
Proof.
  exists (fun t => 6 * t), (fun _ => 6). split; [|split; [|split]].
  - intros t. assert (E := lim_cube_scal 6 t). replace (t * t / 2 * 6) with (3 * (t * t)) in E by field. apply (derivable_pt_lim_ext (fun s => s * s * s / 6 * 6)); [intros; field|exact E].
  - intros t. assert (E := lim_sq_scal 6 t). replace (t * 6) with (6 * t) in E by ring. apply (derivable_pt_lim_ext (fun s => s * s / 2 * 6)); [intros; field|exact E].
  - intros t. apply (derivable_pt_lim_ext (fun s => s * 6)); [intros; ring|apply lim_id_scal].
  - intros _. rewrite Rabs_pos_eq; lra.
Qed.

(** ** the field x^2 + sin (pi z / 2) *)
Definition wave (x z : R) : R := x * x + sin (PI / 2 * z).
Lemma wave_smooth : smooth2 0 8 wave.
Proof.
  split.
  - intros z. exists (fun x => 2 * x). exists (fun _ => 2), (fun _ => 0). split; [|split; [|split]].
    + intros t. unfold wave. replace (2 * t) with ((1 * t + t * 1) + 0) by ring. apply (derivable_pt_lim_plus (fun x => x * x) (fun _ => sin (PI / 2 * z))); [|apply derivable_pt_lim_const].
      apply (derivable_pt_lim_mult (fun x => x) (fun x => x)); apply derivable_pt_lim_id.
    + intros t. apply (derivable_pt_lim_ext (fun s => s * 2)); [intros; ring|apply lim_id_scal].
    + intros t. apply derivable_pt_lim_const.
    + intros _. rewrite Rabs_R0. lra.
  - intros x. set (a := PI / 2). assert (a0 : 0 < a <= 2) by (unfold a; assert (P := PI_4); assert (Q := PI_RGT_0); lra).
    assert (DS : forall k t, derivable_pt_lim (fun z => k * sin (a * z)) t (k * a * cos (a * t))).
    { intros k t. rewrite Rmult_assoc. apply (derivable_pt_lim_scal (fun z => sin (a * z))). rewrite Rmult_comm. assert (T := turn_lim sin cos 0 a t (fun t => derivable_pt_lim_sin t)). rewrite Rplus_0_l in T.
      apply (derivable_pt_lim_ext (fun s => sin (0 + a * s))); [intros; now rewrite Rplus_0_l|exact T]. }
    assert (DC : forall k t, derivable_pt_lim (fun z => k * cos (a * z)) t (- (k * a) * sin (a * t))).
    { intros k t. replace (- (k * a) * sin (a * t)) with (k * (- sin (a * t) * a)) by ring. apply (derivable_pt_lim_scal (fun z => cos (a * z))). assert (T := turn_lim cos (fun t => - sin t) 0 a t (fun t => derivable_pt_lim_cos t)). rewrite Rplus_0_l in T.
      apply (derivable_pt_lim_ext (fun s => cos (0 + a * s))); [intros; now rewrite Rplus_0_l|exact T]. }
    exists (fun z => a * cos (a * z)). exists (fun z => - (a * a) * sin (a * z)), (fun z => - (a * a) * a * cos (a * z)). split; [|split; [|split]].
    + intros t. unfold wave. fold a. replace (a * cos (a * t)) with (0 + 1 * a * cos (a * t)) by ring. apply (derivable_pt_lim_plus (fun _ => x * x) (fun z => sin (a * z))); [apply derivable_pt_lim_const|].
      apply (derivable_pt_lim_ext (fun z => 1 * sin (a * z))); [intros; ring|apply DS].
    + intros t. apply DC.
    + intros t. apply DS.
    + intros t. rewrite Rabs_mult. assert (C : Rabs (cos (a * t)) <= 1) by (apply Rabs_le, COS_bound). assert (A : Rabs (- (a * a) * a) <= 8). { apply Rabs_le. assert (a * a <= 2 * 2) by (apply Rmult_le_compat; lra). assert (a * a * a <= 2 * 2 * 2) by (apply Rmult_le_compat; nra). assert (0 <= a * a * a) by (apply Rmult_le_pos; nra). lra. }
      assert (0 <= Rabs (cos (a * t))) by apply Rabs_pos. assert (0 <= Rabs (- (a * a) * a)) by apply Rabs_pos. nra.
Qed.
Lemma wave_periodic x z : wave x (z + 4) = wave x z.
Proof. unfold wave. f_equal. replace (PI / 2 * (z + 4)) with (PI / 2 * z + 2 * PI) by field. rewrite sin_plus, sin_2PI, cos_2PI. ring. Qed.
Definition wave_value (c : cell) : Q := let '(x, _, k) := c in (inject_Z (x * x) + inject_Z (if (k =? 1)%Z then 1 else if (k =? 3)%Z then -1 else 0))%Q.
Lemma wave_on_cells i y k : (0 <= k < 4)%Z -> Q2R (wave_value (i, y, k)) = wave (IZR i) (IZR k).
Proof.
  intros Hk. unfold wave_value, wave. rewrite Q2R_plus, !Q2R_Z, mult_IZR. f_equal.
  assert (k = 0 \/ k = 1 \/ k = 2 \/ k = 3)%Z as [->|[->|[->| ->]]] by lia; cbn [Z.eqb Pos.eqb].
  - now rewrite Rmult_0_r, sin_0.
  - now rewrite Rmult_1_r, sin_PI2.
  - replace (PI / 2 * 2) with PI by field. now rewrite sin_PI.
  - replace (PI / 2 * 3) with (3 * (PI / 2)) by ring. now rewrite sin_3PI2.
Qed.
Lemma cubics_refuted : ~ forall F f f' M x, smooth M f f' -> (forall i, Q2R (F i) = f (IZR i)) -> Rabs (Q2R (interp1 F x) - f (Q2R x)) <= M / 100.
Proof.
  intros H. assert (V : forall i, Q2R (inject_Z (i * i * i)) = IZR i * IZR i * IZR i) by (intros i; rewrite Q2R_Z, !mult_IZR; reflexivity).
  assert (A := H (fun i => inject_Z (i * i * i)) _ _ _ (1 # 4)%Q third_power_smooth V). cbv beta in A.
  rewrite <- !Q2R_mult, <- Q2R_minus, (Qeq_eqR _ _ cubic_error) in A. replace (Q2R (3 # 32)) with (3 / 32) in A by (unfold Q2R; cbn; lra). rewrite Rabs_pos_eq in A by lra. lra.
Qed.
