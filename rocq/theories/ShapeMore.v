(** Proofs about ShapeModel.v: shaped lines *)
From Coq Require Import List Reals Lia Lra ZArith.
From Verif Require Import Prelude FieldReal CoilProofs ShapeModel ShapeProofs.
Import ListNotations.
Open Scope R_scope.

(** triangularity up to one, no indentation *)
Lemma sin_lip s t : s < t -> - (t - s) < sin t - sin s < t - s.
Proof.
  intros H. replace (sin t - sin s) with (2 * cos ((t + s) / 2) * sin ((t - s) / 2)).
  2:{ rewrite form4. ring. }
  assert (B : - ((t - s) / 2) < sin ((t - s) / 2) < (t - s) / 2).
  { remember ((t - s) / 2) as x. assert (0 < x) by (subst x; lra). split; [|apply sin_lt_x; assumption].
    destruct (Rle_dec x 1) as [L|L].
    - assert (0 <= sin x); [|lra]. apply sin_ge_0; [lra|]. assert (H3 := PI2_3_2). unfold PI2 in H3. lra.
    - pose proof (SIN_bound x). lra. }
  pose proof (COS_bound ((t + s) / 2)). assert (0 < t - s) by lra.
  remember (cos ((t + s) / 2)) as c. remember (sin ((t - s) / 2)) as w.
  assert (Hw : Rabs w < (t - s) / 2) by (apply Rabs_def1; lra). assert (Hc : Rabs c <= 1) by (apply Rabs_le; lra).
  assert (Hcw : Rabs (c * w) < (t - s) / 2).
  { rewrite Rabs_mult. pose proof (Rabs_pos w). pose proof (Rabs_pos c). nra. }
  apply Rabs_def2 in Hcw. lra.
Qed.
Lemma triang_decreasing R0 a d : 0 < a -> -1 <= d <= 1 ->
  forall s t, 0 <= s -> s < t -> t <= PI -> shaped_R R0 a d 0 t < shaped_R R0 a d 0 s.
Proof.
  intros Ha Hd s t H1 H2 H3. unfold shaped_R.
  assert (M : forall x y, x < y -> x + d * sin x < y + d * sin y).
  { intros x y L. destruct (sin_lip x y L) as [L1 L2]. remember (sin y - sin x) as w.
    assert (Hw : Rabs w < y - x) by (apply Rabs_def1; lra). assert (Hc : Rabs d <= 1) by (apply Rabs_le; lra).
    assert (Hcw : Rabs (d * w) < y - x).
    { rewrite Rabs_mult. pose proof (Rabs_pos w). pose proof (Rabs_pos d). nra. }
    apply Rabs_def2 in Hcw. subst w. lra. }
  assert (L : forall x, 0 <= x <= PI -> 0 <= x + d * sin x <= PI).
  { intros x [A B]. split.
    - destruct A as [A| <-]; [pose proof (M 0 x A) as Q; rewrite sin_0 in Q; lra|rewrite sin_0; lra].
    - destruct B as [B| ->]; [pose proof (M x PI B) as Q; rewrite sin_PI in Q; lra|rewrite sin_PI; lra]. }
  pose proof (L s ltac:(lra)). pose proof (L t ltac:(lra)). pose proof (M s t H2).
  assert (cos (t + d * sin t) < cos (s + d * sin s)) by (apply cos_decreasing_1; lra).
  nra.
Qed.
(** indentation up to a / 2, no triangularity *)
Lemma indent_decreasing R0 a i : 0 < a -> - a <= 2 * i <= a ->
  forall s t, 0 <= s -> s < t -> t <= PI -> shaped_R R0 a 0 i t < shaped_R R0 a 0 i s.
Proof.
  intros Ha Hi s t H1 H2 H3. unfold shaped_R. rewrite !Rmult_0_l, !Rplus_0_r.
  assert (C : cos t < cos s) by (apply cos_decreasing_1; lra).
  pose proof (COS_bound s). pose proof (COS_bound t).
  remember (cos s) as u. remember (cos t) as v.
  assert (0 < (u - v) * (a + i * (u + v))).
  { apply Rmult_lt_0_compat; [lra|]. assert (-2 < u + v < 2) by lra. nra. }
  nra.
Qed.

(** up-down symmetry and extents *)
Lemma nth_thetas n k d : (k < n)%nat -> nth k (thetas n) d = INR k * (2 * PI / INR n).
Proof.
  intros H. unfold thetas.
  rewrite (nth_indep _ d ((fun k => INR k * (2 * PI / INR n)) 0%nat)) by (rewrite map_length, seq_length; exact H).
  rewrite (map_nth (fun k => INR k * (2 * PI / INR n))), seq_nth by exact H. reflexivity.
Qed.
Lemma nth_points {B} (f : R -> B) n k d : (k < n)%nat -> nth k (map f (thetas n)) d = f (INR k * (2 * PI / INR n)).
Proof.
  intros H. rewrite (nth_indep _ d (f 0)) by (rewrite map_length, thetas_length; exact H).
  rewrite map_nth, nth_thetas by exact H. reflexivity.
Qed.
Lemma mirror_angle n k : (0 < k <= n)%nat -> INR (n - k) * (2 * PI / INR n) = - (INR k * (2 * PI / INR n)) + 2 * PI.
Proof. intros H. rewrite minus_INR by lia. field. apply not_0_INR. lia. Qed.
Lemma cos_mirror t : cos (- t + 2 * PI) = cos t.
Proof. rewrite <- (cos_period_m (- t + 2 * PI)). replace (- t + 2 * PI - 2 * PI) with (- t) by ring. apply cos_neg. Qed.
Lemma sin_mirror t : sin (- t + 2 * PI) = - sin t.
Proof. rewrite <- (sin_period_m (- t + 2 * PI)). replace (- t + 2 * PI - 2 * PI) with (- t) by ring. apply sin_neg. Qed.
Lemma shaped_mirror R0 a e d i n k p0 : (0 < k < n)%nat ->
  let l := map (fun t => (shaped_R R0 a d i t, shaped_Z a e t)) (thetas n) in
  nth (n - k) l p0 = (fst (nth k l p0), - snd (nth k l p0)).
Proof.
  intros H l. unfold l. rewrite !nth_points by lia. rewrite mirror_angle by lia.
  remember (INR k * (2 * PI / INR n)) as t. cbn [fst snd]. unfold shaped_R, shaped_Z.
  rewrite sin_mirror, cos_mirror. replace (- t + 2 * PI + d * - sin t) with (- (t + d * sin t) + 2 * PI) by ring.
  rewrite cos_mirror. f_equal. ring.
Qed.
Lemma shaped_outboard R0 a e d i : (shaped_R R0 a d i 0, shaped_Z a e 0) = (R0 + a, 0).
Proof. unfold shaped_R, shaped_Z. rewrite sin_0, cos_0, Rmult_0_r, Rplus_0_r, cos_0. f_equal; ring. Qed.
Lemma shaped_inboard R0 a e d i : (shaped_R R0 a d i PI, shaped_Z a e PI) = (R0 - a, 0).
Proof. unfold shaped_R, shaped_Z. rewrite sin_PI, cos_PI, Rmult_0_r, Rplus_0_r, cos_PI. f_equal; ring. Qed.
Lemma shaped_top R0 a e d i : (shaped_R R0 a d i (PI / 2), shaped_Z a e (PI / 2)) = (R0 - i - a * sin d, (1 + e) * a).
Proof.
  unfold shaped_R, shaped_Z. rewrite sin_PI2, cos_PI2, Rmult_0_r, Rplus_0_r, !Rmult_1_r.
  rewrite cos_plus, sin_PI2, cos_PI2. f_equal; ring.
Qed.
Lemma shaped_height a e t : Rabs (shaped_Z a e t) <= Rabs ((1 + e) * a).
Proof.
  unfold shaped_Z. rewrite Rabs_mult. pose proof (SIN_bound t). pose proof (Rabs_pos ((1 + e) * a)).
  assert (Rabs (sin t) <= 1) by (apply Rabs_le; lra). nra.
Qed.
Lemma shaped_width R0 a d t : Rabs (shaped_R R0 a d 0 t - R0) <= Rabs a.
Proof.
  unfold shaped_R. replace (R0 - 0 + (a + 0 * cos t) * cos (t + d * sin t) - R0) with (a * cos (t + d * sin t)) by ring.
  rewrite Rabs_mult. pose proof (COS_bound (t + d * sin t)). pose proof (Rabs_pos a).
  assert (Rabs (cos (t + d * sin t)) <= 1) by (apply Rabs_le; lra). nra.
Qed.
Lemma shaped_circle R0 a n : shaped_line R0 a 0 0 0 n = circle R0 a n.
Proof.
  unfold shaped_line, circle. f_equal; apply map_ext; intros t; unfold shaped_R, shaped_Z.
  - rewrite !Rmult_0_l, !Rplus_0_r. ring.
  - ring.
Qed.
(** what does not depend on the orientation: the points are those of the curve *)
Lemma rz_points (f g : R -> R) n l : rz_init (map f (thetas n)) (map g (thetas n)) = Ok l ->
  (3 <= n)%nat /\ (l = map (fun t => (f t, g t)) (thetas n) \/ l = rev (map (fun t => (f t, g t)) (thetas n))).
Proof.
  unfold rz_init. rewrite !map_length, Nat.eqb_refl. cbn [negb]. rewrite combine_map.
  remember (map (fun t => (f t, g t)) (thetas n)) as m eqn:Em.
  assert (Lm : length m = n) by (subst m; rewrite map_length, thetas_length; reflexivity).
  destruct (Req_EM_T _ 0); [discriminate|].
  destruct (Rlt_dec 0 _).
  - destruct (Rlt_dec _ 0); [|discriminate]. assert (Lr : length (rev m) = n) by (rewrite rev_length; exact Lm).
    destruct (rev m) as [|x m'] eqn:Er; [discriminate|]. destruct (3 <? _)%nat eqn:E3; [|discriminate].
    intros H. injection H as <-. apply Nat.ltb_lt in E3. split; [lia|right; reflexivity].
  - destruct (Rlt_dec _ 0); [|discriminate].
    destruct m as [|x m'] eqn:Er; [discriminate|]. destruct (3 <? _)%nat eqn:E3; [|discriminate].
    intros H. injection H as <-. apply Nat.ltb_lt in E3. split; [lia|left; reflexivity].
Qed.
Lemma circle_on R0 r n l : circle R0 r n = Ok l -> forall p, In p l -> (fst p - R0) ^ 2 + snd p ^ 2 = r ^ 2.
Proof.
  intros H p Hp. apply rz_points in H. destruct H as [_ H].
  assert (Hp' : In p (map (fun t => (R0 + r * cos t, r * sin t)) (thetas n))).
  { destruct H as [-> | ->]; [exact Hp|apply in_rev; exact Hp]. }
  apply in_map_iff in Hp'. destruct Hp' as [t [<- _]]. cbn [fst snd].
  pose proof (sin2_cos2 t) as Q. unfold Rsqr in Q. nra.
Qed.
