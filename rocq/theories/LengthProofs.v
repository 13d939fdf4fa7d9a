(** Proofs about LengthModel.v *)
From Coq Require Import List Reals Lia Lra Bool.
From Verif Require Import Prelude FieldReal CoilProofs ShapeProofs LengthModel.
Import ListNotations.
Open Scope R_scope.

Lemma Rltb_true a b : Rltb a b = true <-> a < b.
Proof. unfold Rltb. destruct (Rlt_dec a b); split; intros; try assumption; try reflexivity; try discriminate. contradiction. Qed.
(** * distances *)
Lemma cauchy3 a b c d e f : (a * d + b * e + c * f) ^ 2 <= (a ^ 2 + b ^ 2 + c ^ 2) * (d ^ 2 + e ^ 2 + f ^ 2).
Proof.
  assert (0 <= (a * e - b * d) ^ 2 + (a * f - c * d) ^ 2 + (b * f - c * e) ^ 2) by (pose proof (pow2_ge_0 (a * e - b * d)); pose proof (pow2_ge_0 (a * f - c * d)); pose proof (pow2_ge_0 (b * f - c * e)); lra).
  nra.
Qed.
Lemma norm_triangle a b c d e f : sqrt ((a + d) ^ 2 + (b + e) ^ 2 + (c + f) ^ 2) <= sqrt (a ^ 2 + b ^ 2 + c ^ 2) + sqrt (d ^ 2 + e ^ 2 + f ^ 2).
Proof.
  pose proof (pow2_ge_0 a). pose proof (pow2_ge_0 b). pose proof (pow2_ge_0 c). pose proof (pow2_ge_0 d). pose proof (pow2_ge_0 e). pose proof (pow2_ge_0 f).
  remember (a ^ 2 + b ^ 2 + c ^ 2) as p. remember (d ^ 2 + e ^ 2 + f ^ 2) as q.
  pose proof (sqrt_pos p). pose proof (sqrt_pos q).
  apply Rsqr_incr_0_var; [|lra]. rewrite Rsqr_sqrt by (pose proof (pow2_ge_0 (a + d)); pose proof (pow2_ge_0 (b + e)); pose proof (pow2_ge_0 (c + f)); lra).
  unfold Rsqr.
  assert (Sp : sqrt p * sqrt p = p) by (apply sqrt_sqrt; lra). assert (Sq : sqrt q * sqrt q = q) by (apply sqrt_sqrt; lra).
  assert (C : a * d + b * e + c * f <= sqrt p * sqrt q).
  { rewrite <- sqrt_mult by lra. destruct (Rle_dec (a * d + b * e + c * f) 0) as [L|L].
    - pose proof (sqrt_pos (p * q)). lra.
    - apply Rsqr_incr_0_var; [|apply sqrt_pos]. rewrite Rsqr_sqrt by nra. unfold Rsqr. pose proof (cauchy3 a b c d e f) as K. rewrite <- Heqp, <- Heqq in K. lra. }
  nra.
Qed.
Lemma dist3_triangle p q r : dist3 p r <= dist3 p q + dist3 q r.
Proof.
  destruct p as [[x y] z], q as [[x' y'] z'], r as [[x'' y''] z'']. cbn [dist3].
  pose proof (norm_triangle (x' - x) (y' - y) (z' - z) (x'' - x') (y'' - y') (z'' - z')) as T.
  replace (x' - x + (x'' - x')) with (x'' - x) in T by ring. replace (y' - y + (y'' - y')) with (y'' - y) in T by ring.
  replace (z' - z + (z'' - z')) with (z'' - z) in T by ring. exact T.
Qed.
Lemma dist3_self p : dist3 p p = 0.
Proof. destruct p as [[x y] z]. cbn [dist3]. replace ((x - x) ^ 2 + (y - y) ^ 2 + (z - z) ^ 2) with 0 by ring. apply sqrt_0. Qed.
Lemma dist3_nonneg p q : 0 <= dist3 p q.
Proof. destruct p as [[x y] z], q as [[x' y'] z']. apply sqrt_pos. Qed.
Lemma path_nonneg l : 0 <= path_length l.
Proof. induction l as [|p [|q l] IH]; cbn [path_length] in *; try lra. pose proof (dist3_nonneg p q). lra. Qed.
(** paths through the values of a function of the index *)
Lemma path_S (f : nat -> point3) s n : path_length (map f (seq s (S (S n)))) = dist3 (f s) (f (S s)) + path_length (map f (seq (S s) (S n))).
Proof. reflexivity. Qed.
Lemma path_sum (f : nat -> point3) n : path_length (map f (seq 0 (S n))) = rsum (map (fun k => dist3 (f k) (f (S k))) (seq 0 n)).
Proof.
  generalize 0%nat. induction n as [|n IH]; intros s; [reflexivity|].
  rewrite path_S. cbn [seq map]. unfold rsum in *; cbn [fold_right]. f_equal. apply (IH (S s)).
Qed.
Lemma chord_le (f : nat -> point3) s m : dist3 (f s) (f (s + m)%nat) <= path_length (map f (seq s (S m))).
Proof.
  revert s. induction m as [|m IH]; intros s.
  - rewrite Nat.add_0_r, dist3_self. apply path_nonneg.
  - rewrite path_S. specialize (IH (S s)). replace (s + S m)%nat with (S s + m)%nat by lia.
    pose proof (dist3_triangle (f s) (f (S s)) (f (S s + m)%nat)). lra.
Qed.
Lemma path_split (f : nat -> point3) s a b : path_length (map f (seq s (S (a + b)))) = path_length (map f (seq s (S a))) + path_length (map f (seq (s + a) (S b))).
Proof.
  revert s. induction a as [|a IH]; intros s.
  - rewrite Nat.add_0_r. cbn [Nat.add]. change (path_length (map f (seq s 1))) with 0. ring.
  - cbn [Nat.add]. rewrite !path_S, IH. replace (S s + a)%nat with (s + S a)%nat by lia. ring.
Qed.
(** the path is not shorter than that through every [m]-th point *)
Lemma path_coarse (f : nat -> point3) m n s : path_length (map (fun k => f (s + k * m)%nat) (seq 0 (S n))) <= path_length (map f (seq s (S (n * m)))).
Proof.
  revert s. induction n as [|n IH]; intros s.
  - change (0 <= path_length (map f (seq s 1))). apply path_nonneg.
  - cbn [Nat.mul]. rewrite path_split, path_S. pose proof (chord_le f s m) as C.
    rewrite Nat.mul_0_l, Nat.add_0_r, Nat.mul_1_l.
    specialize (IH (s + m)%nat). rewrite <- seq_shift, map_map.
    rewrite (map_ext (fun x => f (s + S x * m)%nat) (fun k => f (s + m + k * m)%nat)) by (intros; f_equal; lia). lra.
Qed.

(** * the computation *)
Lemma increasing_map (f : nat -> R) : (forall k, f k < f (S k)) -> forall n s, increasing (map f (seq s n)) = true.
Proof.
  intros H. induction n as [|[|n] IH]; intros s; [reflexivity|reflexivity|].
  change (Rltb (f s) (f (S s)) && increasing (map f (seq (S s) (S n))) = true). rewrite IH.
  rewrite (proj2 (Rltb_true _ _) (H s)). reflexivity.
Qed.
Lemma linspace01_increasing n : (2 <= n)%nat -> increasing (linspace01 n) = true.
Proof.
  intros Hn. apply (increasing_map (fun k => INR k / INR (n - 1))). intros k. rewrite S_INR.
  assert (0 < INR (n - 1)) by (apply lt_0_INR; lia). unfold Rdiv. apply Rmult_lt_compat_r; [apply Rinv_0_lt_compat; assumption|lra].
Qed.
Lemma linspace01_length n : length (linspace01 n) = n.
Proof. unfold linspace01. rewrite map_length, seq_length. reflexivity. Qed.
Lemma linspace01_S m : linspace01 (m + 1) = map (fun k => INR k / INR m) (seq 0 (S m)).
Proof. unfold linspace01. rewrite Nat.add_sub, Nat.add_1_r. reflexivity. Qed.
Lemma zip_map (f g h : R -> R) l : zip_cartesian (map f l) (map g l) (map h l) = map (fun t => cartesian (f t) (g t) (h t)) l.
Proof. induction l as [|t l IH]; [reflexivity|]. cbn [map zip_cartesian]. rewrite IH. reflexivity. Qed.

Section Length.
Variable spline : list R -> list R -> R -> R.
(** position on the fine path *)
Definition fine (RZ : list (R * R)) (ys : list R) (t : R) : point3 :=
  let y := spline (linspace01 (length ys)) ys t in cartesian y (spline ys (map fst RZ) y) (spline ys (map snd RZ) y).
Lemma length_ok RZ ys refine : (2 <= length ys)%nat -> length RZ = length ys -> increasing ys = true ->
  field_line_length spline RZ ys refine = Ok (path_length (map (fun k => fine RZ ys (INR k / INR ((length ys - 1) * refine))) (seq 0 (S ((length ys - 1) * refine))))).
Proof.
  intros Hn Hl Hi. unfold field_line_length, interp. rewrite linspace01_length, !map_length, Nat.eqb_refl, Hl, Nat.eqb_refl.
  rewrite linspace01_increasing by exact Hn. replace (length ys <? 2)%nat with false by (symmetry; apply Nat.ltb_ge; exact Hn).
  rewrite Hi. cbn [negb bind]. f_equal. f_equal.
  rewrite !map_map. rewrite (zip_map (spline (linspace01 (length ys)) ys) (fun t => spline ys (map fst RZ) (spline (linspace01 (length ys)) ys t))
    (fun t => spline ys (map snd RZ) (spline (linspace01 (length ys)) ys t))).
  rewrite linspace01_S, map_map. reflexivity.
Qed.
Lemma length_fails RZ ys refine : (length ys < 2)%nat \/ length RZ <> length ys \/ increasing ys = false -> field_line_length spline RZ ys refine = Err ValueError.
Proof.
  intros H. unfold field_line_length, interp. rewrite linspace01_length, !map_length, Nat.eqb_refl. cbn [negb].
  destruct (Nat.ltb_spec (length ys) 2); [reflexivity|]. rewrite linspace01_increasing by assumption. cbn [negb bind].
  destruct H as [H|[H|H]]; [lia| |].
  - apply Nat.eqb_neq in H. rewrite H. reflexivity.
  - rewrite H. destruct (length RZ =? length ys)%nat; reflexivity.
Qed.

Hypothesis nodes : forall xs vs k, (2 <= length xs)%nat -> length vs = length xs -> increasing xs = true -> (k < length xs)%nat ->
  spline xs vs (nth k xs 0) = nth k vs 0.
Lemma nth_linspace n k : (k < n)%nat -> nth k (linspace01 n) 0 = INR k / INR (n - 1).
Proof.
  intros H. unfold linspace01. rewrite (nth_indep _ 0 ((fun k => INR k / INR (n - 1)) 0%nat)) by (rewrite map_length, seq_length; exact H).
  rewrite (map_nth (fun k => INR k / INR (n - 1))), seq_nth by exact H. reflexivity.
Qed.
Lemma fine_node RZ ys k : (2 <= length ys)%nat -> length RZ = length ys -> increasing ys = true -> (k < length ys)%nat ->
  fine RZ ys (INR k / INR (length ys - 1)) = cartesian (nth k ys 0) (nth k (map fst RZ) 0) (nth k (map snd RZ) 0).
Proof.
  intros Hn Hl Hi Hk. unfold fine.
  assert (E : spline (linspace01 (length ys)) ys (INR k / INR (length ys - 1)) = nth k ys 0).
  { rewrite <- (nth_linspace (length ys) k Hk). apply nodes; rewrite ?linspace01_length; try assumption; try reflexivity. apply linspace01_increasing; exact Hn. }
  cbv zeta. rewrite E. rewrite !nodes by (rewrite ?map_length; assumption). reflexivity.
Qed.
Lemma length_chords RZ ys refine L : (1 <= refine)%nat -> field_line_length spline RZ ys refine = Ok L ->
  path_length (map (fun k => cartesian (nth k ys 0) (nth k (map fst RZ) 0) (nth k (map snd RZ) 0)) (seq 0 (length ys))) <= L.
Proof.
  intros Hr E.
  destruct (Nat.lt_ge_cases (length ys) 2) as [H|Hn]; [rewrite length_fails in E by (left; exact H); discriminate|].
  destruct (Nat.eq_dec (length RZ) (length ys)) as [Hl|H]; [|rewrite length_fails in E by (right; left; exact H); discriminate].
  destruct (increasing ys) eqn:Hi; [|rewrite length_fails in E by (right; right; exact Hi); discriminate].
  rewrite length_ok in E by assumption. injection E as <-.
  pose proof (path_coarse (fun k => fine RZ ys (INR k / INR ((length ys - 1) * refine))) refine (length ys - 1) 0) as P.
  replace (S (length ys - 1)) with (length ys) in P by lia.
  refine (Rle_trans _ _ _ _ P). right. f_equal. apply map_ext_in. intros k Hk. apply in_seq in Hk.
  rewrite <- fine_node by (try assumption; lia). f_equal. cbn [Nat.add]. rewrite !mult_INR. field.
  split; apply not_0_INR; lia.
Qed.
End Length.

(** * helices *)
Section Helix.
Variable spline : list R -> list R -> R -> R.
Hypothesis linear : forall xs a b t, (2 <= length xs)%nat -> increasing xs = true -> spline xs (map (fun x => a + b * x) xs) t = a + b * t.
Definition steps (y0 d : R) (n : nat) : list R := map (fun k => y0 + INR k * d) (seq 0 n).
Definition helix (r z0 s : R) (ys : list R) : list (R * R) := map (fun y => (r, z0 + s * y)) ys.
Lemma steps_increasing y0 d n : 0 < d -> increasing (steps y0 d n) = true.
Proof. intros H. apply (increasing_map (fun k => y0 + INR k * d)). intros k. rewrite S_INR. nra. Qed.
Lemma steps_linear y0 d n : (2 <= n)%nat -> steps y0 d n = map (fun x => y0 + (INR (n - 1) * d) * x) (linspace01 n).
Proof.
  intros Hn. unfold steps, linspace01. rewrite map_map. apply map_ext. intros k. field. apply not_0_INR. lia.
Qed.
Lemma helix_point y0 d n r z0 s t : (2 <= n)%nat -> 0 < d ->
  fine spline (helix r z0 s (steps y0 d n)) (steps y0 d n) t =
  let y := y0 + INR (n - 1) * d * t in (cos y * r, sin y * r, z0 + s * y).
Proof.
  intros Hn Hd. unfold fine.
  assert (Ln : length (steps y0 d n) = n) by (unfold steps; rewrite map_length, seq_length; reflexivity).
  assert (E : spline (linspace01 (length (steps y0 d n))) (steps y0 d n) t = y0 + INR (n - 1) * d * t).
  { rewrite Ln, (steps_linear y0 d n) by exact Hn. apply linear; [rewrite linspace01_length; exact Hn|apply linspace01_increasing; exact Hn]. }
  cbv zeta. rewrite E. unfold helix. rewrite !map_map. cbn [fst snd].
  rewrite (map_ext (fun _ => r) (fun x => r + 0 * x)) by (intros; ring).
  rewrite !linear by (rewrite ?Ln; try exact Hn; apply steps_increasing; exact Hd).
  unfold cartesian. rewrite Rmult_0_l, Rplus_0_r. reflexivity.
Qed.
Lemma helix_step r z0 s y h : dist3 (cos y * r, sin y * r, z0 + s * y) (cos (y + h) * r, sin (y + h) * r, z0 + s * (y + h)) =
  sqrt ((2 * r * sin (h / 2)) ^ 2 + (s * h) ^ 2).
Proof.
  cbn [dist3]. f_equal.
  assert (A : cos (y + h) = cos y * cos h - sin y * sin h) by apply cos_plus.
  assert (B : sin (y + h) = sin y * cos h + cos y * sin h) by apply sin_plus.
  assert (C : cos h = 1 - 2 * (sin (h / 2) * sin (h / 2))).
  { replace h with (2 * (h / 2)) at 1 by field. rewrite cos_2a_sin. ring. }
  pose proof (sin2_cos2 y) as P. pose proof (sin2_cos2 h) as Q. unfold Rsqr in P, Q.
  replace ((2 * r * sin (h / 2)) ^ 2) with (2 * r ^ 2 * (1 - cos h)) by (rewrite C; ring).
  rewrite A, B.
  assert (S1 : sin y * sin y = 1 - cos y * cos y) by lra. assert (S2 : sin h * sin h = 1 - cos h * cos h) by lra.
  transitivity (r ^ 2 * ((sin y * sin y + cos y * cos y) * (sin h * sin h + cos h * cos h) + (sin y * sin y + cos y * cos y) - 2 * cos h * (sin y * sin y + cos y * cos y)) + (s * h) ^ 2); [ring|].
  rewrite P, Q. ring.
Qed.
Lemma helix_length y0 d n r z0 s refine : (2 <= n)%nat -> (1 <= refine)%nat -> 0 < d ->
  let N := INR ((n - 1) * refine) in let h := d / INR refine in
  field_line_length spline (helix r z0 s (steps y0 d n)) (steps y0 d n) refine = Ok (N * sqrt ((2 * r * sin (h / 2)) ^ 2 + (s * h) ^ 2)).
Proof.
  intros Hn Hr Hd N h.
  assert (Ln : length (steps y0 d n) = n) by (unfold steps; rewrite map_length, seq_length; reflexivity).
  rewrite length_ok by (rewrite ?Ln; unfold helix; rewrite ?map_length; try exact Hn; try exact Ln; try reflexivity; apply steps_increasing; exact Hd).
  rewrite Ln. f_equal. rewrite path_sum.
  assert (HN : INR ((n - 1) * refine) <> 0) by (apply not_0_INR; nia).
  assert (Hrf : INR refine <> 0) by (apply not_0_INR; lia). assert (Hn1 : INR (n - 1) <> 0) by (apply not_0_INR; lia).
  rewrite (rsum_ext _ (fun _ => sqrt ((2 * r * sin (h / 2)) ^ 2 + (s * h) ^ 2))).
  - apply rsum_const.
  - intros k _. rewrite !helix_point by assumption. cbv zeta.
    remember (y0 + INR (n - 1) * d * (INR k / INR ((n - 1) * refine))) as y.
    replace (y0 + INR (n - 1) * d * (INR (S k) / INR ((n - 1) * refine))) with (y + h).
    + apply helix_step.
    + subst y. unfold h. rewrite mult_INR, S_INR. field. split; assumption.
Qed.
End Helix.

(** between the polygon and the arc *)
Lemma sin_lower x : 0 <= x -> x - x ^ 3 / 6 <= sin x.
Proof.
  intros H. assert (G : forall a b (f : R -> R) (f' : R -> R), a <= b -> (forall t, a <= t <= b -> derivable_pt_lim f t (f' t)) -> (forall t, a <= t <= b -> 0 <= f' t) -> f a <= f b).
  { intros a b f f' Hab Hd Hp. destruct Hab as [Hab|<-]; [|lra].
    destruct (MVT_cor2 f f' a b Hab Hd) as [c [E Hc]]. specialize (Hp c ltac:(lra)). nra. }
  assert (C : forall t, 0 <= t -> 0 <= cos t - 1 + t ^ 2 / 2).
  { intros t Ht. pose proof (G 0 t (fun t => cos t - 1 + t ^ 2 / 2) (fun t => - sin t + t) Ht) as K. cbv beta in K.
    rewrite cos_0 in K. enough (1 - 1 + 0 ^ 2 / 2 <= cos t - 1 + t ^ 2 / 2) by lra. apply K.
    - intros u _. eapply d_eq; [|apply (d_add (fun t => cos t - 1) (fun t => t ^ 2 / 2) u (- sin u) u)]; [reflexivity| |].
      + eapply d_eq; [|apply (d_sub cos (fun _ => 1) u (- sin u) 0 (derivable_pt_lim_cos u) (d_const 1 u))]. ring.
      + eapply d_eq; [|apply (d_mul (fun t => t ^ 2) (fun _ => / 2) u (2 * u * 1) 0 (d_sq (fun t => t) u 1 (d_id u)) (d_const (/ 2) u))]. cbv beta. field.
    - intros u Hu. destruct (proj1 Hu) as [L|<-]; [pose proof (sin_lt_x u L); lra|rewrite sin_0; lra]. }
  pose proof (G 0 x (fun t => sin t - t + t ^ 3 / 6) (fun t => cos t - 1 + t ^ 2 / 2) H) as K. cbv beta in K.
  rewrite sin_0 in K. enough (0 - 0 + 0 ^ 3 / 6 <= sin x - x + x ^ 3 / 6) by lra. apply K.
  - intros u _. eapply d_eq; [|apply (d_add (fun t => sin t - t) (fun t => t ^ 3 / 6) u (cos u - 1) (u ^ 2 / 2))]; [reflexivity| |].
    + apply (d_sub sin (fun t => t) u (cos u) 1 (derivable_pt_lim_sin u) (d_id u)).
    + eapply d_eq; [|apply (d_mul (fun t => t ^ 3) (fun _ => / 6) u (3 * u ^ 2) 0)]; [cbv beta; field| |apply (d_const (/ 6) u)].
      eapply d_eq; [|apply (derivable_pt_lim_pow u 3)]. cbn [INR Init.Nat.pred]. ring.
  - intros u Hu. apply C. lra.
Qed.
Lemma arc_bounds r s h : 0 <= h -> h ^ 2 <= 24 ->
  (1 - h ^ 2 / 24) * (h * sqrt (r ^ 2 + s ^ 2)) <= sqrt ((2 * r * sin (h / 2)) ^ 2 + (s * h) ^ 2) <= h * sqrt (r ^ 2 + s ^ 2).
Proof.
  intros Hh H24. pose proof (pow2_ge_0 r). pose proof (pow2_ge_0 s). pose proof (sqrt_pos (r ^ 2 + s ^ 2)) as Hs.
  assert (Sq : sqrt (r ^ 2 + s ^ 2) * sqrt (r ^ 2 + s ^ 2) = r ^ 2 + s ^ 2) by (apply sqrt_sqrt; lra).
  assert (L : h / 2 - (h / 2) ^ 3 / 6 <= sin (h / 2)) by (apply sin_lower; lra).
  assert (U : sin (h / 2) <= h / 2) by (destruct Hh as [Hh|<-]; [left; apply sin_lt_x; lra|unfold Rdiv; rewrite Rmult_0_l, sin_0; lra]).
  assert (L' : h / 2 * (1 - h ^ 2 / 24) <= sin (h / 2)) by lra.
  assert (P : 0 <= h / 2 * (1 - h ^ 2 / 24)) by nra.
  assert (Q1 : (h / 2 * (1 - h ^ 2 / 24)) ^ 2 <= sin (h / 2) ^ 2) by (apply pow_incr; lra).
  assert (Q2 : sin (h / 2) ^ 2 <= (h / 2) ^ 2) by (apply pow_incr; lra).
  remember (sin (h / 2)) as w. remember (1 - h ^ 2 / 24) as c.
  assert (Hc : 0 <= c <= 1) by (subst c; pose proof (pow2_ge_0 h); lra).
  assert (Hc2 : c ^ 2 <= 1) by nra.
  split.
  - apply Rsqr_incr_0_var; [|apply sqrt_pos]. rewrite Rsqr_sqrt by (pose proof (pow2_ge_0 (2 * r * w)); pose proof (pow2_ge_0 (s * h)); lra).
    unfold Rsqr. replace (c * (h * sqrt (r ^ 2 + s ^ 2)) * (c * (h * sqrt (r ^ 2 + s ^ 2)))) with (c ^ 2 * h ^ 2 * (sqrt (r ^ 2 + s ^ 2) * sqrt (r ^ 2 + s ^ 2))) by ring.
    rewrite Sq. replace ((2 * r * w) ^ 2) with (4 * r ^ 2 * w ^ 2) by ring.
    assert (A : r ^ 2 * (h / 2 * c) ^ 2 <= r ^ 2 * w ^ 2) by (apply Rmult_le_compat_l; assumption).
    assert (B : c ^ 2 * (s * h) ^ 2 <= 1 * (s * h) ^ 2) by (apply Rmult_le_compat_r; [apply pow2_ge_0|exact Hc2]).
    nra.
  - apply Rsqr_incr_0_var; [|nra]. rewrite Rsqr_sqrt by (pose proof (pow2_ge_0 (2 * r * w)); pose proof (pow2_ge_0 (s * h)); lra).
    unfold Rsqr. replace (h * sqrt (r ^ 2 + s ^ 2) * (h * sqrt (r ^ 2 + s ^ 2))) with (h ^ 2 * (sqrt (r ^ 2 + s ^ 2) * sqrt (r ^ 2 + s ^ 2))) by ring.
    rewrite Sq. replace ((2 * r * w) ^ 2) with (4 * (r ^ 2 * w ^ 2)) by ring.
    assert (A : r ^ 2 * w ^ 2 <= r ^ 2 * (h / 2) ^ 2) by (apply Rmult_le_compat_l; assumption). nra.
Qed.

(** * the choice of the axes *)
Section Shift.
Variable spline : list R -> list R -> R -> R.
Hypothesis shift_nodes : forall c xs vs t, spline (map (fun x => x + c) xs) vs (t + c) = spline xs vs t.
Hypothesis shift_values : forall c xs vs t, (2 <= length xs)%nat -> length vs = length xs -> spline xs (map (fun v => v + c) vs) t = spline xs vs t + c.
Lemma increasing_shift c l : increasing (map (fun x => x + c) l) = increasing l.
Proof.
  induction l as [|a [|b l] IH]; [reflexivity|reflexivity|]. cbn [map increasing] in *. rewrite IH. f_equal.
  unfold Rltb. destruct (Rlt_dec (a + c) (b + c)), (Rlt_dec a b); try reflexivity; lra.
Qed.
Lemma path_ext {A} (f g : A -> point3) : (forall a b, dist3 (f a) (f b) = dist3 (g a) (g b)) -> forall l, path_length (map f l) = path_length (map g l).
Proof.
  intros H. induction l as [|a [|b l] IH]; [reflexivity|reflexivity|].
  change (dist3 (f a) (f b) + path_length (map f (b :: l)) = dist3 (g a) (g b) + path_length (map g (b :: l))). rewrite H, IH. reflexivity.
Qed.
Lemma dist3_turn c h y r z y' r' z' : dist3 (cartesian (y + c) r (z + h)) (cartesian (y' + c) r' (z' + h)) = dist3 (cartesian y r z) (cartesian y' r' z').
Proof.
  unfold cartesian. cbn [dist3]. f_equal. rewrite !cos_plus, !sin_plus. pose proof (sin2_cos2 c) as P. unfold Rsqr in P.
  transitivity ((sin c * sin c + cos c * cos c) * ((cos y' * r' - cos y * r) ^ 2 + (sin y' * r' - sin y * r) ^ 2) + (z' - z) ^ 2); [ring|].
  rewrite P. ring.
Qed.
Lemma length_turn RZ ys refine c h : field_line_length spline (map (fun p => (fst p, snd p + h)) RZ) (map (fun y => y + c) ys) refine = field_line_length spline RZ ys refine.
Proof.
  destruct (Nat.lt_ge_cases (length ys) 2) as [H|Hn]; [rewrite !length_fails by (left; rewrite ?map_length; exact H); reflexivity|].
  destruct (Nat.eq_dec (length RZ) (length ys)) as [Hl|H]; [|rewrite !length_fails by (right; left; rewrite ?map_length; exact H); reflexivity].
  destruct (increasing ys) eqn:Hi; [|rewrite !length_fails by (right; right; rewrite ?increasing_shift; exact Hi); reflexivity].
  rewrite !length_ok by (rewrite ?map_length, ?increasing_shift; assumption). f_equal. rewrite map_length.
  apply path_ext. intros a b.
  assert (E : forall t, fine spline (map (fun p => (fst p, snd p + h)) RZ) (map (fun y => y + c) ys) t =
    let y := spline (linspace01 (length ys)) ys t in cartesian (y + c) (spline ys (map fst RZ) y) (spline ys (map snd RZ) y + h)).
  { intros t. unfold fine. rewrite map_length. cbv zeta. rewrite shift_values by (rewrite linspace01_length; first [exact Hn|reflexivity]).
    rewrite !map_map. cbn [fst snd]. rewrite !shift_nodes.
    rewrite <- (map_map snd (fun v => v + h)), shift_values by (rewrite ?map_length; assumption). reflexivity. }
  rewrite !E. cbv zeta. apply dist3_turn.
Qed.
End Shift.

(** * FusionSCTracer *)
Lemma sqrt_turn y r : 0 <= r -> sqrt ((cos y * r) ^ 2 + (sin y * r) ^ 2) = r.
Proof.
  intros H. replace ((cos y * r) ^ 2 + (sin y * r) ^ 2) with (r ^ 2).
  - apply sqrt_pow2. exact H.
  - pose proof (sin2_cos2 y) as P. unfold Rsqr in P. replace ((cos y * r) ^ 2 + (sin y * r) ^ 2) with ((sin y * sin y + cos y * cos y) * r ^ 2) by ring. rewrite P. ring.
Qed.
Lemma fsc_trace poincare kw xs zs y0 y1 ys rtol pnts :
  poincare (map (fun xz : R * R => (cos y0 * fst xz, sin y0 * fst xz, snd xz)) (combine xs zs)) (y1 :: ys) (Rltb y0 y1) kw = Ok pnts ->
  exists out, fsc_follow poincare kw xs zs (y0 :: y1 :: ys) rtol = Ok (combine xs zs :: out) /\ length out = length pnts /\
  forall i j x y z, nth_error pnts i = Some j -> forall k, nth_error j k = Some (x, y, z) ->
    exists row, nth_error out i = Some row /\ nth_error row k = Some (sqrt (x ^ 2 + y ^ 2), z).
Proof.
  intros H. unfold fsc_follow. cbn [tl]. rewrite H. cbn [bind]. eexists. split; [reflexivity|]. split; [apply map_length|].
  intros i j x y z Hi k Hk. eexists. split; [apply map_nth_error; exact Hi|]. rewrite (map_nth_error _ _ _ Hk). reflexivity.
Qed.
Lemma fsc_single poincare kw xs zs ys rtol : (length ys < 2)%nat -> fsc_follow poincare kw xs zs ys rtol = Err IndexError.
Proof. intros H. destruct ys as [|y0 [|y1 ys]]; [reflexivity|reflexivity|]. cbn [length] in H. lia. Qed.
Lemma fsc_rtol : (forall poincare kw xs zs ys rtol rtol', fsc_follow poincare kw xs zs ys rtol = fsc_follow poincare kw xs zs ys rtol') /\
  exists poincare kw xs zs ys out, fsc_follow poincare (mkKw (Some 1) kw) xs zs ys None = Ok out /\
    fsc_follow poincare (mkKw (Some 0) kw) xs zs ys (Some 1) = Err ValueError.
Proof.
  split; [intros; reflexivity|].
  exists (fun _ _ _ kw => match target_error kw with Some e => if Req_EM_T e 1 then Ok [] else Err ValueError | None => Ok [] end), 0%nat, [], [], [0; 1], [[]].
  unfold fsc_follow. cbn [target_error]. destruct (Req_EM_T 1 1) as [_|N]; [|contradiction].
  destruct (Req_EM_T 0 1) as [N|_]; [lra|]. split; reflexivity.
Qed.
Lemma length_defined spline RZ ys refine :
  if ((2 <=? length ys) && (length RZ =? length ys))%nat%bool && increasing ys then exists L, field_line_length spline RZ ys refine = Ok L /\ 0 <= L
  else field_line_length spline RZ ys refine = Err ValueError.
Proof.
  destruct (Nat.leb_spec 2 (length ys)); [|apply length_fails; left; assumption].
  destruct (Nat.eqb_spec (length RZ) (length ys)); [|apply length_fails; right; left; assumption].
  destruct (increasing ys) eqn:Hi; [|apply length_fails; right; right; assumption].
  cbn [andb]. eexists. split; [apply length_ok; assumption|]. apply path_nonneg.
Qed.
Lemma length_ends spline (Hs : forall xs vs k, (2 <= length xs)%nat -> length vs = length xs -> increasing xs = true -> (k < length xs)%nat -> spline xs vs (nth k xs 0) = nth k vs 0) RZ ys refine L :
  (1 <= refine)%nat -> field_line_length spline RZ ys refine = Ok L ->
  let X k := cos (nth k ys 0) * nth k (map fst RZ) 0 in let Y k := sin (nth k ys 0) * nth k (map fst RZ) 0 in
  let Z k := nth k (map snd RZ) 0 in let n := (length ys - 1)%nat in
  sqrt ((X n - X 0%nat) ^ 2 + (Y n - Y 0%nat) ^ 2 + (Z n - Z 0%nat) ^ 2) <= L.
Proof.
  intros Hr H X Y Z n. refine (Rle_trans _ _ _ _ (length_chords spline Hs RZ ys refine L Hr H)).
  destruct (Nat.lt_ge_cases (length ys) 2) as [C|Hn]; [rewrite length_fails in H by (left; exact C); discriminate|].
  pose proof (chord_le (fun k => cartesian (nth k ys 0) (nth k (map fst RZ) 0) (nth k (map snd RZ) 0)) 0 n) as P.
  replace (S n) with (length ys) in P by (unfold n; lia). exact P.
Qed.
