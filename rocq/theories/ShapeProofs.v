(** Proofs about ShapeModel.v: lines from formulas *)
From Coq Require Import List Reals Lia Lra ZArith.
From Verif Require Import Prelude FieldReal CoilProofs ShapeModel.
Import ListNotations.
Open Scope R_scope.

Lemma ok_inj {A} (x y : A) : Ok x = Ok y -> x = y.
Proof. congruence. Qed.
Lemma skipn_length_app {A} (l l' : list A) : skipn (length l) (l ++ l') = l'.
Proof. induction l; [reflexivity|exact IHl]. Qed.
Lemma firstn_length_app {A} (l l' : list A) : firstn (length l) (l ++ l') = l.
Proof. induction l; [reflexivity|cbn; f_equal; exact IHl]. Qed.
Lemma roll1_map {A} (f : nat -> A) n : roll1 (map f (seq 0 (S n))) = f n :: map f (seq 0 n).
Proof.
  unfold roll1. rewrite map_length, seq_length, seq_S, map_app.
  replace (S n - 1)%nat with (length (map f (seq 0 n))) by (rewrite map_length, seq_length; lia).
  rewrite skipn_length_app, firstn_length_app. reflexivity.
Qed.
Lemma combine_map {A B C} (f : A -> B) (g : A -> C) l : combine (map f l) (map g l) = map (fun x => (f x, g x)) l.
Proof. induction l; [reflexivity|cbn; f_equal; exact IHl]. Qed.

(** the sum over the closed polygon of a periodic curve *)
Definition seg (X Y : R -> R) (t t' : R) : R := (X t - X t') * (Y t + Y t').
Lemma orient_angles (X Y : R -> R) n : (1 <= n)%nat -> (forall t, X (t - 2 * PI) = X t) -> (forall t, Y (t - 2 * PI) = Y t) ->
  orient_sum (map (fun t => (X t, Y t)) (thetas n)) = rsum (map (fun k => seg X Y (INR k * (2 * PI / INR n)) (INR k * (2 * PI / INR n) - 2 * PI / INR n)) (seq 0 n)).
Proof.
  intros Hn PX PY. destruct n as [|n]; [lia|]. remember (2 * PI / INR (S n)) as h eqn:Hh.
  assert (HN : INR (S n) <> 0) by (apply not_0_INR; lia).
  assert (E : INR n * h = - h + 2 * PI) by (rewrite S_INR in *; subst h; field; exact HN).
  unfold orient_sum, thetas. rewrite <- Hh, map_map, roll1_map.
  replace (map (fun k => (X (INR k * h), Y (INR k * h))) (seq 0 (S n)))
    with ((X 0, Y 0) :: map (fun k => (X (INR (S k) * h), Y (INR (S k) * h))) (seq 0 n)).
  2:{ cbn [seq map]. rewrite <- seq_shift, map_map. f_equal. change (INR 0) with 0. f_equal; f_equal; ring. }
  replace (map (fun k => seg X Y (INR k * h) (INR k * h - h)) (seq 0 (S n)))
    with (seg X Y 0 (0 - h) :: map (fun k => seg X Y (INR (S k) * h) (INR (S k) * h - h)) (seq 0 n)).
  2:{ cbn [seq map]. rewrite <- seq_shift, map_map. f_equal. change (INR 0) with 0. f_equal; ring. }
  cbn [combine map rsum fold_right]. unfold rsum; cbn [fold_right].
  f_equal.
  - cbn [fst snd]. unfold seg. rewrite E. rewrite <- (PX (- h + 2 * PI)), <- (PY (- h + 2 * PI)).
    replace (- h + 2 * PI - 2 * PI) with (0 - h) by ring. reflexivity.
  - change (rsum (map (fun pq : (R * R) * (R * R) => (fst (fst pq) - fst (snd pq)) * (snd (fst pq) + snd (snd pq)))
             (combine (map (fun k => (X (INR (S k) * h), Y (INR (S k) * h))) (seq 0 n)) (map (fun k => (X (INR k * h), Y (INR k * h))) (seq 0 n)))) =
      rsum (map (fun k => seg X Y (INR (S k) * h) (INR (S k) * h - h)) (seq 0 n))).
    rewrite combine_map, map_map. apply rsum_ext. intros k _. cbn [fst snd]. unfold seg.
    replace (INR (S k) * h - h) with (INR k * h) by (rewrite S_INR; ring). reflexivity.
Qed.

Lemma telescope (g : nat -> R) n : rsum (map (fun k => g (S k) - g k) (seq 0 n)) = g n - g 0%nat.
Proof.
  induction n as [|n IH]; [unfold rsum; cbn; ring|].
  rewrite seq_S, map_app. cbn [map Nat.add].
  assert (E : forall l a, rsum (l ++ [a]) = rsum l + a).
  { induction l as [|x l IHl]; intros a; unfold rsum in *; cbn [app fold_right]; [ring|]. rewrite IHl. ring. }
  rewrite E, IH. ring.
Qed.
Lemma rsum_const n c : rsum (map (fun _ : nat => c) (seq 0 n)) = INR n * c.
Proof.
  generalize 0%nat. induction n as [|n IH]; intros s; [unfold rsum; cbn; ring|].
  cbn [seq map]. unfold rsum in *; cbn [fold_right]. rewrite IH, S_INR. ring.
Qed.

Lemma cos_period_m t : cos (t - 2 * PI) = cos t.
Proof. rewrite <- (cos_period (t - 2 * PI) 1). f_equal. cbn [INR]. ring. Qed.
Lemma sin_period_m t : sin (t - 2 * PI) = sin t.
Proof. rewrite <- (sin_period (t - 2 * PI) 1). f_equal. cbn [INR]. ring. Qed.

Lemma circle_sum R0 r n : (1 <= n)%nat ->
  orient_sum (map (fun t => (R0 + r * cos t, r * sin t)) (thetas n)) = - (INR n * r ^ 2 * sin (2 * PI / INR n)).
Proof.
  intros Hn. rewrite (orient_angles (fun t => R0 + r * cos t) (fun t => r * sin t)) by
    (try assumption; intros t; rewrite ?cos_period_m, ?sin_period_m; reflexivity).
  remember (2 * PI / INR n) as h eqn:Hh.
  assert (HN : INR n <> 0) by (apply not_0_INR; lia).
  rewrite (rsum_ext _ (fun k => (r ^ 2 / 2 * sin (2 * (INR (S k) * h - h)) - r ^ 2 / 2 * sin (2 * (INR k * h - h))) + - (r ^ 2 * sin h))).
  2:{ intros k _. unfold seg. rewrite S_INR. remember (INR k * h - h) as a. replace (INR k * h) with (a + h) by (subst a; ring).
      replace ((INR k + 1) * h - h) with (a + h) by (subst a; ring).
      rewrite !sin_2a. replace (sin h) with (sin (a + h) * cos a - cos (a + h) * sin a) by
        (rewrite <- sin_minus; f_equal; ring). field. }
  rewrite (rsum_plus (fun k => r ^ 2 / 2 * sin (2 * (INR (S k) * h - h)) - r ^ 2 / 2 * sin (2 * (INR k * h - h))) (fun _ => - (r ^ 2 * sin h))).
  rewrite (telescope (fun k => r ^ 2 / 2 * sin (2 * (INR k * h - h)))), rsum_const.
  replace (2 * (INR n * h - h)) with (2 * (INR 0 * h - h) + 2 * INR 2 * PI) by (cbn [INR]; subst h; field; exact HN).
  rewrite sin_period. ring.
Qed.

Lemma thetas_length n : length (thetas n) = n.
Proof. unfold thetas. rewrite map_length, seq_length. reflexivity. Qed.
Lemma rz_ok (f g : R -> R) n : (3 <= n)%nat -> orient_sum (map (fun t => (f t, g t)) (thetas n)) < 0 ->
  rz_init (map f (thetas n)) (map g (thetas n)) = Ok (map (fun t => (f t, g t)) (thetas n)).
Proof.
  intros Hn H. unfold rz_init. rewrite !map_length, Nat.eqb_refl. cbn [negb]. rewrite combine_map.
  destruct (Req_EM_T _ 0) as [E|_]; [lra|]. destruct (Rlt_dec 0 _) as [?|_]; [lra|].
  destruct (Rlt_dec _ 0) as [_|?]; [|contradiction].
  rewrite map_length, thetas_length. replace (3 <? n + 1)%nat with true by (symmetry; apply Nat.ltb_lt; lia).
  destruct n as [|n]; [lia|]. reflexivity.
Qed.
Lemma rz_zero (f g : R -> R) n : orient_sum (map (fun t => (f t, g t)) (thetas n)) = 0 ->
  rz_init (map f (thetas n)) (map g (thetas n)) = Err AssertionError.
Proof.
  intros H. unfold rz_init. rewrite !map_length, Nat.eqb_refl. cbn [negb]. rewrite combine_map.
  destruct (Req_EM_T _ 0) as [_|E]; [reflexivity|contradiction].
Qed.

Lemma step_bounds n : (3 <= n)%nat -> 0 < 2 * PI / INR n < PI.
Proof.
  intros Hn. assert (HP := PI_RGT_0). assert (H3 : 3 <= INR n) by (apply (le_INR 3) in Hn; cbn [INR] in Hn; lra).
  split; [apply Rdiv_lt_0_compat; lra|]. apply (Rmult_lt_reg_r (INR n)); [lra|].
  unfold Rdiv. rewrite Rmult_assoc, Rinv_l, Rmult_1_r by lra. nra.
Qed.
Lemma circle_ok R0 r n : (3 <= n)%nat -> r <> 0 -> circle R0 r n = Ok (map (fun t => (R0 + r * cos t, r * sin t)) (thetas n)).
Proof.
  intros Hn Hr. apply (rz_ok (fun t => R0 + r * cos t) (fun t => r * sin t)); [exact Hn|].
  rewrite circle_sum by lia. destruct (step_bounds n Hn) as [H1 H2].
  assert (0 < sin (2 * PI / INR n)) by (apply sin_gt_0; assumption).
  assert (0 < r ^ 2) by nra. assert (0 < INR n) by (apply lt_0_INR; lia).
  assert (0 < INR n * r ^ 2) by nra. nra.
Qed.
Lemma circle_bad R0 r n : (n <= 2)%nat \/ r = 0 -> circle R0 r n = Err AssertionError.
Proof.
  intros H. apply (rz_zero (fun t => R0 + r * cos t) (fun t => r * sin t)).
  destruct n as [|n]; [reflexivity|]. rewrite circle_sum by lia. destruct H as [H| ->]; [|ring].
  destruct n as [|[|n]]; [| |lia].
  - cbn [INR]. replace (2 * PI / 1) with (2 * PI) by field. rewrite sin_2PI. ring.
  - cbn [INR]. replace (2 * PI / (1 + 1)) with PI by field. rewrite sin_PI. ring.
Qed.

(** * symmetric shapes *)
Section Symmetric.
Variables X Y : R -> R.
Hypothesis PX : forall t, X (t - 2 * PI) = X t.
Hypothesis PY : forall t, Y (t - 2 * PI) = Y t.
Hypothesis EX : forall t, X (- t) = X t.
Hypothesis OY : forall t, Y (- t) = - Y t.
Hypothesis DX : forall s t, 0 <= s -> s < t -> t <= PI -> X t < X s.
Hypothesis YP : forall t, 0 < t -> t < PI -> 0 < Y t.
Lemma Y_end : Y 0 = 0 /\ Y PI = 0.
Proof.
  split; [pose proof (OY 0) as H; rewrite Ropp_0 in H; lra|].
  pose proof (OY PI) as H. pose proof (PY PI) as H'. replace (PI - 2 * PI) with (- PI) in H' by ring. lra.
Qed.
Lemma Y_nonneg t : 0 <= t <= PI -> 0 <= Y t.
Proof.
  intros [A B]. destruct Y_end as [E0 E1]. destruct (Rtotal_order t 0) as [?|[->|?]]; [lra|lra|].
  destruct (Rtotal_order t PI) as [?|[->|?]]; [|lra|lra]. apply Rlt_le, YP; assumption.
Qed.
Lemma seg_low a b : 0 <= a -> a < b -> b <= PI -> seg X Y b a <= 0.
Proof.
  intros A B C. unfold seg. assert (X b < X a) by (apply DX; assumption).
  assert (0 <= Y a) by (apply Y_nonneg; lra). assert (0 <= Y b) by (apply Y_nonneg; lra). nra.
Qed.
Lemma seg_mirror a b : seg X Y b a = seg X Y (2 * PI - a) (2 * PI - b).
Proof.
  assert (E : forall t, X (2 * PI - t) = X t) by
    (intros t; rewrite <- (PX (2 * PI - t)); replace (2 * PI - t - 2 * PI) with (- t) by ring; apply EX).
  assert (F : forall t, Y (2 * PI - t) = - Y t) by
    (intros t; rewrite <- (PY (2 * PI - t)); replace (2 * PI - t - 2 * PI) with (- t) by ring; apply OY).
  unfold seg. rewrite !E, !F. ring.
Qed.
Lemma symmetric_sum n : (3 <= n)%nat -> orient_sum (map (fun t => (X t, Y t)) (thetas n)) < 0.
Proof.
  intros Hn. rewrite orient_angles by (try assumption; lia).
  destruct (step_bounds n Hn) as [H1 H2]. remember (2 * PI / INR n) as h eqn:Hh.
  assert (HN : INR n * h = 2 * PI) by (subst h; field; apply not_0_INR; lia).
  assert (HP := PI_RGT_0).
  assert (S : forall k, (0 < k <= n)%nat -> seg X Y (INR k * h) (INR k * h - h) <= 0).
  { intros k Hk. assert (K1 : 1 <= INR k) by (apply (le_INR 1); lia). assert (K2 : INR k <= INR n) by (apply le_INR; lia).
    assert (Hb : INR k * h <= 2 * PI) by nra. assert (Ha : 0 <= INR k * h - h) by nra.
    destruct (Rle_dec (INR k * h) PI) as [L|L]; [apply seg_low; lra|].
    destruct (Rle_dec PI (INR k * h - h)) as [L'|L']; [rewrite seg_mirror; apply seg_low; lra|].
    (* the segment across PI is symmetric *)
    assert (E : INR k * h + (INR k * h - h) = 2 * PI).
    { assert (L1 : PI < INR k * h) by lra. assert (L2 : INR k * h - h < PI) by lra.
      assert (N1 : (n < 2 * k)%nat). { apply INR_lt. rewrite mult_INR. cbn [INR]. nra. }
      assert (N2 : (2 * k < n + 2)%nat). { apply INR_lt. rewrite mult_INR, plus_INR. cbn [INR]. nra. }
      assert (N : n = (2 * k - 1)%nat) by lia.
      assert (NR : INR n = 2 * INR k - 1). { rewrite N, minus_INR by lia. rewrite mult_INR. cbn [INR]. ring. }
      rewrite NR in HN. lra. }
    unfold seg. replace (X (INR k * h)) with (X (INR k * h - h)); [rewrite Rminus_diag_eq by reflexivity; lra|].
    rewrite <- (EX (INR k * h - h)). rewrite <- (PX (INR k * h)). f_equal. lra. }
  assert (S0 : seg X Y (INR 0 * h) (INR 0 * h - h) <= 0).
  { specialize (S n ltac:(lia)). rewrite HN in S. cbn [INR]. unfold seg in *. rewrite <- (PX (2 * PI)), <- (PX (2 * PI - h)), <- (PY (2 * PI)), <- (PY (2 * PI - h)) in S.
    replace (2 * PI - 2 * PI) with (0 * h) in S by ring. replace (2 * PI - h - 2 * PI) with (0 * h - h) in S by ring. exact S. }
  assert (S1 : seg X Y (INR 1 * h) (INR 1 * h - h) < 0).
  { cbn [INR]. unfold seg. replace (1 * h - h) with 0 by ring. rewrite Rmult_1_l. destruct Y_end as [-> _].
    assert (X h < X 0) by (apply DX; lra). assert (0 < Y h) by (apply YP; lra). nra. }
  assert (Hneg : forall l, (forall k, In k l -> (0 < k <= n)%nat) -> rsum (map (fun k => seg X Y (INR k * h) (INR k * h - h)) l) <= 0).
  { induction l as [|k l IH]; intros Hl; [unfold rsum; cbn; lra|]. unfold rsum in *; cbn [map fold_right].
    specialize (IH (fun k' H' => Hl k' (or_intror H'))). specialize (S k (Hl k (or_introl eq_refl))). lra. }
  destruct n as [|[|n]]; [lia|lia|]. cbn [seq map]. unfold rsum; cbn [fold_right].
  specialize (Hneg (seq 2 n)). unfold rsum in Hneg.
  enough (fold_right Rplus 0 (map (fun k => seg X Y (INR k * h) (INR k * h - h)) (seq 2 n)) <= 0) by lra.
  apply Hneg. intros k Hk. apply in_seq in Hk. lia.
Qed.
End Symmetric.

Lemma shaped_ok R0 a elong triang indent n : (3 <= n)%nat -> 0 < (1 + elong) * a ->
  (forall s t, 0 <= s -> s < t -> t <= PI -> shaped_R R0 a triang indent t < shaped_R R0 a triang indent s) ->
  shaped_line R0 a elong triang indent n = Ok (map (fun t => (shaped_R R0 a triang indent t, shaped_Z a elong t)) (thetas n)).
Proof.
  intros Hn He Hd. apply rz_ok; [exact Hn|]. apply symmetric_sum; try assumption.
  - intros t. unfold shaped_R. rewrite sin_period_m, cos_period_m.
    replace (t - 2 * PI + triang * sin t) with (t + triang * sin t - 2 * PI) by ring. rewrite cos_period_m. reflexivity.
  - intros t. unfold shaped_Z. rewrite sin_period_m. reflexivity.
  - intros t. unfold shaped_R. rewrite sin_neg, cos_neg.
    replace (- t + triang * - sin t) with (- (t + triang * sin t)) by ring. rewrite cos_neg. reflexivity.
  - intros t. unfold shaped_Z. rewrite sin_neg. ring.
  - intros t H1 H2. unfold shaped_Z. apply Rmult_lt_0_compat; [exact He|apply sin_gt_0; assumption].
Qed.
