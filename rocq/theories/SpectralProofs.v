(** Proofs about ShapeModel.v: SpectralLine *)
From Coq Require Import List Reals Lia Lra ZArith.
From Verif Require Import Prelude PreludeFacts FieldReal CoilProofs ShapeModel ShapeProofs.
Import ListNotations.
Open Scope R_scope.

Notation Sum n f := (rsum (map f (seq 0 n))).
Lemma rsum_app l l' : rsum (l ++ l') = rsum l + rsum l'.
Proof. induction l as [|x l IH]; unfold rsum in *; cbn [app fold_right]; [ring|rewrite IH; ring]. Qed.
Lemma Sum_S n f : Sum (S n) f = Sum n f + f n.
Proof. rewrite seq_S, map_app, rsum_app. cbn [map Nat.add]. unfold rsum. cbn [fold_right]. ring. Qed.
Lemma Sum_swap n m (f : nat -> nat -> R) : Sum n (fun i => Sum m (f i)) = Sum m (fun j => Sum n (fun i => f i j)).
Proof.
  induction n as [|n IH].
  - change (0 = Sum m (fun j => 0)). symmetry. apply rsum_zero. reflexivity.
  - rewrite Sum_S, IH, <- rsum_plus. apply rsum_ext. intros j _. rewrite Sum_S. reflexivity.
Qed.
Lemma Sum_ext n f g : (forall k, (k < n)%nat -> f k = g k) -> Sum n f = Sum n g.
Proof. intros H. apply rsum_ext. intros k Hk. apply H. apply in_seq in Hk. lia. Qed.
Lemma Sum_nonneg n f : (forall k, (k < n)%nat -> 0 <= f k) -> 0 <= Sum n f.
Proof.
  induction n as [|n IH]; intros H; [unfold rsum; cbn; lra|]. rewrite Sum_S.
  assert (0 <= Sum n f) by (apply IH; intros; apply H; lia). specialize (H n ltac:(lia)). lra.
Qed.
Lemma Sum_zero_each n f : (forall k, (k < n)%nat -> 0 <= f k) -> Sum n f <= 0 -> forall k, (k < n)%nat -> f k = 0.
Proof.
  induction n as [|n IH]; intros H Hs k Hk; [lia|]. rewrite Sum_S in Hs.
  assert (0 <= Sum n f) by (apply Sum_nonneg; intros; apply H; lia). pose proof (H n ltac:(lia)).
  destruct (Nat.eq_dec k n) as [->|]; [lra|]. apply IH; [intros; apply H; lia|lra|lia].
Qed.
Lemma Sum_single n f j : (j < n)%nat -> (forall k, (k < n)%nat -> k <> j -> f k = 0) -> Sum n f = f j.
Proof.
  induction n as [|n IH]; intros Hj H; [lia|]. rewrite Sum_S. destruct (Nat.eq_dec j n) as [->|N].
  - replace (Sum n f) with 0; [ring|]. symmetry. apply rsum_zero. intros k Hk. apply in_seq in Hk. apply H; lia.
  - rewrite IH by (try lia; intros; apply H; lia). rewrite (H n) by lia. ring.
Qed.

(** * trigonometric sums *)
Lemma cos_sum n m c : (0 < m < n)%nat -> Sum n (fun k => cos (c + INR m * (INR k * (2 * PI / INR n)))) = 0.
Proof.
  intros H. assert (HN : INR n <> 0) by (apply not_0_INR; lia).
  remember (INR m * (PI / INR n)) as x eqn:Hx.
  assert (Hs : sin x <> 0).
  { apply Rgt_not_eq. assert (HP := PI_RGT_0). assert (0 < INR m) by (apply lt_0_INR; lia).
    assert (INR m < INR n) by (apply lt_INR; lia). assert (0 < PI / INR n) by (apply Rdiv_lt_0_compat; lra).
    apply sin_gt_0; subst x; [nra|]. apply Rlt_le_trans with (INR n * (PI / INR n)); [nra|]. right. field. exact HN. }
  apply (Rmult_eq_reg_l (2 * sin x)); [|lra]. rewrite Rmult_0_r.
  rewrite <- rsum_scale.
  rewrite (Sum_ext _ _ (fun k => sin (c + (2 * INR (S k) - 1) * x) - sin (c + (2 * INR k - 1) * x))).
  2:{ intros k _. rewrite S_INR. replace (c + INR m * (INR k * (2 * PI / INR n))) with (c + 2 * INR k * x) by (subst x; field; exact HN).
      replace (c + (2 * (INR k + 1) - 1) * x) with ((c + 2 * INR k * x) + x) by ring.
      replace (c + (2 * INR k - 1) * x) with ((c + 2 * INR k * x) - x) by ring.
      rewrite sin_plus, sin_minus. ring. }
  rewrite (telescope (fun k => sin (c + (2 * INR k - 1) * x))).
  replace (c + (2 * INR n - 1) * x) with (c + (2 * INR 0 - 1) * x + 2 * INR m * PI) by (cbn [INR]; subst x; field; exact HN).
  rewrite sin_period. ring.
Qed.
Definition node (n k : nat) : R := - PI + INR k * (2 * PI / INR n).
Lemma cos_nodes n m : (0 < m < n)%nat -> Sum n (fun k => cos (INR m * node n k)) = 0.
Proof.
  intros H. rewrite <- (cos_sum n m (INR m * - PI) H). apply Sum_ext. intros k _. f_equal. unfold node. ring.
Qed.
Lemma sin_nodes n m : (0 < m < n)%nat -> Sum n (fun k => sin (INR m * node n k)) = 0.
Proof.
  intros H. rewrite <- (cos_sum n m (INR m * - PI - PI / 2) H). apply Sum_ext. intros k _.
  unfold node. replace (INR m * - PI - PI / 2 + INR m * (INR k * (2 * PI / INR n))) with (- (PI / 2 - INR m * (- PI + INR k * (2 * PI / INR n)))) by ring.
  rewrite cos_neg, cos_shift. reflexivity.
Qed.

(** * the functions of the fit *)
Definition basis (j : nat) (t : R) : R :=
  match j with
  | O => 1
  | S j' => if Nat.even j' then sin (INR (S (Nat.div2 j')) * t) else cos (INR (S (Nat.div2 j')) * t)
  end.
Definition weight (n j : nat) : R := match j with O => INR n | _ => INR n / 2 end.

Lemma prod_cc i j t : cos (INR i * t) * cos (INR j * t) = / 2 * cos ((INR i - INR j) * t) + / 2 * cos ((INR i + INR j) * t).
Proof. rewrite Rmult_minus_distr_r, Rmult_plus_distr_r, cos_plus, cos_minus. field. Qed.
Lemma prod_ss i j t : sin (INR i * t) * sin (INR j * t) = / 2 * cos ((INR i - INR j) * t) + - / 2 * cos ((INR i + INR j) * t).
Proof. rewrite Rmult_minus_distr_r, Rmult_plus_distr_r, cos_plus, cos_minus. field. Qed.
Lemma prod_sc i j t : sin (INR i * t) * cos (INR j * t) = / 2 * sin ((INR i - INR j) * t) + / 2 * sin ((INR i + INR j) * t).
Proof. rewrite Rmult_minus_distr_r, Rmult_plus_distr_r, sin_plus, sin_minus. field. Qed.

Lemma diff_cos n i j : (0 < i)%nat -> (0 < j)%nat -> (i + j < n)%nat -> i <> j -> Sum n (fun k => cos ((INR i - INR j) * node n k)) = 0.
Proof.
  intros Hi Hj Hn Hd. destruct (Nat.lt_ge_cases i j).
  - rewrite <- (cos_nodes n (j - i)) by lia. apply Sum_ext. intros k _. rewrite minus_INR by lia. rewrite <- cos_neg. f_equal. ring.
  - rewrite <- (cos_nodes n (i - j)) by lia. apply Sum_ext. intros k _. rewrite minus_INR by lia. reflexivity.
Qed.
Lemma diff_sin n i j : (0 < i)%nat -> (0 < j)%nat -> (i + j < n)%nat -> Sum n (fun k => sin ((INR i - INR j) * node n k)) = 0.
Proof.
  intros Hi Hj Hn. destruct (Nat.lt_trichotomy i j) as [H|[->|H]].
  - apply (Rmult_eq_reg_l (- (1))); [|lra]. rewrite <- rsum_scale, Rmult_0_r. rewrite <- (sin_nodes n (j - i)) by lia.
    apply Sum_ext. intros k _. rewrite minus_INR by lia. replace ((INR i - INR j) * node n k) with (- ((INR j - INR i) * node n k)) by ring.
    rewrite sin_neg. ring.
  - apply rsum_zero. intros k _. rewrite Rminus_diag_eq by reflexivity. rewrite Rmult_0_l. apply sin_0.
  - rewrite <- (sin_nodes n (i - j)) by lia. apply Sum_ext. intros k _. rewrite minus_INR by lia. reflexivity.
Qed.
Lemma sum_cos n i j : (0 < i)%nat -> (i + j < n)%nat -> Sum n (fun k => cos ((INR i + INR j) * node n k)) = 0.
Proof. intros Hi Hn. rewrite <- (cos_nodes n (i + j)) by lia. apply Sum_ext. intros k _. rewrite plus_INR. reflexivity. Qed.
Lemma sum_sin n i j : (0 < i)%nat -> (i + j < n)%nat -> Sum n (fun k => sin ((INR i + INR j) * node n k)) = 0.
Proof. intros Hi Hn. rewrite <- (sin_nodes n (i + j)) by lia. apply Sum_ext. intros k _. rewrite plus_INR. reflexivity. Qed.

Lemma orth_cc n i j : (0 < i)%nat -> (0 < j)%nat -> (i + j < n)%nat ->
  Sum n (fun k => cos (INR i * node n k) * cos (INR j * node n k)) = if Nat.eq_dec i j then INR n / 2 else 0.
Proof.
  intros Hi Hj Hn. rewrite (Sum_ext _ _ (fun k => / 2 * cos ((INR i - INR j) * node n k) + / 2 * cos ((INR i + INR j) * node n k))) by (intros; apply prod_cc).
  rewrite (rsum_plus (fun k => / 2 * cos ((INR i - INR j) * node n k)) (fun k => / 2 * cos ((INR i + INR j) * node n k))), !rsum_scale, sum_cos by lia.
  destruct (Nat.eq_dec i j) as [->|Hd].
  - rewrite (Sum_ext _ _ (fun _ => 1)), rsum_const; [field|]. intros k _. rewrite Rminus_diag_eq by reflexivity. rewrite Rmult_0_l. apply cos_0.
  - rewrite diff_cos by lia. ring.
Qed.
Lemma orth_ss n i j : (0 < i)%nat -> (0 < j)%nat -> (i + j < n)%nat ->
  Sum n (fun k => sin (INR i * node n k) * sin (INR j * node n k)) = if Nat.eq_dec i j then INR n / 2 else 0.
Proof.
  intros Hi Hj Hn. rewrite (Sum_ext _ _ (fun k => / 2 * cos ((INR i - INR j) * node n k) + - / 2 * cos ((INR i + INR j) * node n k))) by (intros; apply prod_ss).
  rewrite (rsum_plus (fun k => / 2 * cos ((INR i - INR j) * node n k)) (fun k => - / 2 * cos ((INR i + INR j) * node n k))), !rsum_scale, sum_cos by lia.
  destruct (Nat.eq_dec i j) as [->|Hd].
  - rewrite (Sum_ext _ _ (fun _ => 1)), rsum_const; [field|]. intros k _. rewrite Rminus_diag_eq by reflexivity. rewrite Rmult_0_l. apply cos_0.
  - rewrite diff_cos by lia. ring.
Qed.
Lemma orth_sc n i j : (0 < i)%nat -> (0 < j)%nat -> (i + j < n)%nat -> Sum n (fun k => sin (INR i * node n k) * cos (INR j * node n k)) = 0.
Proof.
  intros Hi Hj Hn. rewrite (Sum_ext _ _ (fun k => / 2 * sin ((INR i - INR j) * node n k) + / 2 * sin ((INR i + INR j) * node n k))) by (intros; apply prod_sc).
  rewrite (rsum_plus (fun k => / 2 * sin ((INR i - INR j) * node n k)) (fun k => / 2 * sin ((INR i + INR j) * node n k))), !rsum_scale, sum_sin, diff_sin by lia. ring.
Qed.
Lemma div2_bound j : (2 * Nat.div2 j <= j)%nat.
Proof. pose proof (Nat.div2_odd j). destruct (Nat.odd j); cbn [Nat.b2n] in *; lia. Qed.
Lemma even_div2 i j : Nat.even i = Nat.even j -> Nat.div2 i = Nat.div2 j -> i = j.
Proof.
  intros H1 H2. rewrite (Nat.div2_odd i), (Nat.div2_odd j), H2. unfold Nat.odd. rewrite H1. reflexivity.
Qed.
Lemma orthogonal n num i j : (2 * num < n)%nat -> (i < 2 * num + 1)%nat -> (j < 2 * num + 1)%nat ->
  Sum n (fun k => basis i (node n k) * basis j (node n k)) = if Nat.eq_dec i j then weight n i else 0.
Proof.
  intros Hn Hi Hj.
  assert (B : forall i', (S i' < 2 * num + 1)%nat -> (S (Nat.div2 i') <= num)%nat).
  { intros i' H. pose proof (Nat.div2_odd i'). pose proof (div2_bound i'). destruct (Nat.le_gt_cases (S (Nat.div2 i')) num); [assumption|lia]. }
  destruct i as [|i], j as [|j]; cbn [basis weight].
  - destruct (Nat.eq_dec 0 0); [|lia]. rewrite (Sum_ext _ _ (fun _ => 1)), rsum_const by (intros; ring). ring.
  - destruct (Nat.eq_dec 0 (S j)); [lia|]. pose proof (B j Hj). destruct (Nat.even j).
    + rewrite <- (sin_nodes n (S (Nat.div2 j))) by lia. apply Sum_ext. intros; ring.
    + rewrite <- (cos_nodes n (S (Nat.div2 j))) by lia. apply Sum_ext. intros; ring.
  - destruct (Nat.eq_dec (S i) 0); [lia|]. pose proof (B i Hi). destruct (Nat.even i).
    + rewrite <- (sin_nodes n (S (Nat.div2 i))) by lia. apply Sum_ext. intros; ring.
    + rewrite <- (cos_nodes n (S (Nat.div2 i))) by lia. apply Sum_ext. intros; ring.
  - pose proof (B i Hi). pose proof (B j Hj).
    destruct (Nat.even i) eqn:Ei, (Nat.even j) eqn:Ej.
    + rewrite orth_ss by lia. destruct (Nat.eq_dec (S i) (S j)) as [E|E], (Nat.eq_dec (S (Nat.div2 i)) (S (Nat.div2 j))) as [F|F]; try reflexivity.
      * exfalso. apply F. congruence.
      * exfalso. apply E. f_equal. apply even_div2; [congruence|lia].
    + destruct (Nat.eq_dec (S i) (S j)); [replace i with j in Ei by lia; congruence|]. apply orth_sc; lia.
    + destruct (Nat.eq_dec (S i) (S j)); [replace i with j in Ei by lia; congruence|].
      rewrite <- (orth_sc n (S (Nat.div2 j)) (S (Nat.div2 i))) by lia. apply Sum_ext. intros; ring.
    + rewrite orth_cc by lia. destruct (Nat.eq_dec (S i) (S j)) as [E|E], (Nat.eq_dec (S (Nat.div2 i)) (S (Nat.div2 j))) as [F|F]; try reflexivity.
      * exfalso. apply F. congruence.
      * exfalso. apply E. f_equal. apply even_div2; [congruence|lia].
Qed.

(** * _fft is the combination of these functions *)
Lemma fft_loop_sum num : forall i0 args freq out, length args = (2 * num)%nat ->
  fft_loop i0 args freq out = out + Sum (2 * num) (fun j => nth j args 0 * basis (S (2 * i0 + j)) freq).
Proof.
  induction num as [|num IH]; intros i0 args freq out H.
  - destruct args; [|discriminate]. cbn. unfold rsum; cbn. ring.
  - destruct args as [|s [|c args]]; [discriminate| |].
    { cbn [length] in H. lia. }
    cbn [length] in H. cbn [fft_loop]. rewrite IH by lia.
    replace (2 * S num)%nat with (S (S (2 * num))) by lia. cbn [seq map]. rewrite <- !seq_shift, !map_map.
    unfold rsum at 2. cbn [fold_right]. fold (rsum (map (fun x => nth (S (S x)) (s :: c :: args) 0 * basis (S (2 * i0 + S (S x))) freq) (seq 0 (2 * num)))).
    rewrite (Sum_ext (2 * num) (fun x => nth (S (S x)) (s :: c :: args) 0 * basis (S (2 * i0 + S (S x))) freq) (fun j => nth j args 0 * basis (S (2 * S i0 + j)) freq)).
    2:{ intros k _. cbn [nth]. replace (2 * i0 + S (S k))%nat with (2 * S i0 + k)%nat by lia. reflexivity. }
    cbn [nth]. unfold basis at 2 3.
    replace (Nat.even (2 * i0 + 0)) with true by (rewrite Nat.add_0_r, Nat.even_mul; reflexivity).
    replace (Nat.even (2 * i0 + 1)) with false by (rewrite Nat.even_add, Nat.even_mul; reflexivity).
    replace (Nat.div2 (2 * i0 + 0)) with i0 by (rewrite Nat.add_0_r, Nat.div2_double; reflexivity).
    replace (Nat.div2 (2 * i0 + 1)) with i0 by (rewrite Nat.add_1_r, Nat.div2_succ_double; reflexivity).
    replace (i0 + 1)%nat with (S i0) by lia. ring.
Qed.
Definition curve (args : list R) (t : R) : R := Sum (length args) (fun j => nth j args 0 * basis j t).
Lemma fft_curve args num t : length args = (2 * num + 1)%nat -> fft args t = Ok (curve args t).
Proof.
  intros H. unfold curve. rewrite H. destruct args as [|a args]; [cbn in H; lia|]. cbn [length] in H.
  cbn [fft]. rewrite (fft_loop_sum num) by lia. f_equal.
  replace (2 * num + 1)%nat with (S (2 * num)) by lia. cbn [seq map]. rewrite <- seq_shift, map_map.
  unfold rsum at 2; cbn [fold_right]. cbn [nth basis]. rewrite Rmult_1_r. reflexivity.
Qed.
