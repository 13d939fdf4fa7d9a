(** The rounding of double precision numbers. *)
From Coq Require Import List ZArith QArith Qabs Qround Qpower Qreduction Bool Lia Lqa.
From Verif Require Import Prelude PreludeFacts ProgressModel ProgressProofs FloatModel.
Import ListNotations.
Open Scope Q_scope.

(** ** Powers of two *)
Lemma pow2_pos e : 0 < pow2 e.
Proof. apply Qpower_0_lt. reflexivity. Qed.
Lemma pow2_plus a b : pow2 (a + b) == pow2 a * pow2 b.
Proof. apply Qpower_plus. discriminate. Qed.
Lemma pow2_eq a b : a = b -> pow2 a == pow2 b.
Proof. intros ->. reflexivity. Qed.
Lemma pow2_Z n : (0 <= n)%Z -> pow2 n == inject_Z (2 ^ n).
Proof. intros H. symmetry. apply Zpower_Qpower. exact H. Qed.
Lemma pow2_ge1 n : (0 <= n)%Z -> 1 <= pow2 n.
Proof. intros H. rewrite (pow2_Z n H). change 1 with (inject_Z 1). rewrite <- Zle_Qle. apply Z.lt_pred_le, Z.pow_pos_nonneg; lia. Qed.
Lemma pow2_le a b : (a <= b)%Z -> pow2 a <= pow2 b.
Proof.
  intros H. replace b with (a + (b - a))%Z by lia. rewrite pow2_plus.
  assert (A := pow2_pos a). assert (B := pow2_ge1 (b - a) ltac:(lia)). nra.
Qed.
Lemma pow2_succ a : pow2 (a + 1) == 2 * pow2 a.
Proof. rewrite pow2_plus. change (pow2 1) with 2. ring. Qed.
Lemma pow2_lt_inv a b : pow2 a < pow2 b -> (a < b)%Z.
Proof. intros H. destruct (Z.lt_ge_cases a b) as [L|L]; [exact L|]. assert (A := pow2_le _ _ L). lra. Qed.

(** ** The exponent *)
Lemma qabs_frac q : Qabs q == inject_Z (Z.abs (Qnum q)) / inject_Z (Zpos (Qden q)).
Proof. destruct q as [n d]. cbn [Qabs Qnum Qden]. rewrite (Qmake_Qdiv (Z.abs n) d). reflexivity. Qed.
Lemma log2_Q n : (0 < n)%Z -> pow2 (Z.log2 n) <= inject_Z n < pow2 (Z.log2 n + 1).
Proof.
  intros H. assert (A := Z.log2_spec n H). assert (B := Z.log2_nonneg n). split.
  - rewrite pow2_Z by lia. rewrite <- Zle_Qle. lia.
  - rewrite pow2_Z by lia. rewrite <- Zlt_Qlt. unfold Z.succ in A. lia.
Qed.
Lemma qexp_spec q : ~ q == 0 -> pow2 (qexp q) <= Qabs q < pow2 (qexp q + 1).
Proof.
  intros N. assert (Hn : (0 < Z.abs (Qnum q))%Z).
  { destruct (Z.eq_dec (Qnum q) 0) as [E|E]; [|lia]. exfalso. apply N. unfold Qeq. rewrite E. reflexivity. }
  assert (A := log2_Q _ Hn). assert (B := log2_Q (Zpos (Qden q)) ltac:(lia)).
  unfold qexp. set (ln := Z.log2 (Z.abs (Qnum q))) in *. set (ld := Z.log2 (Zpos (Qden q))) in *. cbv zeta.
  assert (D : 0 < inject_Z (Zpos (Qden q))) by (change 0 with (inject_Z 0); rewrite <- Zlt_Qlt; lia).
  assert (X := qabs_frac q). set (n := inject_Z (Z.abs (Qnum q))) in *. set (d := inject_Z (Zpos (Qden q))) in *.
  assert (X2 : Qabs q * d == n) by (rewrite X; field; intros C0; lra).
  assert (U : Qabs q < pow2 (ln - ld + 1)).
  { assert (P : pow2 (ln + 1) == pow2 (ln - ld + 1) * pow2 ld) by (rewrite <- pow2_plus; apply pow2_eq; lia).
    assert (Q1 := pow2_pos (ln - ld + 1)). apply Qnot_le_lt. intros C.
    assert (pow2 (ln - ld + 1) * pow2 ld <= Qabs q * d) by (assert (pow2 (ln - ld + 1) * pow2 ld <= pow2 (ln - ld + 1) * d) by nra; nra). lra. }
  assert (L : pow2 (ln - ld - 1) <= Qabs q).
  { assert (P : pow2 ln == pow2 (ln - ld - 1) * pow2 (ld + 1)) by (rewrite <- pow2_plus; apply pow2_eq; lia).
    assert (Q1 := pow2_pos (ln - ld - 1)). apply Qnot_lt_le. intros C.
    assert (Qabs q * d < pow2 (ln - ld - 1) * pow2 (ld + 1)) by (assert (pow2 (ln - ld - 1) * d < pow2 (ln - ld - 1) * pow2 (ld + 1)) by nra; nra). lra. }
  destruct (Qle_bool (pow2 (ln - ld)) (Qabs q)) eqn:E.
  - apply Qle_bool_iff in E. split; assumption.
  - split; [exact L|]. replace (ln - ld - 1 + 1)%Z with (ln - ld)%Z by lia. apply Qnot_le_lt. intros C. apply Qle_bool_iff in C. congruence.
Qed.
Lemma qexp_comp a b : ~ a == 0 -> a == b -> qexp a = qexp b.
Proof.
  intros N E. assert (A := qexp_spec a N). assert (B := qexp_spec b ltac:(rewrite <- E; exact N)). assert (EA : Qabs a == Qabs b) by (rewrite E; reflexivity).
  assert (qexp a < qexp b + 1)%Z by (apply pow2_lt_inv; lra). assert (qexp b < qexp a + 1)%Z by (apply pow2_lt_inv; lra). lia.
Qed.
Definition bexp (q : Q) : Z := Z.max (qexp q - 52) (-1074).
Lemma b64_zero q : q == 0 -> b64 q = 0.
Proof. intros E. unfold b64. replace (Qnum q =? 0)%Z with true; [reflexivity|]. symmetry. apply Z.eqb_eq. unfold Qeq in E. cbn in E. lia. Qed.
Lemma b64_eq q : ~ q == 0 -> b64 q == inject_Z (round_even (q / pow2 (bexp q))) * pow2 (bexp q).
Proof.
  intros N. unfold b64. destruct (Z.eqb_spec (Qnum q) 0) as [E|E]; [exfalso; apply N; unfold Qeq; rewrite E; reflexivity|].
  cbv zeta. rewrite (Qred_correct (inject_Z (round_even (q / pow2 (Z.max (qexp q - 52) (-1074)))) * pow2 (Z.max (qexp q - 52) (-1074)))). reflexivity.
Qed.

(** ** Rounding is odd *)
Lemma round_even_opp q : round_even (- q) = (- round_even q)%Z.
Proof.
  assert (B := Qfloor_bound q). destruct (Qeq_dec q (inject_Z (Qfloor q))) as [E|N].
  - rewrite (round_even_comp q _ E). rewrite round_even_Z. rewrite (round_even_comp (- q) (inject_Z (- Qfloor q))), round_even_Z; [reflexivity|]. rewrite E at 1. rewrite inject_Z_opp. reflexivity.
  - assert (F : Qfloor (- q) = (- Qfloor q - 1)%Z).
    { assert (C := Qfloor_bound (- q)). set (f := Qfloor q) in *. set (g := Qfloor (- q)) in *.
      assert (S1 : inject_Z (g + f) < 0) by (rewrite inject_Z_plus; destruct (Qlt_le_dec q (inject_Z f)); [lra|]; destruct (Qeq_dec q (inject_Z f)); [contradiction|]; assert (inject_Z f < q) by (apply Qnot_le_lt; intros C2; apply n; lra); lra).
      assert (S2 : -(2) < inject_Z (g + f)) by (rewrite inject_Z_plus; lra).
      change 0 with (inject_Z 0) in S1. change (-(2)) with (inject_Z (-2)) in S2. rewrite <- Zlt_Qlt in S1, S2. lia. }
    unfold round_even. rewrite F. set (f := Qfloor q) in *. cbv zeta.
    assert (R : - q - inject_Z (- f - 1) == 1 - (q - inject_Z f)).
    { unfold Z.sub. rewrite inject_Z_plus, !inject_Z_opp. change (inject_Z 1) with 1. ring. }
    destruct (Qcompare_spec (- q - inject_Z (- f - 1)) (1 # 2)) as [C|C|C]; destruct (Qcompare_spec (q - inject_Z f) (1 # 2)) as [D|D|D]; try (exfalso; lra); try lia.
    replace (Z.even (- f - 1)) with (negb (Z.even f)); [destruct (Z.even f); cbn [negb]; lia|].
    replace (- f - 1)%Z with (-(f + 1))%Z by lia. rewrite Z.even_opp, Z.add_1_r, Z.even_succ. rewrite Z.negb_even. reflexivity.
Qed.
Lemma qexp_opp q : qexp (- q) = qexp q.
Proof. destruct q as [n d]. unfold qexp. cbn [Qopp Qnum Qden Qabs]. rewrite Z.abs_opp. reflexivity. Qed.

(** ** What holds for the rounding *)
Definition ulp_u : Q := 1 # 9007199254740992.
Definition ulp_eta : Q := pow2 (-1075).
Record rounding (rnd : Q -> Q) : Prop := {
  r_comp : forall a b, a == b -> rnd a == rnd b;
  r_mono : forall a b, a <= b -> rnd a <= rnd b;
  r_err : forall q, Qabs (rnd q - q) <= ulp_u * Qabs q + ulp_eta;
  r_normal : forall q, pow2 (-1022) <= Qabs q -> Qabs (rnd q - q) <= ulp_u * Qabs q;
  r_repr : forall m e, (Z.abs m <= 2 ^ 53)%Z -> (-1074 <= e)%Z -> rnd (inject_Z m * pow2 e) == inject_Z m * pow2 e;
  r_idem : forall q, rnd (rnd q) == rnd q;
  r_opp : forall q, rnd (- q) == - rnd q
}.

Lemma b64_comp a b : a == b -> b64 a == b64 b.
Proof.
  intros E. destruct (Qeq_dec a 0) as [Z0|N].
  - rewrite (b64_zero a Z0), (b64_zero b ltac:(rewrite <- E; exact Z0)). reflexivity.
  - rewrite (b64_eq a N), (b64_eq b ltac:(rewrite <- E; exact N)). unfold bexp. rewrite (qexp_comp a b N E).
    set (e := Z.max _ _). rewrite (round_even_comp (a / pow2 e) (b / pow2 e)); [reflexivity|]. rewrite E. reflexivity.
Qed.
Lemma b64_opp q : b64 (- q) == - b64 q.
Proof.
  destruct (Qeq_dec q 0) as [E|N].
  - rewrite (b64_zero q E), (b64_zero (- q)) by (rewrite E; reflexivity). reflexivity.
  - rewrite (b64_eq q N), (b64_eq (- q)) by (intros C; apply N; lra). unfold bexp. rewrite qexp_opp. set (e := Z.max _ _).
    rewrite (round_even_comp (- q / pow2 e) (- (q / pow2 e))) by (unfold Qdiv; ring). rewrite round_even_opp, inject_Z_opp. ring.
Qed.
Lemma scaled q e : (q / pow2 e) * pow2 e == q.
Proof. field. assert (P := pow2_pos e). intros C0. lra. Qed.
Lemma b64_half q : Qabs (b64 q - q) <= (1 # 2) * pow2 (bexp q).
Proof.
  assert (P := pow2_pos (bexp q)). destruct (Qeq_dec q 0) as [E|N].
  - rewrite (b64_zero q E). setoid_replace (0 - q) with 0 by (rewrite E; ring). change (Qabs 0) with 0. lra.
  - rewrite (b64_eq q N). assert (R := round_even_near (q / pow2 (bexp q))). set (e := bexp q) in *.
    setoid_replace (inject_Z (round_even (q / pow2 e)) * pow2 e - q) with ((inject_Z (round_even (q / pow2 e)) - q / pow2 e) * pow2 e) by (rewrite <- (scaled q e) at 2; ring).
    rewrite Qabs_Qmult, (Qabs_pos (pow2 e)) by lra. apply Qmult_le_compat_r; lra.
Qed.
Lemma pow2_53 : pow2 (-53) == ulp_u.
Proof. reflexivity. Qed.
Lemma b64_normal q : pow2 (-1022) <= Qabs q -> Qabs (b64 q - q) <= ulp_u * Qabs q.
Proof.
  intros H. assert (N : ~ q == 0) by (intros E; assert (P := pow2_pos (-1022)); rewrite E in H; change (Qabs 0) with 0 in H; lra).
  assert (A := qexp_spec q N). assert (B := b64_half q). assert (E : bexp q = (qexp q - 52)%Z).
  { unfold bexp. assert (-1022 < qexp q + 1)%Z by (apply pow2_lt_inv; lra). lia. }
  rewrite E in B. assert (P : (1 # 2) * pow2 (qexp q - 52) == ulp_u * pow2 (qexp q)).
  { unfold Z.sub. rewrite pow2_plus. change (pow2 (- (52))) with (1 # 4503599627370496). unfold ulp_u. ring. }
  rewrite P in B. unfold ulp_u in *. lra.
Qed.
Lemma b64_err q : Qabs (b64 q - q) <= ulp_u * Qabs q + ulp_eta.
Proof.
  assert (PE : 0 < ulp_eta) by (unfold ulp_eta; apply pow2_pos). assert (PA := Qabs_nonneg q).
  destruct (Qlt_le_dec (Qabs q) (pow2 (-1022))) as [L|L].
  - destruct (Qeq_dec q 0) as [E|N].
    + rewrite (b64_zero q E). setoid_replace (0 - q) with 0 by (rewrite E; ring). change (Qabs 0) with 0. unfold ulp_u. lra.
    + assert (A := qexp_spec q N). assert (B := b64_half q). assert (E : bexp q = (-1074)%Z).
      { unfold bexp. assert (qexp q < -1022)%Z by (apply pow2_lt_inv; lra). lia. }
      rewrite E in B. assert (P : (1 # 2) * pow2 (-1074) == ulp_eta).
      { unfold ulp_eta. change (-1074)%Z with (-1075 + 1)%Z. rewrite pow2_succ. ring. }
      rewrite P in B. unfold ulp_u. lra.
  - assert (B := b64_normal q L). lra.
Qed.
Lemma round_even_le q n : q <= inject_Z n -> (round_even q <= n)%Z.
Proof. intros H. rewrite <- (round_even_Z n). apply round_even_mono. exact H. Qed.
Lemma round_even_ge q n : inject_Z n <= q -> (n <= round_even q)%Z.
Proof. intros H. rewrite <- (round_even_Z n) at 1. apply round_even_mono. exact H. Qed.
Lemma div_le q e c : q <= c * pow2 e -> q / pow2 e <= c.
Proof. intros H. apply Qle_shift_div_r; [apply pow2_pos|exact H]. Qed.
Lemma div_ge q e c : c * pow2 e <= q -> c <= q / pow2 e.
Proof. intros H. apply Qle_shift_div_l; [apply pow2_pos|exact H]. Qed.
Lemma upper q : ~ q == 0 -> Qabs q <= inject_Z (2 ^ 53) * pow2 (bexp q).
Proof.
  intros N. assert (A := qexp_spec q N). rewrite <- (pow2_Z 53) by lia. rewrite <- pow2_plus.
  assert (B := pow2_le (qexp q + 1) (53 + bexp q) ltac:(unfold bexp; lia)). lra.
Qed.
Lemma lower q : ~ q == 0 -> (-1074 < bexp q)%Z -> inject_Z (2 ^ 52) * pow2 (bexp q) <= Qabs q.
Proof.
  intros N H. assert (A := qexp_spec q N). rewrite <- (pow2_Z 52) by lia. rewrite <- pow2_plus.
  replace (52 + bexp q)%Z with (qexp q) by (unfold bexp in *; lia). lra.
Qed.
Lemma b64_pos_mono a b : 0 < a -> a <= b -> b64 a <= b64 b.
Proof.
  intros Ha H. assert (Na : ~ a == 0) by (intros E; lra). assert (Nb : ~ b == 0) by (intros E; lra).
  assert (UA := upper a Na). assert (LB := lower b Nb). rewrite Qabs_pos in UA, LB by lra.
  assert (X : (bexp a <= bexp b)%Z).
  { assert (A := qexp_spec a Na). assert (B := qexp_spec b Nb). rewrite Qabs_pos in A, B by lra.
    assert (qexp a < qexp b + 1)%Z by (apply pow2_lt_inv; lra). unfold bexp. lia. }
  rewrite (b64_eq a Na), (b64_eq b Nb). assert (PA := pow2_pos (bexp a)). assert (PB := pow2_pos (bexp b)).
  destruct (Z.eq_dec (bexp a) (bexp b)) as [E|E].
  - rewrite E in *. apply Qmult_le_compat_r; [|lra]. rewrite <- Zle_Qle. apply round_even_mono. apply Qmult_le_compat_r; [exact H|]. apply Qlt_le_weak, Qinv_lt_0_compat, pow2_pos.
  - specialize (LB ltac:(unfold bexp in *; lia)).
    assert (RA := round_even_le _ _ (div_le _ _ _ UA)). assert (RB := round_even_ge _ _ (div_ge _ _ _ LB)).
    rewrite Zle_Qle in RA, RB.
    assert (M : 2 * pow2 (bexp a) <= pow2 (bexp b)).
    { rewrite <- pow2_succ. apply pow2_le. lia. }
    apply Qle_trans with (inject_Z (2 ^ 53) * pow2 (bexp a)); [apply Qmult_le_compat_r; lra|].
    apply Qle_trans with (inject_Z (2 ^ 52) * pow2 (bexp b)); [|apply Qmult_le_compat_r; lra].
    change (inject_Z (2 ^ 53)) with (9007199254740992 # 1). change (inject_Z (2 ^ 52)) with (4503599627370496 # 1). lra.
Qed.
Lemma b64_nonneg q : 0 <= q -> 0 <= b64 q.
Proof.
  intros H. destruct (Qeq_dec q 0) as [E|N]; [rewrite (b64_zero q E); lra|].
  rewrite (b64_eq q N). assert (P := pow2_pos (bexp q)).
  assert (R := round_even_ge (q / pow2 (bexp q)) 0 ltac:(apply div_ge; change (inject_Z 0) with 0; lra)). rewrite Zle_Qle in R. change (inject_Z 0) with 0 in R. nra.
Qed.
Lemma b64_mono a b : a <= b -> b64 a <= b64 b.
Proof.
  intros H. destruct (Qlt_le_dec 0 a) as [A|A]; [apply b64_pos_mono; assumption|].
  assert (OA : b64 a == - b64 (- a)) by (rewrite <- b64_opp; apply b64_comp; ring).
  destruct (Qlt_le_dec b 0) as [B|B].
  - assert (OB : b64 b == - b64 (- b)) by (rewrite <- b64_opp; apply b64_comp; ring).
    rewrite OA, OB. assert (C := b64_pos_mono (- b) (- a) ltac:(lra) ltac:(lra)). lra.
  - assert (X := b64_nonneg b B). assert (Y := b64_nonneg (- a) ltac:(lra)). rewrite OA. lra.
Qed.
Lemma b64_grid q k : ~ q == 0 -> q == inject_Z k * pow2 (bexp q) -> b64 q == q.
Proof.
  intros N E. rewrite (b64_eq q N). rewrite (round_even_comp _ (inject_Z k)), round_even_Z; [symmetry; exact E|].
  rewrite E at 1. field. assert (P := pow2_pos (bexp q)). intros C0. lra.
Qed.
Lemma b64_repr m e : (Z.abs m <= 2 ^ 53)%Z -> (-1074 <= e)%Z -> b64 (inject_Z m * pow2 e) == inject_Z m * pow2 e.
Proof.
  intros Hm He. set (q := inject_Z m * pow2 e). assert (PE := pow2_pos e). destruct (Qeq_dec q 0) as [E|N].
  - rewrite (b64_zero q E). symmetry. exact E.
  - assert (AQ : Qabs q == inject_Z (Z.abs m) * pow2 e).
    { unfold q. rewrite Qabs_Qmult, (Qabs_pos (pow2 e)) by lra. apply Qmult_comp; [|reflexivity]. unfold inject_Z, Qabs. reflexivity. }
    destruct (Z.le_gt_cases (bexp q) e) as [L|G].
    + apply (b64_grid q (m * 2 ^ (e - bexp q)) N). rewrite inject_Z_mult, <- pow2_Z by lia. unfold q at 1.
      rewrite <- Qmult_assoc, <- pow2_plus. apply Qmult_comp; [reflexivity|]. apply pow2_eq. lia.
    + assert (LB := lower q N ltac:(lia)).
      assert (UB : Qabs q <= inject_Z (2 ^ 52) * pow2 (bexp q)).
      { rewrite AQ. apply Qle_trans with (inject_Z (2 ^ 53) * pow2 e); [apply Qmult_le_compat_r; [rewrite <- Zle_Qle; exact Hm|lra]|].
        assert (M := pow2_le (e + 1) (bexp q) ltac:(lia)). rewrite pow2_succ in M.
        change (inject_Z (2 ^ 53)) with (9007199254740992 # 1). change (inject_Z (2 ^ 52)) with (4503599627370496 # 1). lra. }
      destruct (Qlt_le_dec q 0) as [S0|S0].
      * apply (b64_grid q (- 2 ^ 52) N). rewrite inject_Z_opp. rewrite Qabs_neg in LB, UB by lra. lra.
      * apply (b64_grid q (2 ^ 52) N). rewrite Qabs_pos in LB, UB by lra. lra.
Qed.
Lemma b64_idem q : b64 (b64 q) == b64 q.
Proof.
  destruct (Qeq_dec q 0) as [E|N]; [rewrite (b64_zero q E); reflexivity|].
  rewrite (b64_comp _ _ (b64_eq q N)). rewrite (b64_eq q N). apply b64_repr; [|unfold bexp; lia].
  assert (U := upper q N). assert (P := pow2_pos (bexp q)). apply Qabs_Qle_condition in U.
  apply Z.abs_le. split.
  - apply round_even_ge, div_ge. rewrite inject_Z_opp. lra.
  - apply round_even_le, div_le. lra.
Qed.
Theorem b64_rounding : rounding b64.
Proof.
  constructor; [exact b64_comp|exact b64_mono|exact b64_err|exact b64_normal|exact b64_repr|exact b64_idem|exact b64_opp].
Qed.
