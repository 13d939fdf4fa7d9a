(** Proofs about the places where rounding decides something. *)
From Coq Require Import List ZArith QArith Qabs Qround Qpower Qreduction Bool Lia Lqa.
From Verif Require Import Prelude PreludeFacts ProgressModel ProgressProofs RzModel FloatModel FloatRound.
Import ListNotations.
Open Scope Q_scope.

Lemma eta_small : ulp_eta <= 1 # (2 ^ 200).
Proof. unfold ulp_eta. apply Qle_trans with (pow2 (-200)); [apply pow2_le; lia|]. discriminate. Qed.
Lemma eta_pos : 0 < ulp_eta.
Proof. apply pow2_pos. Qed.

Section Rounding.
Variable rnd : Q -> Q.
Hypothesis HR : rounding rnd.

Lemma near x B e : Qabs x <= B -> B * ulp_u + (1 # (2 ^ 200)) <= e -> - e <= rnd x - x <= e.
Proof.
  intros HB He. assert (A := r_err _ HR x). assert (S0 := eta_small). apply Qabs_Qle_condition.
  apply Qle_trans with (1 := A). unfold ulp_u in *. lra.
Qed.
Lemma rnd_int n : (Z.abs n <= 2 ^ 53)%Z -> rnd (inject_Z n) == inject_Z n.
Proof.
  intros H. assert (A := r_repr _ HR n 0 H ltac:(lia)). rewrite (r_comp _ HR (inject_Z n) (inject_Z n * pow2 0)); [rewrite A; change (pow2 0) with 1; ring|].
  change (pow2 0) with 1. ring.
Qed.
Lemma rnd_0 : rnd 0 == 0.
Proof. exact (rnd_int 0 ltac:(cbn; lia)). Qed.

(** ** The weights *)
Definition err16 : Q := 17 * ulp_u.
Lemma near16 x : - (16) <= x <= 16 -> - err16 <= rnd x - x <= err16.
Proof. intros H. apply (near x 16); [apply Qabs_Qle_condition; lra|]. unfold err16, ulp_u. apply Qle_bool_iff. vm_compute. reflexivity. Qed.

Variable cube : Q -> Q.
Hypothesis Hcube : forall u, Qabs (cube u - u * u * u) <= 2 * ulp_u * Qabs (u * u * u) + ulp_u.

Lemma weights_near u : - (1) <= u <= 1 ->
  exists w0 w1 w2 w3, catmull_fl rnd cube u = [w0; w1; w2; w3] /\
    Qabs (w0 - (1 # 2) * (- (u * u * u) + 2 * (u * u) - u)) <= 128 * ulp_u /\
    Qabs (w1 - (1 # 2) * (3 * (u * u * u) - 5 * (u * u) + 2)) <= 128 * ulp_u /\
    Qabs (w2 - (1 # 2) * (- (3) * (u * u * u) + 4 * (u * u) + u)) <= 128 * ulp_u /\
    Qabs (w3 - (1 # 2) * (u * u * u - u * u)) <= 128 * ulp_u.
Proof.
  intros Hu. assert (C := Hcube u). set (u3 := cube u) in *.
  assert (B2 : 0 <= u * u <= 1) by (split; nra).
  assert (B3 : - (1) <= u * u * u <= 1).
  { split; [assert (0 <= (1 + u) * (u * u) /\ 0 <= (1 - u) * (u * u))|assert (0 <= (1 + u) * (u * u) /\ 0 <= (1 - u) * (u * u))]; try (split; apply Qmult_le_0_compat; lra); lra. }
  assert (C3 : - (3 * ulp_u) <= u3 - u * u * u <= 3 * ulp_u).
  { apply Qabs_Qle_condition. apply Qle_trans with (1 := C). assert (Qabs (u * u * u) <= 1) by (apply Qabs_Qle_condition; lra). unfold ulp_u in *. lra. }
  assert (S2 := near16 (u * u) ltac:(lra)). unfold catmull_fl. cbv zeta. fold u3. unfold fadd, fsub, fmul. cbn [map].
  set (u2 := rnd (u * u)) in *. unfold err16, ulp_u in *.
  assert (A1 := near16 (2 * u2) ltac:(lra)). set (a1 := rnd (2 * u2)) in *.
  assert (A2 := near16 (- u3 + a1) ltac:(unfold err16, ulp_u in *; lra)). set (a2 := rnd (- u3 + a1)) in *.
  assert (A3 := near16 (a2 - u) ltac:(unfold err16, ulp_u in *; lra)). set (a3 := rnd (a2 - u)) in *.
  assert (A4 := near16 ((1 # 2) * a3) ltac:(unfold err16, ulp_u in *; lra)). set (a4 := rnd ((1 # 2) * a3)) in *.
  assert (D1 := near16 (3 * u3) ltac:(lra)). set (d1 := rnd (3 * u3)) in *.
  assert (D2 := near16 (5 * u2) ltac:(lra)). set (d2 := rnd (5 * u2)) in *.
  assert (D3 := near16 (d1 - d2) ltac:(unfold err16, ulp_u in *; lra)). set (d3 := rnd (d1 - d2)) in *.
  assert (D4 := near16 (d3 + 2) ltac:(unfold err16, ulp_u in *; lra)). set (d4 := rnd (d3 + 2)) in *.
  assert (D5 := near16 ((1 # 2) * d4) ltac:(unfold err16, ulp_u in *; lra)). set (d5 := rnd ((1 # 2) * d4)) in *.
  assert (F1 := near16 (- (3) * u3) ltac:(lra)). set (f1 := rnd (- (3) * u3)) in *.
  assert (F2 := near16 (4 * u2) ltac:(lra)). set (f2 := rnd (4 * u2)) in *.
  assert (F3 := near16 (f1 + f2) ltac:(unfold err16, ulp_u in *; lra)). set (f3 := rnd (f1 + f2)) in *.
  assert (F4 := near16 (f3 + u) ltac:(unfold err16, ulp_u in *; lra)). set (f4 := rnd (f3 + u)) in *.
  assert (F5 := near16 ((1 # 2) * f4) ltac:(unfold err16, ulp_u in *; lra)). set (f5 := rnd ((1 # 2) * f4)) in *.
  assert (G1 := near16 (u3 - u2) ltac:(lra)). set (g1 := rnd (u3 - u2)) in *.
  assert (G2 := near16 ((1 # 2) * g1) ltac:(unfold err16, ulp_u in *; lra)). set (g2 := rnd ((1 # 2) * g1)) in *.
  unfold err16, ulp_u in *. exists a4, d5, f5, g2. split; [reflexivity|].
  split; [|split; [|split]]; apply Qabs_Qle_condition; split; lra.
Qed.
Lemma fraction_range z : - (1) <= fsub rnd z (inject_Z (Qtrunc z)) <= 1.
Proof.
  unfold fsub. assert (A : - (1) <= z - inject_Z (Qtrunc z) <= 1).
  { unfold Qtrunc. destruct (Qle_bool 0 z) eqn:E.
    - assert (B := Qfloor_bound z). lra.
    - assert (B := Qle_ceiling z). assert (C := Qceiling_lt z). unfold Z.sub in C. rewrite inject_Z_plus in C. change (inject_Z (- (1))) with (- (1)) in C. lra. }
  destruct A as [A B]. apply (r_mono _ HR) in A, B.
  rewrite (rnd_int (-1) ltac:(cbn; lia) : rnd (- (1)) == - (1)) in A. rewrite (rnd_int 1 ltac:(cbn; lia) : rnd 1 == 1) in B. split; assumption.
Qed.
Lemma sum_near l0 l1 l2 l3 : Qabs (l0 + l1 + l2 + l3) <= 8 -> - (5) <= l0 <= 5 -> - (5) <= l1 <= 5 -> - (5) <= l2 <= 5 -> - (5) <= l3 <= 5 ->
  - (80 * ulp_u) <= fsum rnd [l0; l1; l2; l3] - (l0 + l1 + l2 + l3) <= 80 * ulp_u.
Proof.
  intros H B0 B1 B2 B3. apply Qabs_Qle_condition in H. unfold fsum, fadd. cbn [fold_left]. 
  assert (A0 := near16 (0 + l0) ltac:(lra)). set (s0 := rnd (0 + l0)) in *.
  assert (A1 := near16 (s0 + l1) ltac:(unfold err16, ulp_u in *; lra)). set (s1 := rnd (s0 + l1)) in *.
  assert (A2 := near16 (s1 + l2) ltac:(unfold err16, ulp_u in *; lra)). set (s2 := rnd (s1 + l2)) in *.
  assert (A3 := near16 (s2 + l3) ltac:(unfold err16, ulp_u in *; lra)). set (s3 := rnd (s2 + l3)) in *.
  unfold err16, ulp_u in *. lra.
Qed.
Lemma weights_sum z : Qabs (fsum rnd (z_weights_fl rnd cube z) - 1) <= 600 * ulp_u.
Proof.
  unfold z_weights_fl. assert (F := fraction_range z). set (u := fsub rnd z (inject_Z (Qtrunc z))) in *.
  destruct (weights_near u F) as (w0 & w1 & w2 & w3 & -> & A & B & C & D).
  apply Qabs_Qle_condition in A, B, C, D.
  assert (B2 : 0 <= u * u <= 1) by (split; nra).
  assert (B3 : - (1) <= u * u * u <= 1).
  { assert (0 <= (1 + u) * (u * u) /\ 0 <= (1 - u) * (u * u)) by (split; apply Qmult_le_0_compat; lra). lra. }
  unfold ulp_u in *.
  assert (S0 := sum_near w0 w1 w2 w3 ltac:(apply Qabs_Qle_condition; lra) ltac:(lra) ltac:(lra) ltac:(lra) ltac:(lra)).
  unfold ulp_u in *. apply Qabs_Qle_condition. lra.
Qed.
Lemma check_quiet z : z_check_raises rnd cube z = false.
Proof.
  unfold z_check_raises. assert (A := weights_sum z). apply Qabs_Qle_condition in A. set (s := fsum rnd _) in *.
  apply not_true_iff_false. intros C. apply Qle_bool_iff in C.
  assert (T : 1 # 200000000 <= b64 (1 # 100000000)) by (apply Qle_bool_iff; vm_compute; reflexivity).
  unfold ulp_u in A. assert (N := near16 (s - 1) ltac:(lra)). unfold fsub in C. unfold err16, ulp_u in N. set (r := rnd (s - 1)) in *.
  assert (Qabs r <= 1 # 1000000000) by (apply Qabs_Qle_condition; lra). lra.
Qed.

(** ** Integer quotients *)
Lemma floor_unique q k : inject_Z k <= q -> q < inject_Z k + 1 -> Qfloor q = k.
Proof.
  intros A B. assert (C := Qfloor_bound q). assert (D : inject_Z (Qfloor q) < inject_Z (k + 1)) by (rewrite inject_Z_plus; change (inject_Z 1) with 1; lra).
  assert (E : inject_Z k < inject_Z (Qfloor q + 1)) by (rewrite inject_Z_plus; change (inject_Z 1) with 1; lra). rewrite <- Zlt_Qlt in D, E. lia.
Qed.
Lemma floor_quotient_exact a b : (Z.abs a < 2 ^ 53)%Z -> (0 < b <= 2 ^ 53)%Z -> floor_quotient rnd a b = (a / b)%Z.
Proof.
  intros Ha Hb. unfold floor_quotient, fdiv. assert (D := Z.div_mod a b ltac:(lia)). assert (M := Z.mod_pos_bound a b ltac:(lia)).
  set (k := (a / b)%Z) in *. set (r := (a mod b)%Z) in *.
  assert (PB : 0 < inject_Z b) by (change 0 with (inject_Z 0); rewrite <- Zlt_Qlt; lia).
  assert (KB : (Z.abs k <= 2 ^ 53)%Z) by nia.
  set (q := inject_Z a / inject_Z b).
  assert (QB : q * inject_Z b == inject_Z a) by (unfold q; field; intros C; lra).
  apply floor_unique.
  - rewrite <- (rnd_int k KB). apply (r_mono _ HR). apply Qle_shift_div_l; [exact PB|]. rewrite <- inject_Z_mult, <- Zle_Qle. nia.
  - destruct (Z.eq_dec a 0) as [A0|A0].
    + assert (k = 0)%Z by (subst k; rewrite A0; apply Z.div_0_l; lia). rewrite H. rewrite (r_comp _ HR q 0) by (unfold q; rewrite A0; unfold Qdiv; ring). rewrite rnd_0. change (inject_Z 0) with 0. lra.
    + assert (L1 : 1 <= Qabs q * inject_Z b).
      { assert (E : Qabs q * inject_Z b == Qabs (inject_Z a)) by (rewrite <- QB, Qabs_Qmult, (Qabs_pos (inject_Z b)) by lra; reflexivity).
        rewrite E. change (Qabs (inject_Z a)) with (inject_Z (Z.abs a)). change 1 with (inject_Z 1). rewrite <- Zle_Qle. lia. }
      assert (BB : inject_Z b <= inject_Z (2 ^ 53)) by (rewrite <- Zle_Qle; lia).
      assert (NQ := Qabs_nonneg q).
      assert (LQ : pow2 (-1022) <= Qabs q).
      { apply Qle_trans with (pow2 (-53)); [apply pow2_le; lia|]. change (inject_Z (2 ^ 53)) with (9007199254740992 # 1) in BB. rewrite pow2_53. unfold ulp_u. nra. }
      assert (N := r_normal _ HR q LQ).
      assert (U : Qabs q * inject_Z b <= inject_Z (2 ^ 53 - 1)).
      { assert (E : Qabs q * inject_Z b == Qabs (inject_Z a)) by (rewrite <- QB, Qabs_Qmult, (Qabs_pos (inject_Z b)) by lra; reflexivity).
        rewrite E. change (Qabs (inject_Z a)) with (inject_Z (Z.abs a)). rewrite <- Zle_Qle. lia. }
      change (inject_Z (2 ^ 53 - 1)) with (9007199254740991 # 1) in U.
      assert (K : q * inject_Z b <= (inject_Z k + 1) * inject_Z b - 1).
      { rewrite QB. change 1 with (inject_Z 1). rewrite <- inject_Z_plus, <- inject_Z_mult. unfold Qminus. rewrite <- inject_Z_opp, <- inject_Z_plus, <- Zle_Qle. nia. }
      assert (P : (rnd q - q) * inject_Z b < 1).
      { apply Qle_lt_trans with (ulp_u * (Qabs q * inject_Z b)); [|unfold ulp_u; lra].
        assert (rnd q - q <= ulp_u * Qabs q) by (apply Qle_trans with (2 := N), Qle_Qabs). nra. }
      nra.
Qed.
Lemma int_quotient_exact a b : (0 <= a < 2 ^ 53)%Z -> (0 < b <= 2 ^ 53)%Z -> int_quotient rnd a b = (a / b)%Z.
Proof.
  intros Ha Hb. unfold int_quotient, Qtrunc. replace (Qle_bool 0 (fdiv rnd (inject_Z a) (inject_Z b))) with true.
  - apply floor_quotient_exact; lia.
  - symmetry. apply Qle_bool_iff. unfold fdiv. rewrite <- rnd_0. apply (r_mono _ HR).
    apply Qle_shift_div_l; [change 0 with (inject_Z 0); rewrite <- Zlt_Qlt; lia|]. rewrite Qmult_0_l. change 0 with (inject_Z 0). rewrite <- Zle_Qle. lia.
Qed.
Lemma ceiling_half n : Qceiling (inject_Z n / 2) = ((n + 1) / 2)%Z.
Proof.
  unfold Qceiling. rewrite (Qfloor_comp (- (inject_Z n / 2)) (inject_Z (- n) / inject_Z 2)) by (rewrite inject_Z_opp; change (inject_Z 2) with 2; field).
  change (inject_Z (- n) / inject_Z 2) with (Qmake (- n) 2 : Q) || idtac.
  replace (Qfloor (inject_Z (- n) / inject_Z 2)) with ((- n) / 2)%Z; [|rewrite (Qfloor_comp _ (Qmake (- n) 2)) by (rewrite Qmake_Qdiv; reflexivity); reflexivity].
  Z.div_mod_to_equations. lia.
Qed.
Lemma window_exact n : (0 <= n < 2 ^ 52)%Z -> window_fl rnd n = ((n + 1) / 2 / 2 * 2 + 1)%Z.
Proof.
  intros H. unfold window_fl. assert (E : fdiv rnd (inject_Z n) 2 == inject_Z n / 2).
  { unfold fdiv. rewrite (r_comp _ HR _ (inject_Z n * pow2 (-1))) by (change (pow2 (-1)) with (1 # 2); field). rewrite (r_repr _ HR n (-1)) by lia. change (pow2 (-1)) with (1 # 2). field. }
  rewrite (Qceiling_comp _ _ E), ceiling_half. cbv zeta. assert (B : (0 <= (n + 1) / 2 <= n + 1)%Z) by (Z.div_mod_to_equations; lia).
  rewrite floor_quotient_exact by lia. set (k := ((n + 1) / 2 / 2)%Z). assert (K : (0 <= k * 2 <= n + 1)%Z) by (unfold k; Z.div_mod_to_equations; lia).
  assert (F : fadd rnd (fmul rnd (inject_Z k) 2) 1 == inject_Z (k * 2 + 1)).
  { unfold fadd, fmul. rewrite (r_comp _ HR (rnd (inject_Z k * 2) + 1) (inject_Z (k * 2 + 1))); [apply rnd_int; lia|].
    rewrite (r_comp _ HR (inject_Z k * 2) (inject_Z (k * 2))) by (rewrite inject_Z_mult; reflexivity). rewrite rnd_int by lia. rewrite inject_Z_plus. reflexivity. }
  unfold Qtrunc. replace (Qle_bool 0 (fadd rnd (fmul rnd (inject_Z k) 2) 1)) with true.
  - rewrite (Qfloor_comp _ _ F). apply Qfloor_Z.
  - symmetry. apply Qle_bool_iff. rewrite F. change 0 with (inject_Z 0). rewrite <- Zle_Qle. lia.
Qed.
End Rounding.
