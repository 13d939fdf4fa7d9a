(** The area compared by the orientation assertion, and the rules of the float arithmetic. *)
From Coq Require Import List ZArith QArith Qabs Lia Lqa Bool.
From Verif Require Import Prelude PreludeFacts PolModel BoundarySpec.
Import ListNotations.
Open Scope Q_scope.

Lemma qabs_is q : qabs q == Qabs q.
Proof.
  unfold qabs. destruct (Qlt_bool q 0) eqn:E.
  - apply Qlt_bool_iff in E. rewrite Qabs_neg by lra. reflexivity.
  - apply Qlt_bool_false_iff in E. rewrite Qabs_pos by lra. reflexivity.
Qed.

Section Fan.
Variables (r z : Z -> Q).
Let c i j := r i * z j - r j * z i.
Let P (i : Z) : pt := (r i, z i).

Lemma fan m : (0 <= m)%Z ->
  qsum (map (fun i => c i (i + 1)%Z) (zrange 0 m)) + c m 0%Z ==
  qsum (map (fun i => orient (P 0) (P i) (P (i + 1)%Z)) (zrange 1 m)).
Proof.
  intros Hm. rewrite <- (Z2Nat.id m) by assumption. generalize (Z.to_nat m) as k. clear m Hm.
  induction k as [|k IH].
  - change (Z.of_nat 0) with 0%Z. unfold c. cbn. ring.
  - assert (E : forall f : Z -> Q, qsum (map f (zrange 0 (Z.of_nat (S k)))) == qsum (map f (zrange 0 (Z.of_nat k))) + f (Z.of_nat k)).
    { intros f. unfold zrange. replace (Z.to_nat (Z.of_nat (S k) - 0)) with (S k) by lia.
      replace (Z.to_nat (Z.of_nat k - 0)) with k by lia. rewrite seq_S, !map_app, qsum_app. cbn [map qsum].
      replace (0 + Z.of_nat (0 + k))%Z with (Z.of_nat k) by lia. ring. }
    rewrite E. clear E. destruct k as [|k].
    + unfold c. cbn. ring.
    + assert (E : forall f : Z -> Q, qsum (map f (zrange 1 (Z.of_nat (S (S k))))) == qsum (map f (zrange 1 (Z.of_nat (S k)))) + f (Z.of_nat (S k))).
      { intros f. unfold zrange. replace (Z.to_nat (Z.of_nat (S (S k)) - 1)) with (S k) by lia.
        replace (Z.to_nat (Z.of_nat (S k) - 1)) with k by lia. rewrite seq_S, !map_app, qsum_app. cbn [map qsum].
        replace (1 + Z.of_nat (0 + k))%Z with (Z.of_nat (S k)) by lia. ring. }
      rewrite E, <- IH. unfold orient, P, c. cbn [fst snd].
      replace (Z.of_nat (S (S k))) with (Z.of_nat (S k) + 1)%Z by lia. ring.
Qed.
End Fan.

Lemma shoelace_fan n r z : (1 <= n)%Z ->
  shoelace2 n r z == qsum (map (fun i => orient (r 0%Z, z 0%Z) (r i, z i) (r (i + 1)%Z, z (i + 1)%Z)) (zrange 1 (n - 1))).
Proof.
  intros Hn. rewrite <- (fan r z (n - 1)) by lia. unfold shoelace2.
  assert (E : zrange 0 n = (zrange 0 (n - 1) ++ [n - 1])%list%Z).
  { unfold zrange. replace (Z.to_nat (n - 0)) with (S (Z.to_nat (n - 1 - 0))) by lia.
    rewrite seq_S, map_app. cbn [map]. f_equal. f_equal. lia. }
  rewrite E, map_app, qsum_app. cbn [map qsum].
  replace (n - 1 + 1)%Z with n by lia. rewrite Z.mod_same by lia.
  match goal with |- ?a + _ == ?b + _ => assert (a == b) as -> end; [|ring].
  assert (H : forall l, (forall i, In i l -> (0 <= i < n - 1)%Z) ->
    qsum (map (fun i => r i * z ((i + 1) mod n)%Z - r ((i + 1) mod n)%Z * z i) l) ==
    qsum (map (fun i => r i * z (i + 1)%Z - r (i + 1)%Z * z i) l)).
  { induction l as [|i l IH]; intros H; [reflexivity|]. cbn [map qsum]. rewrite IH by (intros; apply H; now right).
    specialize (H i (or_introl eq_refl)). rewrite Z.mod_small by lia. reflexivity. }
  apply H. intros i Hi. now apply in_zrange in Hi.
Qed.

Lemma row_area_is (g : grid2) x : (1 <= g_nz g)%Z ->
  row_area g x == Qabs (qsum (map (fun i => orient (g_R g x 0%Z, g_Z g x 0%Z) (g_R g x i, g_Z g x i)
     (g_R g x (i + 1)%Z, g_Z g x (i + 1)%Z)) (zrange 1 (g_nz g - 1)))) / 2.
Proof. intros H. unfold row_area. rewrite qabs_is, shoelace_fan by assumption. reflexivity. Qed.

Lemma float_rules (zneg s t : bool) p q :
  (~ q == 0 -> fdiv zneg (Fin p) (Fin q) = Fin (p / q)) /\
  (q == 0 -> (p == 0 -> fdiv zneg (Fin p) (Fin q) = NaN) /\ (0 < p -> fdiv zneg (Fin p) (Fin q) = Inf zneg) /\
     (p < 0 -> fdiv zneg (Fin p) (Fin q) = Inf (negb zneg)) /\ fmul (Fin q) (Inf s) = NaN /\ fmul (Inf s) (Fin q) = NaN) /\
  fdiv zneg (Fin p) (Inf s) = Fin 0 /\
  (0 < q -> fmul (Fin q) (Inf s) = Inf s /\ fmul (Inf s) (Fin q) = Inf s /\ fdiv zneg (Inf s) (Fin q) = Inf s) /\
  (q < 0 -> fmul (Fin q) (Inf s) = Inf (negb s) /\ fmul (Inf s) (Fin q) = Inf (negb s) /\ fdiv zneg (Inf s) (Fin q) = Inf (negb s)) /\
  fsub (Fin p) (Inf s) = Inf (negb s) /\ fsub (Inf s) (Fin p) = Inf s /\ fsub (Inf s) (Inf s) = NaN /\ fsub (Inf s) (Inf (negb s)) = Inf s /\
  (flt (Inf s) (Inf t) = true <-> s = true /\ t = false) /\ flt (Inf s) (Fin p) = s /\ flt (Fin p) (Inf s) = negb s /\
  flt NaN (Fin p) = false /\ flt (Fin p) NaN = false.
Proof.
  unfold fdiv, fmul, fsub, fadd, fopp, flt.
  assert (Zt : forall a, a == 0 -> qzero a = true) by (intros a; apply Qeq_bool_iff).
  assert (Zf : forall a, ~ a == 0 -> qzero a = false).
  { intros a H. unfold qzero. destruct (Qeq_bool a 0) eqn:E; [|reflexivity]. now apply Qeq_bool_iff in E. }
  assert (Nt : forall a, a < 0 -> qneg a = true) by (intros a; apply Qlt_bool_iff).
  assert (Nf : forall a, 0 <= a -> qneg a = false) by (intros a; apply Qlt_bool_false_iff).
  repeat split; intros;
    try (rewrite ?(Zt q), ?(Zf q) by lra); try (rewrite ?(Zt p), ?(Zf p) by lra);
    try (rewrite ?(Nt q), ?(Nf q) by lra); try (rewrite ?(Nt p), ?(Nf p) by lra);
    try (destruct s, t; cbn in *; intuition congruence); try (destruct s, zneg; reflexivity).
Qed.
