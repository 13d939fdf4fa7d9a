(** Proofs about FastModel.v: a convex polygon goes around the mean of its corners *)
From Coq Require Import List Reals Lia Lra ZArith Permutation Sorted.
From Verif Require Import Prelude FieldReal CoilProofs ShapeModel ShapeProofs FastModel FastSpec FastProofs FastStar.
Import ListNotations.
Open Scope R_scope.

Lemma turn_of x y : x <> 0 \/ y <> 0 -> exists rho phi, 0 < rho /\ 0 <= phi < 2 * PI /\ x = rho * cos phi /\ y = rho * sin phi.
Proof.
  intros H. pose proof PI_RGT_0 as HPI0. destruct (polar x y H) as [E1 [E2 Hr]]. pose proof (atan2_range y x) as Ha. remember (atan2 y x) as a. remember (sqrt (x ^ 2 + y ^ 2)) as r.
  destruct (Rlt_dec a 0) as [L|L].
  - exists r, (a + 2 * PI). destruct (cos_sin_turns a 1) as [C S]. replace (a + 2 * PI * 1) with (a + 2 * PI) in C, S by ring. rewrite C, S. repeat split; try assumption; lra.
  - exists r, a. repeat split; try assumption; lra.
Qed.
Lemma sin_pos_inv x : - PI < x < PI -> 0 < sin x -> 0 < x.
Proof.
  intros H S. destruct (Rlt_dec 0 x) as [L|L]; [exact L|exfalso]. destruct (Req_dec x 0) as [->|N]; [rewrite sin_0 in S; lra|].
  assert (0 < sin (- x)) by (apply sin_gt_0; lra). rewrite sin_neg in *. lra.
Qed.
Lemma sum_affine n (P : nat -> R * R) a b c0 : (0 < n)%nat ->
  sum n (fun i => a * fst (P i) + b * snd (P i) + c0) = INR n * (a * fst (centre n P) + b * snd (centre n P) + c0).
Proof.
  intros Hn. assert (INR n <> 0) by (apply not_0_INR; lia).
  rewrite (sum_plus n (fun i => a * fst (P i) + b * snd (P i)) (fun _ => c0)), (sum_plus n (fun i => a * fst (P i)) (fun i => b * snd (P i))), !sum_scale, sum_const.
  unfold centre. cbn [fst snd]. field. assumption.
Qed.
Lemma cross_sum n P a b : (0 < n)%nat -> INR n * cross (from (centre n P) a) (from (centre n P) b) = sum n (fun i => orient a b (P i)).
Proof.
  intros Hn. rewrite (sum_ext n _ (fun i => (snd a - snd b) * fst (P i) + (fst b - fst a) * snd (P i) + (fst a * snd b - fst b * snd a))).
  - rewrite sum_affine by exact Hn. unfold cross, from. cbn [fst snd]. ring.
  - intros i _. unfold orient. ring.
Qed.
Lemma orient_cycle a b c : orient a b c = orient b c a.
Proof. unfold orient. ring. Qed.
Lemma orient_same a b : orient a b a = 0 /\ orient a b b = 0.
Proof. unfold orient. split; ring. Qed.

Section Convex.
Variables (n : nat) (P : nat -> R * R).
Hypothesis Hn : (3 <= n)%nat.
Hypothesis Hc : convex n P.
Let c := centre n P.
Lemma HNp : 0 < INR n.
Proof. apply lt_0_INR. lia. Qed.
Lemma next_pos k : (S k < n)%nat -> 0 < cross (from c (P k)) (from c (P (S k))).
Proof.
  intros Hk. pose proof HNp as N. pose proof (cross_sum n P (P k) (P (S k)) ltac:(lia)) as E. fold c in E.
  assert (A : forall i, (i < n)%nat -> i <> k -> i <> S k -> 0 < orient (P k) (P (S k)) (P i)).
  { intros i Hi N1 N2. destruct (Nat.lt_ge_cases i k); [|apply Hc; lia]. rewrite <- orient_cycle. apply Hc; lia. }
  assert (B : 0 < sum n (fun i => orient (P k) (P (S k)) (P i))).
  { destruct k as [|k].
    - apply (sum_pos n _ 2%nat); [|lia|apply A; lia]. intros i Hi. destruct (Nat.eq_dec i 0) as [->|]; [rewrite (proj1 (orient_same _ _)); lra|].
      destruct (Nat.eq_dec i 1) as [->|]; [rewrite (proj2 (orient_same _ _)); lra|]. left. apply A; assumption.
    - apply (sum_pos n _ 0%nat); [|lia|apply A; lia]. intros i Hi. destruct (Nat.eq_dec i (S k)) as [->|]; [rewrite (proj1 (orient_same _ _)); lra|].
      destruct (Nat.eq_dec i (S (S k))) as [->|]; [rewrite (proj2 (orient_same _ _)); lra|]. left. apply A; assumption. }
  nra.
Qed.
Lemma last_pos : 0 < cross (from c (P (n - 1)%nat)) (from c (P 0%nat)).
Proof.
  pose proof HNp as N. pose proof (cross_sum n P (P (n - 1)%nat) (P 0%nat) ltac:(lia)) as E. fold c in E.
  assert (A : forall i, (i < n)%nat -> i <> (n - 1)%nat -> i <> 0%nat -> 0 < orient (P (n - 1)%nat) (P 0%nat) (P i)).
  { intros i Hi N1 N2. rewrite orient_cycle. apply Hc; lia. }
  assert (B : 0 < sum n (fun i => orient (P (n - 1)%nat) (P 0%nat) (P i))).
  { apply (sum_pos n _ 1%nat); [|lia|apply A; lia]. intros i Hi. destruct (Nat.eq_dec i (n - 1)) as [->|]; [rewrite (proj1 (orient_same _ _)); lra|].
    destruct (Nat.eq_dec i 0) as [->|]; [rewrite (proj2 (orient_same _ _)); lra|]. left. apply A; assumption. }
  nra.
Qed.
Lemma off_centre k : (k < n)%nat -> fst (from c (P k)) <> 0 \/ snd (from c (P k)) <> 0.
Proof.
  intros Hk. assert (A : exists q, 0 < cross (from c (P k)) q).
  { destruct (Nat.eq_dec k (n - 1)) as [->|]; [exists (from c (P 0%nat)); apply last_pos|]. exists (from c (P (S k))). apply next_pos. lia. }
  destruct A as [q A]. destruct (Req_dec (fst (from c (P k))) 0) as [E|E]; [|left; exact E]. right. intros E2. unfold cross in A. rewrite E, E2 in A. lra.
Qed.
Lemma convex_around : around n c P.
Proof.
  pose proof PI_RGT_0 as HPI0.
  destruct (turn_of _ _ (off_centre 0 ltac:(lia))) as [r0 [t0 [Hr0 [_ [X0 Y0]]]]].
  set (w := (cos t0, sin t0)).
  assert (E0 : from c (P 0%nat) = (r0 * fst w, r0 * snd w)) by (rewrite (surjective_pairing (from c (P 0%nat))), X0, Y0; reflexivity).
  pose (dl := fun k => fst w * fst (from c (P k)) + snd w * snd (from c (P k))).
  pose (d := fun k => cross w (from c (P k))).
  assert (W : fst w * fst w + snd w * snd w = 1) by (unfold w; cbn [fst snd]; pose proof (sin2_cos2 t0) as Q; unfold Rsqr in Q; lra).
  assert (D0 : d 0%nat = 0) by (unfold d; rewrite E0; unfold cross; cbn [fst snd]; ring).
  assert (D1 : 0 < d 1%nat).
  { pose proof (next_pos 0 ltac:(lia)) as A. rewrite E0 in A. unfold d. replace (cross (r0 * fst w, r0 * snd w) (from c (P 1%nat))) with (r0 * cross w (from c (P 1%nat))) in A by (unfold cross; cbn [fst snd]; ring).
    destruct (Rlt_dec 0 (cross w (from c (P 1%nat)))); [assumption|nra]. }
  assert (Dn : d (n - 1)%nat < 0).
  { pose proof last_pos as A. rewrite E0 in A. unfold d. replace (cross (from c (P (n - 1)%nat)) (r0 * fst w, r0 * snd w)) with (- (r0 * cross w (from c (P (n - 1)%nat)))) in A by (unfold cross; cbn [fst snd]; ring).
    destruct (Rlt_dec (cross w (from c (P (n - 1)%nat))) 0); [assumption|nra]. }
  assert (Neg : forall a b, (1 <= a)%nat -> (a < b)%nat -> (b < n)%nat -> d a <= 0 -> d b < 0).
  { intros a b H1 H2 H3 Da. destruct (Nat.eq_dec b (n - 1)) as [->|Nb]; [exact Dn|].
    pose proof (Hc 0%nat a (n - 1)%nat ltac:(lia) ltac:(lia) ltac:(lia)) as O1.
    pose proof (Hc 0%nat b (n - 1)%nat ltac:(lia) ltac:(lia) ltac:(lia)) as O2.
    pose proof (Hc 0%nat a b ltac:(lia) ltac:(lia) ltac:(lia)) as O3.
    assert (I : d b * orient (P 0%nat) (P a) (P (n - 1)%nat) = d a * orient (P 0%nat) (P b) (P (n - 1)%nat) + d (n - 1)%nat * orient (P 0%nat) (P a) (P b) - d 0%nat * orient (P a) (P b) (P (n - 1)%nat)).
    { unfold d, cross, from, orient. cbn [fst snd]. ring. }
    rewrite D0 in I. destruct (Rlt_dec (d b) 0); [assumption|nra]. }
  assert (Ex : forall k, (k < n)%nat -> exists q : R * R, 0 < fst q /\ 0 <= snd q < 2 * PI /\ dl k = fst q * cos (snd q) /\ d k = fst q * sin (snd q)).
  { intros k Hk. destruct (turn_of (dl k) (d k)) as [rho [phi Q]].
    - destruct (Req_dec (dl k) 0) as [Z1|Z1]; [|left; exact Z1]. destruct (Req_dec (d k) 0) as [Z2|Z2]; [|right; exact Z2]. exfalso.
      assert (V1 : fst (from c (P k)) = fst w * dl k - snd w * d k).
      { unfold dl, d, cross. transitivity ((fst w * fst w + snd w * snd w) * fst (from c (P k))); [rewrite W|]; ring. }
      assert (V2 : snd (from c (P k)) = snd w * dl k + fst w * d k).
      { unfold dl, d, cross. transitivity ((fst w * fst w + snd w * snd w) * snd (from c (P k))); [rewrite W|]; ring. }
      rewrite Z1, Z2 in V1, V2. destruct (off_centre k Hk) as [Q|Q]; apply Q; lra.
    - exists (rho, phi). exact Q. }
  assert (Ch : exists rho phi : nat -> R, forall k, (k < n)%nat -> 0 < rho k /\ 0 <= phi k < 2 * PI /\ dl k = rho k * cos (phi k) /\ d k = rho k * sin (phi k)).
  { assert (G : forall m, (m <= n)%nat -> exists rho phi : nat -> R, forall k, (k < m)%nat -> 0 < rho k /\ 0 <= phi k < 2 * PI /\ dl k = rho k * cos (phi k) /\ d k = rho k * sin (phi k)).
    { induction m as [|m IH]; intros Hm; [exists (fun _ => 0), (fun _ => 0); intros; lia|]. destruct (IH ltac:(lia)) as [rho [phi Q]]. destruct (Ex m ltac:(lia)) as [q Qm].
      exists (fun k => if Nat.eqb k m then fst q else rho k), (fun k => if Nat.eqb k m then snd q else phi k). intros k Hk. destruct (Nat.eqb_spec k m) as [->|]; [exact Qm|apply Q; lia]. }
    exact (G n (le_n n)). }
  destruct Ch as [rho [phi Q]].
  assert (Cr : forall j k, (j < n)%nat -> (k < n)%nat -> cross (from c (P j)) (from c (P k)) = rho j * rho k * sin (phi k - phi j)).
  { intros j k Hj Hk. destruct (Q j Hj) as [_ [_ [A1 A2]]], (Q k Hk) as [_ [_ [B1 B2]]]. rewrite sin_minus.
    transitivity (dl j * d k - d j * dl k); [|rewrite A1, A2, B1, B2; ring].
    transitivity ((fst w * fst w + snd w * snd w) * cross (from c (P j)) (from c (P k))); [rewrite W; ring|]. unfold dl, d, cross. ring. }
  assert (Lo : forall k, (k < n)%nat -> 0 < d k -> 0 < phi k < PI).
  { intros k Hk Dk. destruct (Q k Hk) as [Hr [Hp [_ A2]]]. rewrite A2 in Dk. assert (0 < sin (phi k)) by (destruct (Rlt_dec 0 (sin (phi k))); [assumption|nra]).
    split.
    - destruct (Req_dec (phi k) 0) as [Z|]; [rewrite Z, sin_0 in *; lra|lra].
    - destruct (Rlt_dec (phi k) PI); [assumption|]. assert (sin (phi k) <= 0) by (apply sin_le_0; lra). lra. }
  assert (Hi : forall k, (k < n)%nat -> d k < 0 -> PI < phi k).
  { intros k Hk Dk. destruct (Q k Hk) as [Hr [Hp [_ A2]]]. rewrite A2 in Dk. destruct (Rlt_dec PI (phi k)); [assumption|]. assert (0 <= sin (phi k)) by (apply sin_ge_0; lra). nra. }
  assert (Mid : forall k, (1 <= k)%nat -> (k < n)%nat -> d k = 0 -> phi k = PI).
  { intros k H1 Hk Dk. destruct (Q k Hk) as [Hr [Hp [A1 A2]]]. destruct k as [|k]; [lia|]. destruct k as [|k]; [lra|].
    assert (Dp : 0 < d (S k)). { destruct (Rlt_dec 0 (d (S k))) as [|L]; [assumption|]. pose proof (Neg (S k) (S (S k)) ltac:(lia) ltac:(lia) Hk ltac:(lra)). lra. }
    assert (S0 : sin (phi (S (S k))) = 0). { rewrite A2 in Dk. destruct (Rmult_integral _ _ Dk); lra. }
    destruct (sin_eq_O_2PI_0 (phi (S (S k))) ltac:(lra) ltac:(lra) S0) as [Z|[Z|Z]]; [|exact Z|lra]. exfalso.
    pose proof (next_pos (S k) Hk) as N. rewrite Cr in N by lia. rewrite Z, Rminus_0_l, sin_neg in N.
    destruct (Q (S k) ltac:(lia)) as [Hr' [_ [_ A2']]]. rewrite A2' in Dp. nra. }
  assert (P0 : phi 0%nat = 0).
  { destruct (Q 0%nat ltac:(lia)) as [Hr [Hp [A1 A2]]]. rewrite D0 in A2. assert (S0 : sin (phi 0%nat) = 0) by (destruct (Rmult_integral _ _ (eq_sym A2)); lra).
    destruct (sin_eq_O_2PI_0 (phi 0%nat) ltac:(lra) ltac:(lra) S0) as [Z|[Z|Z]]; [exact Z| |lra]. exfalso. rewrite Z, cos_PI in A1.
    assert (dl 0%nat = r0) by (unfold dl; rewrite E0; cbn [fst snd]; transitivity (r0 * (fst w * fst w + snd w * snd w)); [ring|rewrite W; ring]). lra. }
  assert (Inc : forall k, (S k < n)%nat -> phi k < phi (S k)).
  { intros k Hk. destruct k as [|k]; [rewrite P0; apply Lo; [lia|exact D1]|].
    pose proof (next_pos (S k) Hk) as N. rewrite Cr in N by lia. destruct (Q (S k) ltac:(lia)) as [R1 [F1 _]], (Q (S (S k)) ltac:(lia)) as [R2 [F2 _]].
    assert (Sp : 0 < sin (phi (S (S k)) - phi (S k))).
    { destruct (Rlt_dec 0 (sin (phi (S (S k)) - phi (S k)))) as [|L]; [assumption|]. assert (0 < rho (S k) * rho (S (S k))) by nra. nra. }
    destruct (Rlt_dec 0 (d (S k))) as [G|G].
    - pose proof (Lo (S k) ltac:(lia) G). destruct (Rlt_dec 0 (d (S (S k)))) as [G'|G'].
      + pose proof (Lo (S (S k)) ltac:(lia) G'). pose proof (sin_pos_inv (phi (S (S k)) - phi (S k)) ltac:(lra) Sp). lra.
      + destruct (Req_dec (d (S (S k))) 0) as [Z|Z]; [rewrite (Mid (S (S k)) ltac:(lia) ltac:(lia) Z); lra|]. pose proof (Hi (S (S k)) ltac:(lia) ltac:(lra)). lra.
    - assert (PI <= phi (S k)). { destruct (Req_dec (d (S k)) 0) as [Z|Z]; [rewrite (Mid (S k) ltac:(lia) ltac:(lia) Z); lra|]. left. apply Hi; [lia|lra]. }
      pose proof (Neg (S k) (S (S k)) ltac:(lia) ltac:(lia) Hk ltac:(lra)) as Ng. pose proof (Hi (S (S k)) ltac:(lia) Ng). pose proof (sin_pos_inv (phi (S (S k)) - phi (S k)) ltac:(lra) Sp). lra. }
  assert (Mono : forall j k, (j < k)%nat -> (k < n)%nat -> phi j < phi k).
  { intros j k. induction k as [|k IH]; intros H1 H2; [lia|]. destruct (Nat.eq_dec j k) as [->|]; [apply Inc; exact H2|].
    pose proof (IH ltac:(lia) ltac:(lia)). pose proof (Inc k H2). lra. }
  exists (fun k => t0 + phi k), rho. split.
  - intros k Hk. destruct (Q k Hk) as [Hr [Hp [A1 A2]]]. split; [exact Hr|]. rewrite cos_plus, sin_plus.
    assert (V1 : fst (P k) = fst c + (fst w * dl k - snd w * d k)).
    { transitivity (fst c + (fst w * fst w + snd w * snd w) * fst (from c (P k))); [rewrite W; unfold from; cbn [fst]; ring|unfold dl, d, cross; ring]. }
    assert (V2 : snd (P k) = snd c + (snd w * dl k + fst w * d k)).
    { transitivity (snd c + (fst w * fst w + snd w * snd w) * snd (from c (P k))); [rewrite W; unfold from; cbn [snd]; ring|unfold dl, d, cross; ring]. }
    rewrite (surjective_pairing (P k)), V1, V2, A1, A2. unfold w. cbn [fst snd]. f_equal; ring.
  - intros j k H1 H2. pose proof (Mono j k H1 H2). destruct (Q j ltac:(lia)) as [_ [F1 _]], (Q k H2) as [_ [F2 _]]. lra.
Qed.
End Convex.
