(** Proofs about FastModel.v: any points *)
From Coq Require Import List Reals Lia Lra ZArith Permutation Sorted.
From Verif Require Import Prelude FieldReal CoilProofs ShapeModel ShapeProofs FastModel FastSpec FastProofs FastStar FastConvex.
Import ListNotations.
Open Scope R_scope.

Section Angles.
Variables (n : nat) (P : nat -> R * R) (u rho : nat -> R).
Hypothesis Hn : (0 < n)%nat.
Let c := centre n P.
Hypothesis HE : forall k, (k < n)%nat -> from c (P k) = (rho k * sin (u k), rho k * cos (u k)).
Hypothesis Hr : forall k, (k < n)%nat -> 0 <= rho k.
Hypothesis Hz : forall k, (k < n)%nat -> rho k = 0 -> u k = 0.
Hypothesis Hu : forall k, (k < n)%nat -> - PI < u k <= PI.
Hypothesis Hs : forall j k, (j <= k)%nat -> (k < n)%nat -> u j <= u k.

Lemma rho_pos k : (k < n)%nat -> u k <> 0 -> 0 < rho k.
Proof. intros Hk H. destruct (Hr k Hk) as [L|E]; [exact L|]. exfalso. apply H, Hz; [exact Hk|lra]. Qed.
Lemma bal s : sum n (fun k => rho k * sin (u k - s)) = 0.
Proof.
  rewrite (sum_ext n _ (fun k => cos s * fst (P k) + - sin s * snd (P k) + (sin s * snd c - cos s * fst c))).
  - rewrite sum_affine by exact Hn. fold c. ring.
  - intros k Hk. pose proof (HE k Hk) as E. unfold from in E.
    assert (E1 : rho k * sin (u k) = fst (P k) - fst c) by exact (eq_sym (f_equal fst E)).
    assert (E2 : rho k * cos (u k) = snd (P k) - snd c) by exact (eq_sym (f_equal snd E)).
    rewrite sin_minus. transitivity (cos s * (rho k * sin (u k)) - sin s * (rho k * cos (u k))); [ring|]. rewrite E1, E2. ring.
Qed.
Lemma sum_neg f j : (forall k, (k < n)%nat -> f k <= 0) -> (j < n)%nat -> f j < 0 -> sum n f < 0.
Proof.
  intros A Hj B. assert (Q : 0 < sum n (fun k => -1 * f k)) by (apply (sum_pos n _ j); [intros k Hk; specialize (A k Hk); lra|exact Hj|lra]).
  rewrite sum_scale in Q. lra.
Qed.
Lemma neg_sin_back x : PI <= x <= 2 * PI -> sin x <= 0.
Proof. intros [A B]. apply sin_le_0; assumption. Qed.
Lemma term_pos k : (S k < n)%nat -> 0 <= rho k * rho (S k) * sin (u (S k) - u k).
Proof.
  intros Hk. pose proof PI_RGT_0 as HPI0. pose proof (Hs k (S k) ltac:(lia) Hk) as L. pose proof (Hu k ltac:(lia)) as U1. pose proof (Hu (S k) Hk) as U2.
  pose proof (Hr k ltac:(lia)) as R1. pose proof (Hr (S k) Hk) as R2.
  destruct (Rle_dec (u (S k) - u k) PI) as [G|G].
  - apply Rmult_le_pos; [apply Rmult_le_pos; assumption|]. apply sin_ge_0; lra.
  - destruct R2 as [R2|R2]; [exfalso|rewrite <- R2; lra].
    pose proof (bal (u k)) as B. assert (Q : sum n (fun i => rho i * sin (u i - u k)) < 0); [|lra].
    apply (sum_neg _ (S k)); [|exact Hk|].
    + intros i Hi. pose proof (Hr i Hi) as Ri. pose proof (Hu i Hi) as Ui. assert (sin (u i - u k) <= 0); [|nra].
      destruct (Nat.le_gt_cases i k) as [H|H].
      * pose proof (Hs i k H ltac:(lia)). assert (0 <= sin (u k - u i)) by (apply sin_ge_0; lra). rewrite <- (Ropp_minus_distr (u k) (u i)), sin_neg. lra.
      * pose proof (Hs (S k) i H Hi). apply sin_le_0; lra.
    + assert (sin (u (S k) - u k) < 0) by (apply sin_lt_0; lra). nra.
Qed.
Lemma close_pos : 0 <= - (rho (n - 1)%nat * rho 0%nat * sin (u (n - 1)%nat - u 0%nat)).
Proof.
  pose proof PI_RGT_0 as HPI0. assert (Hm : (n - 1 < n)%nat) by lia. pose proof (Hs 0%nat (n - 1)%nat ltac:(lia) Hm) as L. pose proof (Hu 0%nat Hn) as U1. pose proof (Hu (n - 1)%nat Hm) as U2.
  pose proof (Hr 0%nat Hn) as R1. pose proof (Hr (n - 1)%nat Hm) as R2.
  destruct (Rle_dec PI (u (n - 1)%nat - u 0%nat)) as [G|G].
  - assert (sin (u (n - 1)%nat - u 0%nat) <= 0) by (apply sin_le_0; lra). assert (0 <= rho (n - 1)%nat * rho 0%nat) by (apply Rmult_le_pos; assumption). nra.
  - destruct (Req_dec (u (n - 1)%nat - u 0%nat) 0) as [Z|Z]; [rewrite Z, sin_0; lra|].
    destruct R2 as [R2|R2]; [exfalso|rewrite <- R2; lra].
    pose proof (bal (u 0%nat)) as B. assert (Q : 0 < sum n (fun i => rho i * sin (u i - u 0%nat))); [|lra].
    apply (sum_pos n _ (n - 1)%nat); [|exact Hm|].
    + intros i Hi. apply Rmult_le_pos; [apply Hr; exact Hi|]. pose proof (Hs 0%nat i ltac:(lia) Hi). pose proof (Hs i (n - 1)%nat ltac:(lia) Hm). apply sin_ge_0; lra.
    + apply Rmult_lt_0_compat; [exact R2|]. apply sin_gt_0; lra.
Qed.
Lemma angle_area : orient_sum (map P (seq 0 n)) = - (rho (n - 1)%nat * rho 0%nat * sin (u (n - 1)%nat - u 0%nat)) + sum (n - 1) (fun k => rho k * rho (S k) * sin (u (S k) - u k)).
Proof.
  remember (n - 1)%nat as m eqn:Em. assert (En : n = S m) by lia.
  assert (Q : map P (seq 0 n) = map P (seq 0 (S m))) by (rewrite <- En; reflexivity). rewrite Q, (orient_cross P m c).
  rewrite (HE m ltac:(lia)), (HE 0%nat Hn).
  rewrite (sum_ext m (fun k => cross (from c (P k)) (from c (P (S k)))) (fun k => -1 * (rho k * rho (S k) * sin (u (S k) - u k)))).
  - rewrite (sum_scale m (-1) (fun k => rho k * rho (S k) * sin (u (S k) - u k))). unfold cross. cbn [fst snd]. rewrite sin_minus. ring.
  - intros k Hk. rewrite (HE k ltac:(lia)), (HE (S k) ltac:(lia)). unfold cross. cbn [fst snd]. rewrite sin_minus. ring.
Qed.
Lemma angle_area_nonneg : 0 <= orient_sum (map P (seq 0 n)).
Proof.
  rewrite angle_area. pose proof close_pos. assert (0 <= sum (n - 1) (fun k => rho k * rho (S k) * sin (u (S k) - u k))); [|lra].
  apply sum_nonneg. intros k Hk. apply term_pos. lia.
Qed.
Lemma sum_zero_each m f : (forall k, (k < m)%nat -> 0 <= f k) -> sum m f = 0 -> forall k, (k < m)%nat -> f k = 0.
Proof.
  intros A B k Hk. destruct (A k Hk) as [L|E]; [|lra]. pose proof (sum_pos m f k A Hk L). lra.
Qed.
Lemma sin_0_small x : 0 <= x < PI -> sin x = 0 -> x = 0.
Proof. intros H E. destruct (Req_dec x 0) as [|N]; [assumption|]. assert (0 < sin x) by (apply sin_gt_0; lra). lra. Qed.

Section Flat.
Hypothesis Flat : orient_sum (map P (seq 0 n)) = 0.
Lemma flat_terms : rho (n - 1)%nat * rho 0%nat * sin (u (n - 1)%nat - u 0%nat) = 0 /\ forall k, (S k < n)%nat -> rho k * rho (S k) * sin (u (S k) - u k) = 0.
Proof.
  pose proof angle_area as A. rewrite Flat in A. pose proof close_pos.
  assert (T : forall k, (k < n - 1)%nat -> 0 <= rho k * rho (S k) * sin (u (S k) - u k)) by (intros k Hk; apply term_pos; lia).
  pose proof (sum_nonneg (n - 1) _ T). split; [lra|]. intros k Hk. apply (sum_zero_each (n - 1) (fun k => rho k * rho (S k) * sin (u (S k) - u k)) T); [lra|lia].
Qed.
Lemma flat_step k : (S k < n)%nat -> 0 < u k \/ u (S k) < 0 -> u k = u (S k).
Proof.
  intros Hk H. pose proof (proj2 flat_terms k Hk) as T. pose proof (Hs k (S k) ltac:(lia) Hk) as L. pose proof (Hu k ltac:(lia)) as U1. pose proof (Hu (S k) Hk) as U2.
  pose proof (rho_pos k ltac:(lia) ltac:(lra)) as R1. pose proof (rho_pos (S k) Hk ltac:(lra)) as R2.
  assert (S0 : sin (u (S k) - u k) = 0). { destruct (Rmult_integral _ _ T) as [Z|Z]; [|exact Z]. destruct (Rmult_integral _ _ Z); lra. }
  assert (u (S k) - u k = 0) by (apply sin_0_small; [lra|exact S0]). lra.
Qed.
Lemma flat_side j k : (j <= k)%nat -> (k < n)%nat -> 0 < u j \/ u k < 0 -> u j = u k.
Proof.
  revert j. induction k as [|k IH]; intros j H1 H2 H; [replace j with 0%nat by lia; reflexivity|].
  destruct (Nat.eq_dec j (S k)) as [->|Ne]; [reflexivity|]. pose proof (Hs k (S k) ltac:(lia) H2).
  assert (E : u j = u k) by (apply IH; [lia|lia|lra]). rewrite E. apply flat_step; [exact H2|lra].
Qed.
Lemma flat_opposite i j : (i < n)%nat -> (j < n)%nat -> u i < 0 -> 0 < u j -> sin (u j - u i) = 0.
Proof.
  intros Hi Hj A B. pose proof (flat_side 0 i ltac:(lia) Hi (or_intror A)) as E1. pose proof (flat_side j (n - 1) ltac:(lia) ltac:(lia) (or_introl B)) as E2.
  pose proof (proj1 flat_terms) as T. rewrite E1, <- E2 in T.
  assert (R1 : 0 < rho (n - 1)%nat) by (apply rho_pos; [lia|lra]). assert (R2 : 0 < rho 0%nat) by (apply rho_pos; [lia|lra]).
  destruct (Rmult_integral _ _ T) as [Z|Z]; [|exact Z]. destruct (Rmult_integral _ _ Z); lra.
Qed.
Lemma flat_up i j : (i <= j)%nat -> (j < n)%nat -> 0 < rho i -> 0 < rho j -> sin (u j - u i) = 0.
Proof.
  intros Hij Hj Ri Rj. pose proof PI_RGT_0 as HPI0. assert (Hi : (i < n)%nat) by lia. pose proof (Hs i j Hij Hj) as L. pose proof (Hu i Hi) as Ui. pose proof (Hu j Hj) as Uj.
  destruct (Rlt_dec 0 (u i)) as [C1|C1]; [rewrite (flat_side i j Hij Hj (or_introl C1)), Rminus_diag_eq, sin_0; reflexivity|].
  destruct (Rlt_dec (u j) 0) as [C2|C2]; [rewrite (flat_side i j Hij Hj (or_intror C2)), Rminus_diag_eq, sin_0; reflexivity|].
  destruct (Req_dec (u i) 0) as [Z1|Z1], (Req_dec (u j) 0) as [Z2|Z2].
  - rewrite Z1, Z2, Rminus_0_r. apply sin_0.
  - destruct (Req_dec (u j) PI) as [E|E]; [rewrite Z1, E, Rminus_0_r; apply sin_PI|exfalso].
    pose proof (bal (u j)) as B. assert (Q : sum n (fun k => rho k * sin (u k - u j)) < 0); [|lra].
    apply (sum_neg _ i); [|exact Hi|].
    + intros k Hk. pose proof (Hr k Hk). destruct (Rlt_dec 0 (u k)) as [G|G].
      * assert (Ek : u k = u j). { destruct (Nat.le_ge_cases k j); [apply flat_side; [assumption|exact Hj|left; exact G]|symmetry; apply flat_side; [assumption|exact Hk|left; lra]]. }
        rewrite Ek, Rminus_diag_eq by reflexivity. rewrite sin_0. lra.
      * destruct (Req_dec (u k) 0) as [Zk|Zk].
        -- rewrite Zk, Rminus_0_l, sin_neg. assert (0 <= sin (u j)) by (apply sin_ge_0; lra). nra.
        -- assert (sin (u j - u k) = 0) by (apply flat_opposite; lra || assumption). rewrite <- (Ropp_minus_distr (u j) (u k)), sin_neg. nra.
    + rewrite Z1, Rminus_0_l, sin_neg. assert (0 < sin (u j)) by (apply sin_gt_0; lra). nra.
  - exfalso. pose proof (bal (u i)) as B. assert (Q : 0 < sum n (fun k => rho k * sin (u k - u i))); [|lra].
    apply (sum_pos n _ j); [|exact Hj|].
    + intros k Hk. pose proof (Hr k Hk). destruct (Rlt_dec (u k) 0) as [G|G].
      * assert (Ek : u k = u i). { destruct (Nat.le_ge_cases k i); [apply flat_side; [assumption|exact Hi|right; lra]|symmetry; apply flat_side; [assumption|exact Hk|right; exact G]]. }
        rewrite Ek, Rminus_diag_eq by reflexivity. rewrite sin_0. lra.
      * destruct (Req_dec (u k) 0) as [Zk|Zk].
        -- rewrite Zk, Rminus_0_l. assert (0 <= sin (- u i)) by (apply sin_ge_0; lra). nra.
        -- assert (sin (u k - u i) = 0) by (apply flat_opposite; lra || assumption). nra.
    + rewrite Z2, Rminus_0_l. assert (0 < sin (- u i)) by (apply sin_gt_0; lra). nra.
  - apply flat_opposite; lra || assumption.
Qed.
Lemma flat_cross i j : (i < n)%nat -> (j < n)%nat -> cross (from c (P i)) (from c (P j)) = 0.
Proof.
  intros Hi Hj. rewrite (HE i Hi), (HE j Hj). transitivity (rho i * rho j * sin (u i - u j)); [unfold cross; cbn [fst snd]; rewrite sin_minus; ring|].
  destruct (Hr i Hi) as [Ri|Ri]; [|rewrite <- Ri; ring]. destruct (Hr j Hj) as [Rj|Rj]; [|rewrite <- Rj; ring].
  destruct (Nat.le_ge_cases j i).
  - rewrite (flat_up j i) by assumption. ring.
  - rewrite <- (Ropp_minus_distr (u j) (u i)), sin_neg, (flat_up i j) by assumption. ring.
Qed.
Lemma flat_line a b d : (a < n)%nat -> (b < n)%nat -> (d < n)%nat -> orient (P a) (P b) (P d) = 0.
Proof.
  intros Ha Hb Hd. transitivity (cross (from c (P a)) (from c (P b)) + cross (from c (P b)) (from c (P d)) + cross (from c (P d)) (from c (P a))).
  - unfold orient, cross, from. cbn [fst snd]. ring.
  - rewrite !flat_cross by assumption. ring.
Qed.
End Flat.
End Angles.

(** the points in the order of the code *)
Lemma polar_any x y : x = sqrt (x ^ 2 + y ^ 2) * cos (atan2 y x) /\ y = sqrt (x ^ 2 + y ^ 2) * sin (atan2 y x) /\ (sqrt (x ^ 2 + y ^ 2) = 0 -> atan2 y x = 0).
Proof.
  destruct (Req_dec x 0) as [->|Hx].
  - destruct (Req_dec y 0) as [->|Hy].
    + replace (0 ^ 2 + 0 ^ 2) with 0 by ring. rewrite sqrt_0. repeat split; try ring. intros _. unfold atan2. destruct (Rlt_dec 0 0); lra.
    + destruct (polar 0 y (or_intror Hy)) as [A [B C]]. repeat split; [exact A|exact B|intros; lra].
  - destruct (polar x y (or_introl Hx)) as [A [B C]]. repeat split; [exact A|exact B|intros; lra].
Qed.
Lemma ss_nth {A} (Q : A -> A -> Prop) l d : StronglySorted Q l -> forall j k, (j < k)%nat -> (k < length l)%nat -> Q (nth j l d) (nth k l d).
Proof.
  induction 1 as [|x l Hl IH Hx]; intros j k H1 H2; [cbn in H2; lia|]. cbn [length] in H2. destruct k as [|k]; [lia|]. destruct j as [|j]; cbn [nth].
  - rewrite Forall_forall in Hx. apply Hx, nth_In. lia.
  - apply IH; lia.
Qed.
Lemma orient_zero_two pts : (length pts < 3)%nat -> forall a b c, In a pts -> In b pts -> In c pts -> orient a b c = 0.
Proof.
  intros H a b c Ha Hb Hc. destruct pts as [|x [|y [|z pts]]]; cbn [length In] in *; try lia; unfold orient.
  - destruct Ha as [<-|[]], Hb as [<-|[]], Hc as [<-|[]]; ring.
  - destruct Ha as [<-|[<-|[]]], Hb as [<-|[<-|[]]], Hc as [<-|[<-|[]]]; ring.
Qed.

Section Any.
Variable argsort : list R -> list nat.
Hypothesis Hsort : sorts argsort.
Variable pts : list (R * R).
Let n := length pts.
Let P k := nth k (taken argsort pts) (0, 0).
Let u k := key pts (P k).
Let rho k := sqrt ((snd (P k) - mean (map snd pts)) ^ 2 + (fst (P k) - mean (map fst pts)) ^ 2).
Lemma any_taken : taken argsort pts = map P (seq 0 n).
Proof. unfold P, n. rewrite <- (Permutation_length (taken_perm argsort Hsort pts)), nth_all. reflexivity. Qed.
Lemma any_perm : Permutation pts (map P (seq 0 n)).
Proof. rewrite <- any_taken. apply Permutation_sym, taken_perm, Hsort. Qed.
Lemma any_in p : In p pts -> exists k, (k < n)%nat /\ p = P k.
Proof.
  intros H. apply (Permutation_in _ any_perm) in H. apply in_map_iff in H. destruct H as [k [<- Hk]]. apply in_seq in Hk. exists k. split; [lia|reflexivity].
Qed.
Lemma any_from k : (k < n)%nat -> from (centre n P) (P k) = (rho k * sin (u k), rho k * cos (u k)).
Proof.
  intros Hk. rewrite <- (mean_centre n P pts any_perm). unfold from. cbn [fst snd]. unfold rho, u, key.
  destruct (polar_any (snd (P k) - mean (map snd pts)) (fst (P k) - mean (map fst pts))) as [A [B _]]. rewrite <- A, <- B. reflexivity.
Qed.
Lemma any_rho k : (k < n)%nat -> 0 <= rho k.
Proof. intros _. apply sqrt_pos. Qed.
Lemma any_zero k : (k < n)%nat -> rho k = 0 -> u k = 0.
Proof. intros _. unfold rho, u, key. apply polar_any. Qed.
Lemma any_range k : (k < n)%nat -> - PI < u k <= PI.
Proof. intros _. apply atan2_range. Qed.
Lemma any_sorted j k : (j <= k)%nat -> (k < n)%nat -> u j <= u k.
Proof.
  intros H1 H2. destruct (Nat.eq_dec j k) as [->|]; [lra|]. unfold u, P.
  apply (ss_nth (fun a b => key pts a <= key pts b) (taken argsort pts) (0, 0) (taken_sorted argsort Hsort pts)); [lia|].
  rewrite (Permutation_length (taken_perm argsort Hsort pts)). exact H2.
Qed.
Lemma any_area : 0 <= orient_sum (taken argsort pts).
Proof.
  destruct (Nat.eq_dec n 0) as [E|E].
  - rewrite any_taken, E. unfold orient_sum. cbn. lra.
  - rewrite any_taken. apply (angle_area_nonneg n P u rho ltac:(lia) any_from any_rho any_range any_sorted).
Qed.
Lemma any_order l : fast argsort pts = Ok l -> l = rev (taken argsort pts).
Proof.
  intros H. pose proof any_area as A. destruct (fast_result argsort Hsort pts l H) as [_ [O [->|E]]]; [lra|exact E].
Qed.
Lemma any_seen l : fast argsort pts = Ok l -> Permutation l pts /\ seen n (centre n (fun k => nth k pts (0, 0))) (fun k => nth k l (0, 0)).
Proof.
  intros H. rewrite (any_order l H). pose proof (taken_perm argsort Hsort pts) as Tp. split; [apply Permutation_trans with (2 := Tp), Permutation_sym, Permutation_rev|].
  assert (Ec : centre n (fun k => nth k pts (0, 0)) = centre n P).
  { rewrite <- (mean_centre n P pts any_perm). symmetry. apply mean_centre. unfold n. rewrite nth_all. reflexivity. }
  rewrite Ec. exists (fun k => PI / 2 - u (n - 1 - k)%nat), (fun k => rho (n - 1 - k)%nat). split.
  - intros k Hk. assert (Hk' : (n - 1 - k < n)%nat) by lia. pose proof (any_range _ Hk'). split; [apply any_rho; exact Hk'|]. split; [lra|].
    rewrite cos_shift, sin_shift. pose proof (any_from _ Hk') as E. unfold from in E.
    rewrite any_taken, map_rev_seq. rewrite (nth_indep _ (0, 0) ((fun k => P (n - 1 - k)%nat) 0%nat)) by (rewrite map_length, seq_length; exact Hk).
    rewrite (map_nth (fun k => P (n - 1 - k)%nat)), seq_nth by exact Hk. cbn [Nat.add].
    pose proof (f_equal fst E) as E1. pose proof (f_equal snd E) as E2. cbn [fst snd] in E1, E2. rewrite (surjective_pairing (P (n - 1 - k)%nat)). f_equal; lra.
  - intros j k H1 H2. pose proof (any_sorted (n - 1 - k) (n - 1 - j) ltac:(lia) ltac:(lia)). lra.
Qed.
Lemma any_flat : orient_sum (taken argsort pts) = 0 -> forall a b c, In a pts -> In b pts -> In c pts -> orient a b c = 0.
Proof.
  intros F a b c Ha Hb Hc. destruct (any_in a Ha) as [i [Hi ->]], (any_in b Hb) as [j [Hj ->]], (any_in c Hc) as [k [Hk ->]].
  rewrite any_taken in F. apply (flat_line n P u rho ltac:(lia) any_from any_rho any_zero any_range any_sorted F); assumption.
Qed.
Lemma flat_any : (forall a b c, In a pts -> In b pts -> In c pts -> orient a b c = 0) -> orient_sum (taken argsort pts) = 0.
Proof.
  intros F. destruct (Nat.eq_dec n 0) as [E|E]; [rewrite any_taken, E; unfold orient_sum; cbn; lra|].
  rewrite any_taken. remember (n - 1)%nat as m eqn:Em. assert (En : n = S m) by lia. 
  assert (I : forall k, (k < n)%nat -> In (P k) pts).
  { intros k Hk. apply (Permutation_in _ (Permutation_sym any_perm)). apply in_map, in_seq. lia. }
  assert (C : forall i j, (i < n)%nat -> (j < n)%nat -> cross (from (centre n P) (P i)) (from (centre n P) (P j)) = 0).
  { intros i j Hi Hj. pose proof (cross_sum n P (P i) (P j) ltac:(lia)) as Q. rewrite (sum_ext n _ (fun _ => 0)) in Q by (intros k Hk; apply F; apply I; assumption).
    rewrite sum_const in Q. assert (INR n <> 0) by (apply not_0_INR; lia). destruct (Rmult_integral _ _ (eq_trans Q (Rmult_0_r _))); [contradiction|assumption]. }
  assert (Q : map P (seq 0 n) = map P (seq 0 (S m))) by (rewrite <- En; reflexivity). rewrite Q, (orient_cross P m (centre n P)), C by lia.
  rewrite (sum_ext m _ (fun _ => 0)) by (intros k Hk; apply C; lia). rewrite sum_const. ring.
Qed.
Lemma fast_flat : (forall a b c, In a pts -> In b pts -> In c pts -> orient a b c = 0) -> fast argsort pts = Err AssertionError.
Proof.
  intros F. rewrite fast_taken. unfold rz_init. rewrite !map_length, Nat.eqb_refl. cbn [negb]. rewrite combine_fst_snd, (flat_any F).
  destruct (Req_EM_T 0 0) as [_|N]; [reflexivity|contradiction N; reflexivity].
Qed.
Lemma fast_round : (exists a b c, In a pts /\ In b pts /\ In c pts /\ orient a b c <> 0) -> fast argsort pts = Ok (rev (taken argsort pts)).
Proof.
  intros [a [b [c [Ha [Hb [Hc Ho]]]]]]. assert (L : (3 <= n)%nat).
  { destruct (Nat.lt_ge_cases n 3) as [H|H]; [|exact H]. exfalso. apply Ho, (orient_zero_two pts H); assumption. }
  assert (O : 0 < orient_sum (taken argsort pts)).
  { destruct any_area as [A|A]; [exact A|]. exfalso. apply Ho, (any_flat (eq_sym A)); assumption. }
  apply fast_clockwise.
  - symmetry. apply rev_involutive.
  - rewrite rev_length, (Permutation_length (taken_perm argsort Hsort pts)). exact L.
  - rewrite rev_involutive. exact O.
  - rewrite any_taken, orient_rev. rewrite any_taken in O. lra.
Qed.
End Any.
