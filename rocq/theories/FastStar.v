(** Proofs about FastModel.v: polygons around their centre, and convex polygons *)
From Coq Require Import List Reals Lia Lra ZArith Permutation Sorted.
From Verif Require Import Prelude FieldReal CoilProofs ShapeModel ShapeProofs FastModel FastSpec FastProofs.
Import ListNotations.
Open Scope R_scope.

Lemma rsum_perm l l' : Permutation l l' -> rsum l = rsum l'.
Proof. induction 1; unfold rsum in *; cbn [fold_right] in *; try lra. Qed.
Lemma mean_centre n P pts : Permutation pts (map P (seq 0 n)) -> (mean (map fst pts), mean (map snd pts)) = centre n P.
Proof.
  intros H. unfold mean, centre. rewrite !map_length. rewrite (Permutation_length H), map_length, seq_length.
  rewrite (rsum_perm _ _ (Permutation_map fst H)), (rsum_perm _ _ (Permutation_map snd H)), !map_map, !sum_rsum. reflexivity.
Qed.
Lemma turns x : exists z : Z, - PI < x + 2 * PI * IZR z <= PI.
Proof.
  pose proof PI_RGT_0 as HP. exists (up ((- PI - x) / (2 * PI))).
  destruct (archimed ((- PI - x) / (2 * PI))) as [A B]. remember (IZR (up ((- PI - x) / (2 * PI)))) as u.
  remember ((- PI - x) / (2 * PI)) as q. assert (Q : - PI - x = 2 * PI * q) by (subst q; field; lra). split; nra.
Qed.
Lemma cos_sin_turns x z : cos (x + 2 * PI * IZR z) = cos x /\ sin (x + 2 * PI * IZR z) = sin x.
Proof.
  destruct (Z.le_ge_cases 0 z) as [H|H].
  - replace (x + 2 * PI * IZR z) with (x + 2 * INR (Z.to_nat z) * PI).
    + split; [apply cos_period|apply sin_period].
    + rewrite INR_IZR_INZ, Z2Nat.id by exact H. ring.
  - rewrite <- (cos_period (x + 2 * PI * IZR z) (Z.to_nat (- z))), <- (sin_period (x + 2 * PI * IZR z) (Z.to_nat (- z))).
    replace (x + 2 * PI * IZR z + 2 * INR (Z.to_nat (- z)) * PI) with x; [split; reflexivity|].
    rewrite INR_IZR_INZ, Z2Nat.id by lia. rewrite opp_IZR. ring.
Qed.
Lemma sin_neg_range x : PI <= x <= 2 * PI -> sin x <= 0.
Proof. intros [H1 H2]. apply sin_le_0; assumption. Qed.

Section Star.
Variables (n : nat) (P : nat -> R * R) (t rho : nat -> R).
Hypothesis Hn : (3 <= n)%nat.
Let c := centre n P.
Hypothesis HP : forall k, (k < n)%nat -> 0 < rho k /\ P k = (fst c + rho k * cos (t k), snd c + rho k * sin (t k)).
Hypothesis Ht : forall j k, (j < k)%nat -> (k < n)%nat -> t j < t k /\ t k < t j + 2 * PI.

Lemma HN : INR n <> 0.
Proof. apply not_0_INR. lia. Qed.
Lemma balance : sum n (fun k => rho k * cos (t k)) = 0 /\ sum n (fun k => rho k * sin (t k)) = 0.
Proof.
  pose proof HN as H0.
  assert (E1 : sum n (fun k => fst (P k)) = INR n * fst c) by (unfold c, centre; cbn [fst]; field; exact H0).
  assert (E2 : sum n (fun k => snd (P k)) = INR n * snd c) by (unfold c, centre; cbn [snd]; field; exact H0).
  rewrite (sum_ext n _ (fun k => fst c + rho k * cos (t k))) in E1 by (intros k Hk; destruct (HP k Hk) as [_ ->]; reflexivity).
  rewrite (sum_ext n _ (fun k => snd c + rho k * sin (t k))) in E2 by (intros k Hk; destruct (HP k Hk) as [_ ->]; reflexivity).
  rewrite (sum_plus n (fun _ => fst c) (fun k => rho k * cos (t k))), sum_const in E1.
  rewrite (sum_plus n (fun _ => snd c) (fun k => rho k * sin (t k))), sum_const in E2. split; lra.
Qed.
Lemma balance_at s : sum n (fun k => rho k * sin (t k - s)) = 0.
Proof.
  destruct balance as [B1 B2].
  rewrite (sum_ext n _ (fun k => cos s * (rho k * sin (t k)) + - sin s * (rho k * cos (t k)))) by (intros k _; rewrite sin_minus; ring).
  rewrite (sum_plus n (fun k => cos s * (rho k * sin (t k))) (fun k => - sin s * (rho k * cos (t k)))), !sum_scale, B1, B2. ring.
Qed.
Lemma gap_inner j : (S j < n)%nat -> t (S j) - t j < PI.
Proof.
  intros Hj. destruct (Rlt_dec (t (S j) - t j) PI) as [L|L]; [exact L|exfalso].
  pose proof (balance_at (t j)) as B. pose proof PI_RGT_0 as HPI0.
  assert (A : forall k, (k < n)%nat -> 0 <= -1 * (rho k * sin (t k - t j))).
  { intros k Hk. destruct (HP k Hk) as [Hr _]. destruct (Nat.lt_trichotomy k j) as [H|[->|H]].
    - assert (sin (t k - t j) <= 0); [|nra].
      destruct (Ht k (S j) ltac:(lia) ltac:(lia)) as [_ H2]. destruct (Ht k j H ltac:(lia)) as [H3 _].
      replace (t k - t j) with (t k - t j + 2 * PI - 2 * PI) by ring. rewrite sin_period_m. apply sin_neg_range. lra.
    - rewrite Rminus_diag_eq by reflexivity. rewrite sin_0. lra.
    - assert (sin (t k - t j) <= 0); [|nra]. destruct (Ht j k H Hk) as [H1 H2]. apply sin_neg_range. split; [|lra].
      destruct (Nat.eq_dec k (S j)) as [->|]; [lra|]. destruct (Ht (S j) k ltac:(lia) Hk). lra. }
  assert (C : exists k, (k < n)%nat /\ 0 < -1 * (rho k * sin (t k - t j))).
  { destruct j as [|j].
    - exists 2%nat. split; [lia|]. destruct (HP 2%nat ltac:(lia)) as [Hr _]. destruct (Ht 1%nat 2%nat ltac:(lia) ltac:(lia)). destruct (Ht 0%nat 2%nat ltac:(lia) ltac:(lia)).
      assert (sin (t 2%nat - t 0%nat) < 0) by (apply sin_lt_0; lra). nra.
    - exists 0%nat. split; [lia|]. destruct (HP 0%nat ltac:(lia)) as [Hr _].
      destruct (Ht 0%nat (S (S j)) ltac:(lia) ltac:(lia)) as [_ H2]. destruct (Ht 0%nat (S j) ltac:(lia) ltac:(lia)) as [H3 _].
      assert (sin (t 0%nat - t (S j)) < 0); [|nra].
      replace (t 0%nat - t (S j)) with (t 0%nat - t (S j) + 2 * PI - 2 * PI) by ring. rewrite sin_period_m. apply sin_lt_0; lra. }
  destruct C as [k [Hk Hp]]. pose proof (sum_pos n _ k A Hk Hp) as Q. rewrite (sum_scale n (-1) (fun k => rho k * sin (t k - t j))), B in Q. lra.
Qed.
Lemma gap_last : t 0%nat + 2 * PI - t (n - 1)%nat < PI.
Proof.
  destruct (Rlt_dec (t 0%nat + 2 * PI - t (n - 1)%nat) PI) as [L|L]; [exact L|exfalso].
  pose proof (balance_at (t 0%nat)) as B. pose proof PI_RGT_0 as HPI0.
  assert (D : t (n - 1)%nat - t 0%nat <= PI) by lra.
  assert (U : forall k, (k < n)%nat -> t k <= t (n - 1)%nat).
  { intros k Hk. destruct (Nat.eq_dec k (n - 1)) as [->|]; [lra|]. destruct (Ht k (n - 1)%nat ltac:(lia) ltac:(lia)). lra. }
  assert (A : forall k, (k < n)%nat -> 0 <= rho k * sin (t k - t 0%nat)).
  { intros k Hk. destruct (HP k Hk) as [Hr _]. apply Rmult_le_pos; [lra|]. specialize (U k Hk). apply sin_ge_0; [|lra].
    destruct k as [|k]; [lra|]. destruct (Ht 0%nat (S k) ltac:(lia) Hk). lra. }
  assert (C : 0 < rho 1%nat * sin (t 1%nat - t 0%nat)).
  { destruct (HP 1%nat ltac:(lia)) as [Hr _]. apply Rmult_lt_0_compat; [lra|]. destruct (Ht 0%nat 1%nat ltac:(lia) ltac:(lia)).
    destruct (Ht 1%nat (n - 1)%nat ltac:(lia) ltac:(lia)). apply sin_gt_0; lra. }
  pose proof (sum_pos n _ 1%nat A ltac:(lia) C) as Q. rewrite B in Q. lra.
Qed.
Lemma star_cross j k : (j < n)%nat -> (k < n)%nat -> cross (from c (P j)) (from c (P k)) = rho j * rho k * sin (t k - t j).
Proof.
  intros Hj Hk. destruct (HP j Hj) as [_ ->], (HP k Hk) as [_ ->]. unfold cross, from. cbn [fst snd]. rewrite sin_minus. ring.
Qed.
Lemma star_area : orient_sum (map P (seq 0 n)) < 0.
Proof.
  remember (n - 1)%nat as m eqn:Em. assert (En : n = S m) by lia.
  assert (Q : map P (seq 0 n) = map P (seq 0 (S m))) by (rewrite <- En; reflexivity). rewrite Q, (orient_cross P m c).
  assert (A : 0 < cross (from c (P m)) (from c (P 0%nat))).
  { rewrite star_cross by lia. pose proof gap_last as G. rewrite <- Em in G. destruct (HP m ltac:(lia)) as [Hm _], (HP 0%nat ltac:(lia)) as [H0 _].
    destruct (Ht 0%nat m ltac:(lia) ltac:(lia)).
    assert (0 < sin (t 0%nat - t m)).
    { replace (t 0%nat - t m) with (t 0%nat + 2 * PI - t m - 2 * PI) by ring. rewrite sin_period_m. apply sin_gt_0; lra. }
    apply Rmult_lt_0_compat; [nra|assumption]. }
  assert (B : 0 <= sum m (fun k => cross (from c (P k)) (from c (P (S k))))).
  { apply sum_nonneg. intros k Hk. rewrite star_cross by lia. pose proof (gap_inner k ltac:(lia)). destruct (HP k ltac:(lia)) as [Hm _], (HP (S k) ltac:(lia)) as [H0 _].
    destruct (Ht k (S k) ltac:(lia) ltac:(lia)). assert (0 < sin (t (S k) - t k)) by (apply sin_gt_0; lra). apply Rmult_le_pos; [nra|lra]. }
  lra.
Qed.
(** the angle of the code *)
Lemma star_angle k z : (k < n)%nat -> let u := PI / 2 - t k + 2 * PI * IZR z in - PI < u <= PI -> atan2 (fst (P k) - fst c) (snd (P k) - snd c) = u.
Proof.
  intros Hk u Hu. destruct (HP k Hk) as [Hr ->]. cbn [fst snd].
  destruct (cos_sin_turns (PI / 2 - t k) z) as [C S]. fold u in C, S. rewrite cos_shift in C. rewrite sin_shift in S.
  rewrite <- (atan2_polar (rho k) u Hr Hu), C, S. f_equal; ring.
Qed.
Lemma split_at (u : nat -> R) : (forall j k, (j < k)%nat -> (k < n)%nat -> u k < u j) ->
  exists m, (m <= n)%nat /\ (forall k, (k < m)%nat -> - PI < u k) /\ (forall k, (m <= k)%nat -> (k < n)%nat -> u k <= - PI).
Proof.
  intros Hu. assert (G : forall m, (m <= n)%nat -> exists m', (m' <= m)%nat /\ (forall k, (k < m')%nat -> - PI < u k) /\ (forall k, (m' <= k)%nat -> (k < m)%nat -> u k <= - PI)).
  { induction m as [|m IH]; intros Hm; [exists 0%nat; repeat split; intros; lia|].
    destruct (Rlt_dec (- PI) (u m)) as [L|L].
    - exists (S m). repeat split; [lia| |intros; lia]. intros k Hk. destruct (Nat.eq_dec k m) as [->|]; [exact L|]. pose proof (Hu k m ltac:(lia) ltac:(lia)). lra.
    - destruct (IH ltac:(lia)) as [m' [H1 [H2 H3]]]. exists m'. repeat split; [lia|exact H2|]. intros k Hk1 Hk2.
      destruct (Nat.eq_dec k m) as [->|]; [lra|]. apply H3; lia. }
  exact (G n (le_n n)).
Qed.
End Star.

Lemma SSorted_seq (A : Type) (Q : A -> A -> Prop) (f : nat -> A) s n : (forall j k, (s <= j)%nat -> (j < k)%nat -> (k < s + n)%nat -> Q (f j) (f k)) -> StronglySorted Q (map f (seq s n)).
Proof.
  revert s. induction n as [|n IH]; intros s H; [constructor|]. cbn [seq map]. constructor.
  - apply IH. intros. apply H; lia.
  - apply Forall_forall. intros x Hx. apply in_map_iff in Hx. destruct Hx as [k [<- Hk]]. apply in_seq in Hk. apply H; lia.
Qed.
Lemma turned_list {A} (P : nat -> A) n m : (m <= n)%nat ->
  map (fun k => P (if k <? n - m then m + k else k - (n - m))%nat) (seq 0 n) = map P (seq m (n - m)) ++ map P (seq 0 m).
Proof.
  intros H. assert (Q : seq 0 n = seq 0 (n - m) ++ seq (n - m) m) by (pose proof (seq_app (n - m) m 0) as Q; replace (n - m + m)%nat with n in Q by lia; exact Q).
  rewrite Q, map_app. f_equal.
  - assert (E : forall a b s, map P (seq (a + s) b) = map (fun k => P (a + k)%nat) (seq s b)).
    { intros a b. induction b as [|b IH]; intros s; [reflexivity|]. cbn [seq map]. f_equal. rewrite <- IH. f_equal. f_equal. lia. }
    pose proof (E m (n - m)%nat 0%nat) as E'. rewrite Nat.add_0_r in E'. rewrite E'. apply map_ext_in. intros k Hk. apply in_seq in Hk. destruct (Nat.ltb_spec k (n - m)); [reflexivity|lia].
  - assert (E : forall a b s, map (fun k => P (k - a)%nat) (seq (a + s) b) = map P (seq s b)).
    { intros a b. induction b as [|b IH]; intros s; [reflexivity|]. cbn [seq map]. f_equal; [f_equal; lia|]. rewrite <- IH. f_equal. f_equal. lia. }
    rewrite <- (E (n - m)%nat m 0%nat), Nat.add_0_r. apply map_ext_in. intros k Hk. apply in_seq in Hk. destruct (Nat.ltb_spec k (n - m)); [lia|reflexivity].
Qed.
Lemma centre_perm n P P' : Permutation (map P (seq 0 n)) (map P' (seq 0 n)) -> centre n P = centre n P'.
Proof.
  intros H. unfold centre. rewrite <- !sum_rsum. rewrite <- (map_map P fst), <- (map_map P snd), <- (map_map P' fst), <- (map_map P' snd).
  rewrite (rsum_perm _ _ (Permutation_map fst H)), (rsum_perm _ _ (Permutation_map snd H)). reflexivity.
Qed.

Lemma fast_star argsort n P pts : sorts argsort -> (3 <= n)%nat -> around n (centre n P) P -> Permutation pts (map P (seq 0 n)) ->
  exists l, fast argsort pts = Ok l /\ rotation (map P (seq 0 n)) l.
Proof.
  intros Hs Hn [t [rho [HP Ht]]] Hperm. pose proof PI_RGT_0 as HPI.
  destruct (turns (PI / 2 - t 0%nat)) as [z Hz].
  set (u := fun k => PI / 2 - t k + 2 * PI * IZR z).
  assert (Hu : forall j k, (j < k)%nat -> (k < n)%nat -> u k < u j /\ u j - 2 * PI < u k).
  { intros j k H1 H2. destruct (Ht j k H1 H2). unfold u. lra. }
  destruct (split_at n Hn u (fun j k H1 H2 => proj1 (Hu j k H1 H2))) as [m [Hm [M1 M2]]].
  assert (U0 : forall k, (k < n)%nat -> u k <= PI).
  { intros k Hk. destruct k as [|k]; [exact (proj2 Hz)|]. pose proof (Hu 0%nat (S k) ltac:(lia) Hk). assert (u 0%nat <= PI) by exact (proj2 Hz). lra. }
  assert (V0 : forall k, (k < n)%nat -> u 0%nat - 2 * PI < u k).
  { intros k Hk. destruct k as [|k]; [lra|]. pose proof (Hu 0%nat (S k) ltac:(lia) Hk). lra. }
  pose (idx := fun k => (if k <? n - m then m + k else k - (n - m))%nat).
  pose (P' := fun k => P (idx k)).
  pose (t' := fun k => if (k <? n - m)%nat then t (m + k)%nat else t (k - (n - m))%nat + 2 * PI).
  pose (rho' := fun k => rho (idx k)).
  assert (Lk : forall k, (k < n)%nat -> (idx k < n)%nat) by (intros k Hk; unfold idx; destruct (Nat.ltb_spec k (n - m)); lia).
  assert (EP : map P' (seq 0 n) = map P (seq m (n - m)) ++ map P (seq 0 m)) by (unfold P', idx; apply turned_list; exact Hm).
  assert (E0 : map P (seq 0 n) = map P (seq 0 m) ++ map P (seq m (n - m))).
  { rewrite <- map_app. f_equal. replace n with (m + (n - m))%nat at 1 by lia. rewrite seq_app. reflexivity. }
  assert (Pm : Permutation (map P (seq 0 n)) (map P' (seq 0 n))) by (rewrite EP, E0; apply Permutation_app_comm).
  assert (Ec : centre n P' = centre n P) by (symmetry; apply centre_perm; exact Pm).
  assert (HP' : forall k, (k < n)%nat -> 0 < rho' k /\ P' k = (fst (centre n P') + rho' k * cos (t' k), snd (centre n P') + rho' k * sin (t' k))).
  { intros k Hk. rewrite Ec. specialize (HP (idx k) (Lk k Hk)). destruct HP as [H1 H2]. split; [exact H1|]. unfold P'. rewrite H2. unfold rho', t', idx.
    destruct (k <? n - m)%nat; [reflexivity|]. destruct (cos_sin_turns (t (k - (n - m))%nat) 1) as [C S].
    replace (t (k - (n - m))%nat + 2 * PI * 1) with (t (k - (n - m))%nat + 2 * PI) in C, S by ring. rewrite C, S. reflexivity. }
  assert (Ht' : forall j k, (j < k)%nat -> (k < n)%nat -> t' j < t' k /\ t' k < t' j + 2 * PI).
  { intros j k H1 H2. unfold t'. destruct (Nat.ltb_spec j (n - m)), (Nat.ltb_spec k (n - m)); try lia.
    - apply Ht; lia.
    - destruct (Ht (k - (n - m))%nat (m + j)%nat ltac:(lia) ltac:(lia)). lra.
    - destruct (Ht (j - (n - m))%nat (k - (n - m))%nat ltac:(lia) ltac:(lia)). lra. }
  pose proof (star_area n P' t' rho' Hn HP' Ht') as Area.
  pose proof (mean_centre n P pts Hperm) as Mc.
  assert (K : forall k, (k < n)%nat -> key pts (P k) = if (k <? m)%nat then u k else u k + 2 * PI).
  { intros k Hk. unfold key. replace (mean (map fst pts)) with (fst (centre n P)) by (rewrite <- Mc; reflexivity).
    replace (mean (map snd pts)) with (snd (centre n P)) by (rewrite <- Mc; reflexivity).
    pose proof (V0 k Hk) as Vk. assert (Hz1 : - PI < u 0%nat) by exact (proj1 Hz).
    destruct (Nat.ltb_spec k m).
    - apply (star_angle n P t rho HP k z Hk). fold (u k). split; [apply M1; assumption|apply U0; exact Hk].
    - pose proof (M2 k ltac:(assumption) Hk) as Lo.
      assert (Eu : u k + 2 * PI = PI / 2 - t k + 2 * PI * IZR (z + 1)) by (unfold u; rewrite plus_IZR; ring).
      rewrite Eu. apply (star_angle n P t rho HP k (z + 1) Hk). rewrite <- Eu. lra. }
  assert (K' : forall k, (k < n)%nat -> key pts (P' k) = if (k <? n - m)%nat then u (idx k) + 2 * PI else u (idx k)).
  { intros k Hk. unfold P'. rewrite K by (apply Lk; exact Hk). unfold idx. destruct (Nat.ltb_spec k (n - m)).
    - destruct (Nat.ltb_spec (m + k) m); [lia|reflexivity].
    - destruct (Nat.ltb_spec (k - (n - m)) m); [reflexivity|lia]. }
  assert (Dec : forall j k, (j < k)%nat -> (k < n)%nat -> key pts (P' k) < key pts (P' j)).
  { intros j k H1 H2. rewrite !K' by lia. unfold idx. destruct (Nat.ltb_spec j (n - m)), (Nat.ltb_spec k (n - m)); try lia.
    - destruct (Hu (m + j)%nat (m + k)%nat ltac:(lia) ltac:(lia)). lra.
    - destruct (Hu (k - (n - m))%nat (m + j)%nat ltac:(lia) ltac:(lia)). lra.
    - destruct (Hu (j - (n - m))%nat (k - (n - m))%nat ltac:(lia) ltac:(lia)). lra. }
  assert (T : taken argsort pts = rev (map P' (seq 0 n))).
  { apply (sorted_unique (key pts)); [|apply Permutation_trans with pts; [apply taken_perm; exact Hs|]|apply taken_sorted; exact Hs].
    - rewrite map_rev_seq. apply SSorted_seq. intros j k _ H1 H2. apply Dec; lia.
    - apply Permutation_trans with (1 := Hperm). apply Permutation_trans with (1 := Pm). apply Permutation_rev. }
  exists (map P' (seq 0 n)). split.
  - apply fast_clockwise; [exact T|rewrite map_length, seq_length; exact Hn|rewrite orient_rev; lra|exact Area].
  - exists (map P (seq 0 m)), (map P (seq m (n - m))). split; assumption.
Qed.
