(** Proofs about FastModel.v *)
From Coq Require Import List Reals Lia Lra ZArith Permutation Sorted.
From Verif Require Import Prelude FieldReal CoilProofs ShapeModel ShapeProofs FastModel FastSpec.
Import ListNotations.
Open Scope R_scope.

(** * angles *)
Lemma atan2_range y x : - PI < atan2 y x <= PI.
Proof.
  pose proof PI_RGT_0. unfold atan2. pose proof (atan_bound (y / x)) as B.
  destruct (Rlt_dec 0 x); [lra|]. destruct (Rlt_dec x 0) as [L|L].
  - destruct (Rle_dec 0 y) as [K|K].
    + assert (atan (y / x) <= 0); [|lra]. rewrite <- atan_0.
      assert (Q : y / x <= 0) by (apply (Rmult_le_reg_r (- x)); [lra|]; unfold Rdiv; replace (y * / x * - x) with (- y) by (field; lra); lra).
      destruct Q as [Q| ->]; [left; apply atan_increasing; exact Q|right; reflexivity].
    + assert (0 < atan (y / x)); [|lra]. rewrite <- atan_0. apply atan_increasing.
      apply (Rmult_lt_reg_r (- x)); [lra|]. unfold Rdiv. replace (y * / x * - x) with (- y) by (field; lra). lra.
  - destruct (Rlt_dec 0 y); [lra|]. destruct (Rlt_dec y 0); lra.
Qed.
Lemma angle_unique a b : - PI < a <= PI -> - PI < b <= PI -> cos a = cos b -> sin a = sin b -> a = b.
Proof.
  assert (G : forall a b, - PI < a <= PI -> - PI < b <= PI -> cos a = cos b -> sin a = sin b -> ~ a < b).
  { intros a' b' Ha Hb Hc Hs L.
    assert (S : sin (b' - a') = 0) by (rewrite sin_minus, Hc, Hs; ring).
    assert (C : cos (b' - a') = 1) by (rewrite cos_minus, Hc, Hs; pose proof (sin2_cos2 b') as Q; unfold Rsqr in Q; lra).
    assert (S2 : sin ((b' - a') / 2) = 0).
    { replace (b' - a') with (2 * ((b' - a') / 2)) in C by field. rewrite cos_2a_sin in C. nra. }
    assert (0 < sin ((b' - a') / 2)) by (apply sin_gt_0; lra). lra. }
  intros Ha Hb Hc Hs. destruct (Rtotal_order a b) as [L|[E|L]]; [|exact E|].
  - exfalso. exact (G a b Ha Hb Hc Hs L).
  - exfalso. exact (G b a Hb Ha (eq_sym Hc) (eq_sym Hs) L).
Qed.
Lemma atan2_polar rho a : 0 < rho -> - PI < a <= PI -> atan2 (rho * sin a) (rho * cos a) = a.
Proof.
  intros Hr Ha.
  assert (N : sqrt ((rho * cos a) ^ 2 + (rho * sin a) ^ 2) = rho).
  { replace ((rho * cos a) ^ 2 + (rho * sin a) ^ 2) with (rho ^ 2); [apply sqrt_pow2; lra|].
    pose proof (sin2_cos2 a) as Q. unfold Rsqr in Q. replace ((rho * cos a) ^ 2 + (rho * sin a) ^ 2) with (rho ^ 2 * (sin a * sin a + cos a * cos a)) by ring. rewrite Q. ring. }
  assert (D : rho * cos a <> 0 \/ rho * sin a <> 0).
  { destruct (Req_dec (cos a) 0) as [E|E]; [right|left; intros K; apply Rmult_integral in K; destruct K; lra].
    intros K. apply Rmult_integral in K. destruct K as [K|K]; [lra|]. pose proof (sin2_cos2 a) as Q. unfold Rsqr in Q. rewrite E, K in Q. lra. }
  apply angle_unique; [apply atan2_range|exact Ha| |].
  - rewrite (atan2_cos _ _ D), N. field. lra.
  - rewrite (atan2_sin _ _ D), N. field. lra.
Qed.
Lemma polar x y : x <> 0 \/ y <> 0 -> x = sqrt (x ^ 2 + y ^ 2) * cos (atan2 y x) /\ y = sqrt (x ^ 2 + y ^ 2) * sin (atan2 y x) /\ 0 < sqrt (x ^ 2 + y ^ 2).
Proof.
  intros H. assert (P : 0 < sqrt (x ^ 2 + y ^ 2)).
  { apply sqrt_lt_R0. destruct H as [H|H]; pose proof (pow2_ge_0 x); pose proof (pow2_ge_0 y); [assert (0 < x ^ 2) by nra|assert (0 < y ^ 2) by nra]; lra. }
  rewrite (atan2_cos _ _ H), (atan2_sin _ _ H). repeat split; [field; lra|field; lra|exact P].
Qed.

(** * sums *)
Lemma sum_ext n f g : (forall k, (k < n)%nat -> f k = g k) -> sum n f = sum n g.
Proof. induction n as [|n IH]; intros H; [reflexivity|]. cbn [sum]. rewrite IH, H by (intros; try apply H; lia). reflexivity. Qed.
Lemma sum_plus n f g : sum n (fun k => f k + g k) = sum n f + sum n g.
Proof. induction n as [|n IH]; cbn [sum]; [ring|rewrite IH; ring]. Qed.
Lemma sum_scale n c f : sum n (fun k => c * f k) = c * sum n f.
Proof. induction n as [|n IH]; cbn [sum]; [ring|rewrite IH; ring]. Qed.
Lemma sum_const n c : sum n (fun _ => c) = INR n * c.
Proof. induction n as [|n IH]; [cbn; ring|]. cbn [sum]. rewrite IH, S_INR. ring. Qed.
Lemma sum_tel n g : sum n (fun k => g (S k) - g k) = g n - g 0%nat.
Proof. induction n as [|n IH]; cbn [sum]; [ring|rewrite IH; ring]. Qed.
Lemma sum_first n f : sum (S n) f = f 0%nat + sum n (fun k => f (S k)).
Proof. induction n as [|n IH]; [cbn; ring|]. change (sum (S (S n)) f) with (sum (S n) f + f (S n)). rewrite IH. cbn [sum]. ring. Qed.
Lemma sum_nonneg n f : (forall k, (k < n)%nat -> 0 <= f k) -> 0 <= sum n f.
Proof. induction n as [|n IH]; intros H; cbn [sum]; [lra|]. pose proof (H n ltac:(lia)). assert (0 <= sum n f) by (apply IH; intros; apply H; lia). lra. Qed.
Lemma sum_pos n f j : (forall k, (k < n)%nat -> 0 <= f k) -> (j < n)%nat -> 0 < f j -> 0 < sum n f.
Proof.
  induction n as [|n IH]; intros H Hj Hp; [lia|]. cbn [sum]. pose proof (H n ltac:(lia)).
  destruct (Nat.eq_dec j n) as [->|].
  - assert (0 <= sum n f) by (apply sum_nonneg; intros; apply H; lia). lra.
  - assert (0 < sum n f) by (apply IH; [intros; apply H; lia|lia|exact Hp]). lra.
Qed.
Lemma sum_rsum n f : rsum (map f (seq 0 n)) = sum n f.
Proof.
  induction n as [|n IH]; [reflexivity|]. rewrite seq_S, map_app. cbn [map Nat.add].
  assert (E : forall l a, rsum (l ++ [a]) = rsum l + a).
  { induction l as [|x l IHl]; intros a; unfold rsum in *; cbn [app fold_right]; [ring|]. rewrite IHl. ring. }
  rewrite E, IH. reflexivity.
Qed.
Lemma sum_rev n f : sum n (fun k => f (n - 1 - k)%nat) = sum n f.
Proof.
  induction n as [|n IH]; [reflexivity|]. rewrite sum_first. cbn [sum]. rewrite <- IH.
  replace (S n - 1 - 0)%nat with n by lia. rewrite Rplus_comm. f_equal. apply sum_ext. intros k Hk. f_equal. lia.
Qed.

(** * the shoelace sum *)
Definition cross (a b : R * R) : R := fst a * snd b - fst b * snd a.
Definition from (c p : R * R) : R * R := (fst p - fst c, snd p - snd c).
Lemma orient_index (P : nat -> R * R) n :
  let f p q : R := (fst p - fst q) * (snd p + snd q) in
  orient_sum (map P (seq 0 (S n))) = f (P 0%nat) (P n) + sum n (fun k => f (P (S k)) (P k)).
Proof.
  intros f. unfold orient_sum. rewrite roll1_map.
  change (map P (seq 0 (S n))) with (P 0%nat :: map P (seq 1 n)). rewrite <- seq_shift, map_map.
  cbn [combine map]. unfold rsum; cbn [fold_right fst snd]. f_equal. rewrite combine_map, map_map. rewrite <- sum_rsum. reflexivity.
Qed.
Lemma orient_cross (P : nat -> R * R) n c :
  orient_sum (map P (seq 0 (S n))) = - (cross (from c (P n)) (from c (P 0%nat)) + sum n (fun k => cross (from c (P k)) (from c (P (S k))))).
Proof.
  rewrite orient_index. cbv zeta.
  rewrite (sum_ext n _ (fun k => ((fun k => fst (P k) * snd (P k) + fst (P k) * snd c - snd (P k) * fst c) (S k) - (fun k => fst (P k) * snd (P k) + fst (P k) * snd c - snd (P k) * fst c) k) + -1 * cross (from c (P k)) (from c (P (S k))))).
  2:{ intros k _. unfold cross, from. cbn [fst snd]. ring. }
  rewrite (sum_plus n (fun k => (fun k => fst (P k) * snd (P k) + fst (P k) * snd c - snd (P k) * fst c) (S k) - (fun k => fst (P k) * snd (P k) + fst (P k) * snd c - snd (P k) * fst c) k)
    (fun k => -1 * cross (from c (P k)) (from c (P (S k))))), sum_scale.
  rewrite (sum_tel n (fun k => fst (P k) * snd (P k) + fst (P k) * snd c - snd (P k) * fst c)).
  unfold cross at 2. unfold from at 3 4 5 6. cbn [fst snd]. ring.
Qed.
Lemma map_rev_seq {A} (P : nat -> A) n : rev (map P (seq 0 n)) = map (fun k => P (n - 1 - k)%nat) (seq 0 n).
Proof.
  induction n as [|n IH]; [reflexivity|]. rewrite seq_S at 1. rewrite map_app, rev_app_distr. cbn [rev app map Nat.add].
  rewrite IH. cbn [seq map]. f_equal; [f_equal; lia|]. rewrite <- seq_shift, map_map. apply map_ext_in. intros k Hk. apply in_seq in Hk. f_equal. lia.
Qed.
Lemma orient_rev (P : nat -> R * R) n : orient_sum (rev (map P (seq 0 n))) = - orient_sum (map P (seq 0 n)).
Proof.
  destruct n as [|n]; [unfold orient_sum; cbn; ring|]. rewrite map_rev_seq, !(orient_cross _ _ (0, 0)).
  replace (S n - 1 - n)%nat with 0%nat by lia. replace (S n - 1 - 0)%nat with n by lia.
  rewrite (sum_ext n _ (fun k => -1 * (fun i => cross (from (0, 0) (P i)) (from (0, 0) (P (S i)))) (n - 1 - k)%nat)).
  - rewrite sum_scale, (sum_rev n (fun i => cross (from (0, 0) (P i)) (from (0, 0) (P (S i))))). unfold cross. ring.
  - intros k Hk. replace (S n - 1 - k)%nat with (S (n - 1 - k)) by lia. replace (S n - 1 - S k)%nat with (n - 1 - k)%nat by lia. unfold cross. ring.
Qed.

(** * sorting *)
Lemma sorted_unique {A} (key : A -> R) (l' : list A) : StronglySorted (fun a b => key a < key b) l' ->
  forall l, Permutation l l' -> StronglySorted (fun a b => key a <= key b) l -> l = l'.
Proof.
  induction l' as [|x' l' IH]; intros Hs l Hp Hl.
  - apply Permutation_sym, Permutation_nil in Hp. exact Hp.
  - destruct l as [|x l]; [apply Permutation_nil in Hp; discriminate|].
    inversion Hs as [|? ? Hs' Hx']; subst. inversion Hl as [|? ? Hl' Hx]; subst.
    rewrite Forall_forall in Hx, Hx'.
    assert (E : x = x').
    { assert (I : In x (x' :: l')) by (apply (Permutation_in _ Hp); left; reflexivity).
      assert (I' : In x' (x :: l)) by (apply (Permutation_in _ (Permutation_sym Hp)); left; reflexivity).
      destruct I as [->|I]; [reflexivity|]. destruct I' as [I'|I']; [exact I'|].
      specialize (Hx' x I). specialize (Hx x' I'). lra. }
    subst x'. f_equal. apply IH; [exact Hs'|apply (Permutation_cons_inv Hp)|exact Hl'].
Qed.

Section Argsort.
Variable argsort : list R -> list nat.
Hypothesis Hsort : sorts argsort.
Definition key (pts : list (R * R)) (p : R * R) : R := atan2 (fst p - mean (map fst pts)) (snd p - mean (map snd pts)).
Definition taken (pts : list (R * R)) : list (R * R) := map (fun i => nth i pts (0, 0)) (argsort (map (key pts) pts)).
Lemma nth_all {A} (l : list A) d : map (fun i => nth i l d) (seq 0 (length l)) = l.
Proof. induction l as [|x l IH]; [reflexivity|]. cbn [length seq map nth]. rewrite <- seq_shift, map_map. f_equal. exact IH. Qed.
Lemma taken_perm pts : Permutation (taken pts) pts.
Proof.
  unfold taken. destruct (Hsort (map (key pts) pts)) as [P _]. rewrite map_length in P.
  rewrite <- (nth_all pts (0, 0)) at 3. apply Permutation_map. exact P.
Qed.
Lemma sorted_map {A B} (f : A -> B) (Q : B -> B -> Prop) l : StronglySorted Q (map f l) -> StronglySorted (fun a b => Q (f a) (f b)) l.
Proof.
  induction l as [|x l IH]; intros H; [constructor|]. cbn [map] in H. inversion H as [|? ? H1 H2]; subst. constructor; [apply IH; exact H1|].
  rewrite Forall_map in H2. exact H2.
Qed.
Lemma map_sorted {A B} (f : A -> B) (Q : B -> B -> Prop) l : StronglySorted (fun a b => Q (f a) (f b)) l -> StronglySorted Q (map f l).
Proof.
  induction l as [|x l IH]; intros H; [constructor|]. inversion H as [|? ? H1 H2]; subst. cbn [map]. constructor; [apply IH; exact H1|].
  rewrite Forall_map. exact H2.
Qed.
Lemma taken_sorted pts : StronglySorted (fun a b => key pts a <= key pts b) (taken pts).
Proof.
  apply (sorted_map (key pts) Rle). unfold taken. destruct (Hsort (map (key pts) pts)) as [P S]. rewrite map_map.
  rewrite map_length in P. erewrite map_ext_in; [exact S|]. intros i Hi. cbv beta.
  assert (L : (i < length pts)%nat) by (apply (Permutation_in _ P) in Hi; apply in_seq in Hi; lia).
  rewrite (nth_indep (map (key pts) pts) 0 (key pts (0, 0))) by (rewrite map_length; exact L). rewrite map_nth. reflexivity.
Qed.
Lemma combine_fst_snd {A B} (l : list (A * B)) : combine (map fst l) (map snd l) = l.
Proof. induction l as [|[a b] l IH]; [reflexivity|]. cbn [map combine fst snd]. rewrite IH. reflexivity. Qed.
Lemma nth_fst (l : list (R * R)) i : nth i (map fst l) 0 = fst (nth i l (0, 0)).
Proof. change 0 with (fst (0, 0)) at 1. apply map_nth. Qed.
Lemma nth_snd (l : list (R * R)) i : nth i (map snd l) 0 = snd (nth i l (0, 0)).
Proof. change 0 with (snd (0, 0)) at 1. apply map_nth. Qed.
Lemma fast_taken pts : fast argsort pts = rz_init (map fst (taken pts)) (map snd (taken pts)).
Proof.
  unfold fast, taken. rewrite !map_map. f_equal; apply map_ext; intros i; [apply nth_fst|apply nth_snd].
Qed.
Lemma fast_result pts l : fast argsort pts = Ok l -> (3 <= length pts)%nat /\ orient_sum l < 0 /\ (l = taken pts \/ l = rev (taken pts)).
Proof.
  rewrite fast_taken. unfold rz_init. rewrite !map_length, Nat.eqb_refl. cbn [negb]. rewrite combine_fst_snd.
  pose proof (Permutation_length (taken_perm pts)) as L.
  remember (taken pts) as m eqn:Em. clear Em.
  destruct (Req_EM_T _ 0); [discriminate|].
  destruct (Rlt_dec 0 _).
  - destruct (Rlt_dec (orient_sum (rev m)) 0) as [O|]; [|discriminate]. assert (Lr : length (rev m) = length pts) by (rewrite rev_length; exact L).
    destruct (rev m) as [|x m'] eqn:Er; [discriminate|]. destruct (3 <? _)%nat eqn:E3; [|discriminate].
    intros H. apply ok_inj in H. subst l. apply Nat.ltb_lt in E3. rewrite Lr in E3. split; [lia|]. split; [exact O|right; reflexivity].
  - destruct (Rlt_dec (orient_sum m) 0) as [O|]; [|discriminate].
    destruct m as [|x m'] eqn:Er; [discriminate|]. destruct (3 <? _)%nat eqn:E3; [|discriminate].
    intros H. apply ok_inj in H. subst l. apply Nat.ltb_lt in E3. rewrite L in E3. split; [lia|]. split; [exact O|left; reflexivity].
Qed.
Lemma fast_clockwise pts m : taken pts = rev m -> (3 <= length m)%nat -> 0 < orient_sum (rev m) -> orient_sum m < 0 -> fast argsort pts = Ok m.
Proof.
  intros E L O1 O2. rewrite fast_taken, E. unfold rz_init. rewrite !map_length, Nat.eqb_refl. cbn [negb]. rewrite combine_fst_snd.
  destruct (Req_EM_T _ 0) as [K|_]; [lra|]. destruct (Rlt_dec 0 (orient_sum (rev m))) as [_|K]; [|contradiction].
  rewrite rev_involutive. destruct (Rlt_dec (orient_sum m) 0) as [_|K]; [|contradiction].
  replace (3 <? length m + 1)%nat with true by (symmetry; apply Nat.ltb_lt; lia). destruct m; [cbn in L; lia|reflexivity].
Qed.
End Argsort.
