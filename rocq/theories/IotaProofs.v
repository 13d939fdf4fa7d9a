(** Proofs about calc_iota. *)
From Coq Require Import List ZArith Reals Bool Lia Lra Psatz.
From Verif Require Import Prelude IotaModel.
Import ListNotations.
Open Scope R_scope.

Lemma abs_bounds a b : Rabs a <= b -> - b <= a <= b.
Proof. unfold Rabs. destruct (Rcase_abs a); lra. Qed.
Lemma greater_iff a b : greater a b = true <-> b < a.
Proof. unfold greater. destruct (Rlt_dec b a); split; auto; discriminate. Qed.

Lemma cos_abs a : cos a = cos (Rabs a).
Proof. unfold Rabs. destruct (Rcase_abs a); [now rewrite cos_neg|reflexivity]. Qed.

Lemma cos_closer a b : Rabs a < Rabs b -> Rabs b < 2 * PI - Rabs a -> cos b < cos a.
Proof.
  intros H1 H2. rewrite (cos_abs a), (cos_abs b). set (u := Rabs a) in *. set (v := Rabs b) in *.
  assert (0 <= u) by apply Rabs_pos. pose proof (form2 u v) as E.
  assert (S1 : 0 < sin ((u + v) / 2)) by (apply sin_gt_0; lra).
  assert (S2 : 0 < sin ((v - u) / 2)) by (apply sin_gt_0; lra).
  replace ((u - v) / 2) with (- ((v - u) / 2)) in E by lra. rewrite sin_neg in E. nra.
Qed.
Lemma cos_no_farther a b : Rabs a <= Rabs b -> Rabs b <= 2 * PI - Rabs a -> cos b <= cos a.
Proof.
  intros H1 H2. rewrite (cos_abs a), (cos_abs b). set (u := Rabs a) in *. set (v := Rabs b) in *.
  assert (0 <= u) by apply Rabs_pos. pose proof (form2 u v) as E.
  assert (S1 : 0 <= sin ((u + v) / 2)) by (apply sin_ge_0; lra).
  assert (S2 : 0 <= sin ((v - u) / 2)) by (apply sin_ge_0; lra).
  replace ((u - v) / 2) with (- ((v - u) / 2)) in E by lra. rewrite sin_neg in E. nra.
Qed.

Lemma cos_Z x (q : Z) : cos (x - 2 * PI * IZR q) = cos x.
Proof.
  destruct (Z_le_gt_dec 0 q) as [H|H].
  - rewrite <- (Z2Nat.id q) by lia. rewrite <- INR_IZR_INZ. rewrite <- (cos_period (x - 2 * PI * INR (Z.to_nat q)) (Z.to_nat q)). f_equal. ring.
  - replace q with (- Z.of_nat (Z.to_nat (- q)))%Z by lia. rewrite opp_IZR, <- INR_IZR_INZ.
    rewrite <- (cos_period x (Z.to_nat (- q))). f_equal. ring.
Qed.

(** the nearest multiple *)
Lemma nearest (c x : R) : 0 < c -> exists q, Rabs (x - c * IZR q) <= c / 2.
Proof.
  intros Hc. destruct (archimed (x / c - / 2)) as [A1 A2]. exists (up (x / c - / 2)).
  set (q := IZR (up (x / c - / 2))) in *. apply Rabs_le.
  assert (E : x = c * (x / c)) by (field; lra). set (y := x / c) in *. rewrite E. nra.
Qed.

Lemma filter_two (f : nat -> bool) a n p0 p1 rest : filter f (seq a n) = p0 :: p1 :: rest ->
  (a <= p0 < p1)%nat /\ (p1 < a + n)%nat /\ f p0 = true /\ f p1 = true /\ forall k, (p0 < k < p1)%nat -> f k = false.
Proof.
  assert (One : forall n a p rest, filter f (seq a n) = p :: rest -> (a <= p < a + n)%nat /\ f p = true /\ forall k, (a <= k < p)%nat -> f k = false).
  { clear. induction n as [|n IH]; intros a p rest E; [discriminate|]. cbn [seq filter] in E. destruct (f a) eqn:F.
    - injection E as <- _. split; [lia|]. split; [exact F|]. intros; lia.
    - destruct (IH _ _ _ E) as (H1 & H2 & H3). split; [lia|]. split; [exact H2|]. intros k Hk.
      destruct (Nat.eq_dec k a) as [->|]; [exact F|apply H3; lia]. }
  revert a. induction n as [|n IH]; intros a E; [discriminate|]. cbn [seq filter] in E. destruct (f a) eqn:F.
  - injection E as <- E. destruct (One _ _ _ _ E) as (H1 & H2 & H3). split; [lia|]. split; [lia|]. split; [exact F|]. split; [exact H2|]. intros k Hk. apply H3. lia.
  - destruct (IH _ E) as (H1 & H2 & H3). split; [lia|]. split; [lia|]. exact H3.
Qed.
Lemma filter_some_two (f : nat -> bool) n a b : (a < b < n)%nat -> f a = true -> f b = true -> exists p0 p1 rest, filter f (seq 0 n) = p0 :: p1 :: rest.
Proof.
  intros H Fa Fb. assert (Ia : In a (filter f (seq 0 n))) by (apply filter_In; split; [apply in_seq; lia|exact Fa]).
  assert (Ib : In b (filter f (seq 0 n))) by (apply filter_In; split; [apply in_seq; lia|exact Fb]).
  destruct (filter f (seq 0 n)) as [|p0 [|p1 rest]]; [destruct Ia| |now exists p0, p1, rest].
  destruct Ia as [<-|[]], Ib as [<-|[]]. lia.
Qed.

Section Cosine.
Variables (x : list R) (order n : nat) (s ph A R0 : R).
Hypothesis Hlen : length x = n.
Hypothesis Hx : forall k, (k < n)%nat -> nth k x 0 = R0 + A * cos (s * INR k + ph).
Hypothesis HA : 0 < A.
Hypothesis Hs : 0 < s.
Hypothesis Hord : (1 <= order)%nat.
Hypothesis Hper : INR (order + 1) * s <= 2 * PI.

Lemma take_in i : (0 < n)%nat -> take_clip x i = R0 + A * cos (s * IZR (Z.min (Z.max 0 i) (Z.of_nat n - 1)) + ph).
Proof.
  intros Hn. unfold take_clip. rewrite Hlen. rewrite Hx by lia. rewrite INR_IZR_INZ, Z2Nat.id by lia. reflexivity.
Qed.
Lemma two_s : 2 * s <= 2 * PI.
Proof. assert (2 <= INR (order + 1)) by (change 2 with (INR 2); apply le_INR; lia). nra. Qed.

Lemma peak_iff k : (k < n)%nat -> (is_peak order x k = true <-> (0 < k < n - 1)%nat /\ exists q, Rabs (s * INR k + ph - 2 * PI * IZR q) < s / 2).
Proof.
  intros Hk. unfold is_peak. rewrite forallb_forall. pose proof two_s as H2s. pose proof PI_RGT_0 as HPI0. split.
  - intros H. assert (H1 := H 1%nat ltac:(apply in_seq; lia)). apply andb_true_iff in H1. destruct H1 as [H1 H2].
    apply greater_iff in H1, H2. rewrite !take_in in H1, H2 by lia.
    replace (Z.min (Z.max 0 (Z.of_nat k)) (Z.of_nat n - 1)) with (Z.of_nat k) in H1, H2 by lia.
    assert (K : (0 < k < n - 1)%nat).
    { split.
      - destruct (Nat.eq_dec k 0) as [->|]; [|lia]. exfalso. replace (Z.min (Z.max 0 (Z.of_nat 0 - Z.of_nat 1)) (Z.of_nat n - 1)) with (Z.of_nat 0) in H2 by lia. lra.
      - destruct (Nat.eq_dec k (n - 1)) as [->|]; [|lia]. exfalso. replace (Z.min (Z.max 0 (Z.of_nat (n - 1) + Z.of_nat 1)) (Z.of_nat n - 1)) with (Z.of_nat (n - 1)) in H1 by lia. lra. }
    split; [exact K|].
    replace (Z.min (Z.max 0 (Z.of_nat k + Z.of_nat 1)) (Z.of_nat n - 1)) with (Z.of_nat k + 1)%Z in H1 by lia.
    replace (Z.min (Z.max 0 (Z.of_nat k - Z.of_nat 1)) (Z.of_nat n - 1)) with (Z.of_nat k - 1)%Z in H2 by lia.
    rewrite plus_IZR, <- INR_IZR_INZ in H1. rewrite minus_IZR, <- INR_IZR_INZ in H2.
    destruct (nearest (2 * PI) (s * INR k + ph)) as [q Hq]; [lra|]. exists q.
    set (dl := s * INR k + ph - 2 * PI * IZR q) in *.
    rewrite <- (cos_Z (s * INR k + ph) q), <- (cos_Z (s * (INR k + 1) + ph) q) in H1. rewrite <- (cos_Z (s * INR k + ph) q), <- (cos_Z (s * (INR k - 1) + ph) q) in H2.
    replace (s * (INR k + 1) + ph - 2 * PI * IZR q) with (dl + s) in H1 by (unfold dl; ring).
    replace (s * (INR k - 1) + ph - 2 * PI * IZR q) with (dl - s) in H2 by (unfold dl; ring).
    fold dl in H1, H2. destruct (Rlt_dec (Rabs dl) (s / 2)) as [|N]; [assumption|exfalso].
    destruct (Rle_dec 0 dl) as [D|D].
    + rewrite Rabs_pos_eq in Hq, N by lra. assert (C := cos_no_farther (dl - s) dl).
      assert (Rabs (dl - s) <= dl) by (apply Rabs_le; lra). rewrite (Rabs_pos_eq dl D) in C. assert (cos dl <= cos (dl - s)) by (apply C; lra). nra.
    + rewrite Rabs_left in Hq, N by lra. assert (C := cos_no_farther (dl + s) dl).
      assert (Rabs (dl + s) <= - dl) by (apply Rabs_le; lra). rewrite (Rabs_left dl) in C by lra. assert (cos dl <= cos (dl + s)) by (apply C; lra). nra.
  - intros [K [q Hq]] d Hd. apply in_seq in Hd.
    assert (Any : forall i : Z, (0 <= i < Z.of_nat n)%Z -> i <> Z.of_nat k -> (Z.abs (i - Z.of_nat k) <= Z.of_nat order)%Z ->
       R0 + A * cos (s * IZR i + ph) < R0 + A * cos (s * INR k + ph)).
    { intros i Hi Hne Hab. apply Rplus_lt_compat_l, Rmult_lt_compat_l; [exact HA|].
      rewrite <- (cos_Z (s * INR k + ph) q), <- (cos_Z (s * IZR i + ph) q).
      set (dl := s * INR k + ph - 2 * PI * IZR q) in *.
      replace (s * IZR i + ph - 2 * PI * IZR q) with (dl + s * IZR (i - Z.of_nat k)) by (unfold dl; rewrite minus_IZR, <- INR_IZR_INZ; ring).
      assert (B1 : 1 <= Rabs (IZR (i - Z.of_nat k))) by (rewrite <- abs_IZR; apply (IZR_le 1); lia).
      assert (B2 : Rabs (IZR (i - Z.of_nat k)) <= INR order) by (rewrite <- abs_IZR, INR_IZR_INZ; apply IZR_le; lia).
      rewrite plus_INR in Hper. change (INR 1) with 1 in Hper.
      assert (E : Rabs (s * IZR (i - Z.of_nat k)) = s * Rabs (IZR (i - Z.of_nat k))) by (rewrite Rabs_mult, (Rabs_pos_eq s) by lra; reflexivity).
      pose proof (Rabs_triang dl (s * IZR (i - Z.of_nat k))) as T1.
      pose proof (Rabs_triang_inv (s * IZR (i - Z.of_nat k)) (- dl)) as T2. rewrite Rabs_Ropp in T2.
      replace (s * IZR (i - Z.of_nat k) - - dl) with (dl + s * IZR (i - Z.of_nat k)) in T2 by ring.
      rewrite E in T1, T2. apply cos_closer; nra. }
    apply andb_true_iff. split; apply greater_iff; rewrite !take_in by lia;
      replace (Z.min (Z.max 0 (Z.of_nat k)) (Z.of_nat n - 1)) with (Z.of_nat k) by lia; rewrite <- (INR_IZR_INZ k); apply Any; lia.
Qed.

Lemma near_order k1 k2 q1 q2 : Rabs (s * INR k1 + ph - 2 * PI * IZR q1) < s / 2 -> Rabs (s * INR k2 + ph - 2 * PI * IZR q2) < s / 2 ->
  (k1 < k2)%nat -> (q1 < q2)%Z.
Proof.
  intros H1 H2 L. apply Rabs_def2 in H1, H2. apply lt_IZR. apply Rnot_le_lt. intros L2. pose proof PI_RGT_0 as HPI0.
  assert (INR k1 + 1 <= INR k2) by (rewrite <- S_INR; apply le_INR; lia).
  assert (2 * PI * IZR q2 <= 2 * PI * IZR q1) by nra. nra.
Qed.
Lemma near_order' k1 k2 q1 q2 : Rabs (s * INR k1 + ph - 2 * PI * IZR q1) < s / 2 -> Rabs (s * INR k2 + ph - 2 * PI * IZR q2) < s / 2 ->
  (q1 < q2)%Z -> (k1 < k2)%nat.
Proof.
  intros H1 H2 L. destruct (lt_eq_lt_dec k1 k2) as [[H|H]|H]; [exact H| |].
  - subst k2. exfalso. apply Rabs_def2 in H1, H2. pose proof two_s as T. assert (IZR q1 + 1 <= IZR q2) by (rewrite <- plus_IZR; apply IZR_le; lia). pose proof PI_RGT_0 as HPI0. nra.
  - pose proof (near_order _ _ _ _ H2 H1 H). lia.
Qed.

(** no sample exactly midway *)
Hypothesis Hnt : forall (k : nat) (q : Z), Rabs (s * INR k + ph - 2 * PI * IZR q) <> s / 2.

(** the sample at a maximum *)
Lemma sample q : ph < 2 * PI * IZR q + s / 2 -> exists k, Rabs (s * INR k + ph - 2 * PI * IZR q) < s / 2.
Proof.
  intros H. destruct (nearest s (2 * PI * IZR q - ph) Hs) as [k Hk].
  assert (Hk0 : (0 <= k)%Z).
  { pose proof (abs_bounds _ _ Hk) as Hk'. apply Z.lt_succ_r, lt_IZR. rewrite succ_IZR.
    apply Rmult_lt_reg_l with s; [exact Hs|]. nra. }
  exists (Z.to_nat k). pose proof (Hnt (Z.to_nat k) q) as N. rewrite INR_IZR_INZ, Z2Nat.id in * by lia.
  replace (2 * PI * IZR q - ph - s * IZR k) with (- (s * IZR k + ph - 2 * PI * IZR q)) in Hk by ring. rewrite Rabs_Ropp in Hk. lra.
Qed.

Lemma two_peaks p0 p1 rest : argrelextrema order x = p0 :: p1 :: rest -> (p0 < p1 < n)%nat /\ Rabs (s * (INR p1 - INR p0) - 2 * PI) < s.
Proof.
  intros E. unfold argrelextrema in E. rewrite Hlen in E. destruct (filter_two _ _ _ _ _ _ E) as (L1 & L2 & P0 & P1 & Bt).
  split; [lia|]. apply peak_iff in P0; [|lia]. apply peak_iff in P1; [|lia].
  destruct P0 as [K0 [q0 N0]], P1 as [K1 [q1 N1]].
  assert (Q : (q0 < q1)%Z) by (eapply near_order; eauto; lia).
  assert (Q1 : q1 = (q0 + 1)%Z).
  { destruct (Z.eq_dec q1 (q0 + 1)) as [|NE]; [assumption|exfalso].
    destruct (sample (q0 + 1)) as [k Hk].
    - rewrite plus_IZR. apply Rabs_def2 in N0. pose proof PI_RGT_0 as HPI0. pose proof (pos_INR p0). pose proof two_s. nra.
    - assert (C1 : (p0 < k)%nat) by (eapply near_order'; [exact N0|exact Hk|lia]).
      assert (C2 : (k < p1)%nat) by (eapply near_order'; [exact Hk|exact N1|lia]).
      assert (F : is_peak order x k = false) by (apply Bt; lia).
      assert (T : is_peak order x k = true) by (apply peak_iff; [lia|split; [lia|now exists (q0 + 1)%Z]]). congruence. }
  subst q1. rewrite plus_IZR in N1. apply Rabs_def2 in N0, N1. apply Rabs_def1; nra.
Qed.

Lemma some_peaks : (2 <= n)%nat -> 4 * PI < s * (INR n - 2) -> exists p0 p1 rest, argrelextrema order x = p0 :: p1 :: rest.
Proof.
  intros Hn2 HL. pose proof PI_RGT_0 as HPI0. destruct (archimed ((ph + s / 2) / (2 * PI))) as [A1 A2].
  set (q := up ((ph + s / 2) / (2 * PI))) in *.
  assert (E : ph + s / 2 = 2 * PI * ((ph + s / 2) / (2 * PI))) by (field; lra).
  set (y := (ph + s / 2) / (2 * PI)) in *.
  assert (B1 : ph + s / 2 < 2 * PI * IZR q) by nra.
  assert (B2 : 2 * PI * IZR q <= ph + s / 2 + 2 * PI) by nra.
  destruct (sample q) as [k1 N1]; [lra|]. destruct (sample (q + 1)) as [k2 N2]; [rewrite plus_IZR; lra|].
  assert (L : (k1 < k2)%nat) by (eapply near_order'; [exact N1|exact N2|lia]).
  assert (L0 : (0 < k1)%nat).
  { destruct k1; [|lia]. exfalso. apply Rabs_def2 in N1. change (INR 0) with 0 in N1. lra. }
  assert (L2 : (k2 < n - 1)%nat).
  { apply INR_lt. rewrite minus_INR by lia. change (INR 1) with 1. apply Rabs_def2 in N2. rewrite plus_IZR in N2.
    apply Rmult_lt_reg_l with s; [exact Hs|]. nra. }
  unfold argrelextrema. rewrite Hlen. apply (filter_some_two _ n k1 k2); [lia| |]; (apply peak_iff; [lia|split; [lia|eauto]]).
Qed.
End Cosine.

(** ** iota of a field line whose major radius goes like a cosine *)
Lemma nth_angles b n k : (k < n)%nat -> nth k (angles b n) 0 = INR k * (b / INR n).
Proof.
  intros H. unfold angles. rewrite (nth_indep _ 0 (INR 0 * (b / INR n))) by (rewrite map_length, seq_length; lia).
  rewrite (map_nth (fun k => INR k * (b / INR n)) (seq 0 n) 0%nat). now rewrite seq_nth.
Qed.

Section Line.
Variables (b : R) (n order : nat) (i ph A R0 : R) (trace : list R -> res (list R)) (x : list R).
Hypothesis Ht : trace (angles b n) = Ok x.
Hypothesis Hx : x = map (fun t => R0 + A * cos (i * t + ph)) (angles b n).
Hypothesis HA : 0 < A.
Hypothesis Hb : 0 < b.
Hypothesis Hi : 0 < i.
Hypothesis Hn : (2 <= n)%nat.
Hypothesis Hord : (1 <= order)%nat.
Let h := b / INR n.
Hypothesis Hper : INR (order + 1) * (i * h) <= 2 * PI.

Lemma n_pos : 0 < INR n.
Proof. apply lt_0_INR. lia. Qed.
Lemma h_pos : 0 < h.
Proof. unfold h. apply Rdiv_lt_0_compat; [exact Hb|exact n_pos]. Qed.
Lemma line_len : length x = n.
Proof. rewrite Hx. unfold angles. now rewrite !map_length, seq_length. Qed.
Lemma line_nth k : (k < n)%nat -> nth k x 0 = R0 + A * cos (i * h * INR k + ph).
Proof.
  intros H. rewrite Hx. rewrite (nth_indep _ 0 (R0 + A * cos (i * 0 + ph))) by (rewrite map_length; unfold angles; rewrite map_length, seq_length; exact H).
  rewrite (map_nth (fun t => R0 + A * cos (i * t + ph)) (angles b n) 0). rewrite nth_angles by exact H. fold h. do 3 f_equal. ring.
Qed.

Lemma iota_close : (forall (k : nat) (q : Z), Rabs (i * h * INR k + ph - 2 * PI * IZR q) <> i * h / 2) ->
  4 * PI < i * h * (INR n - 2) ->
  exists v, iota b n order trace = Ok v /\ 0 < v /\ Rabs (2 * PI / v - 2 * PI / i) < h.
Proof.
  intros Hnt HL. pose proof h_pos as Hh. pose proof PI_RGT_0 as HPI0. assert (Hs : 0 < i * h) by nra.
  destruct (some_peaks x order n (i * h) ph A R0 line_len line_nth HA Hs Hord Hper Hnt Hn HL) as (p0 & p1 & rest & E).
  destruct (two_peaks x order n (i * h) ph A R0 line_len line_nth HA Hs Hord Hper Hnt p0 p1 rest E) as [L B].
  unfold iota. rewrite Ht. cbn [bind]. rewrite E. rewrite !nth_angles by lia. fold h.
  assert (D : 0 < INR p1 - INR p0) by (apply Rlt_Rminus, lt_INR; lia).
  assert (D2 : 0 < INR p1 * h - INR p0 * h) by nra.
  eexists; split; [reflexivity|]. split; [apply Rdiv_lt_0_compat; lra|].
  replace (2 * PI / (2 * PI / (INR p1 * h - INR p0 * h)) - 2 * PI / i) with ((i * h * (INR p1 - INR p0) - 2 * PI) / i) by (field; repeat split; lra).
  unfold Rdiv. rewrite Rabs_mult, (Rabs_pos_eq (/ i)) by (left; now apply Rinv_0_lt_compat).
  apply Rmult_lt_reg_r with i; [exact Hi|]. rewrite Rmult_assoc, Rinv_l, Rmult_1_r by lra. lra.
Qed.

(** too few turns, no result *)
Lemma iota_short : ph = 0 -> i * h * INR n <= 2 * PI - i * h / 2 -> iota b n order trace = Err IndexError.
Proof.
  intros Hph HL. pose proof h_pos as Hh. pose proof PI_RGT_0 as HPI0. assert (Hs : 0 < i * h) by nra.
  unfold iota. rewrite Ht. cbn [bind]. destruct (argrelextrema order x) as [|p0 [|p1 rest]] eqn:E; try reflexivity. exfalso.
  unfold argrelextrema in E. rewrite line_len in E. destruct (filter_two _ _ _ _ _ _ E) as (L1 & L2 & P0 & P1 & _).
  apply (peak_iff x order n (i * h) ph A R0 line_len line_nth HA Hs Hord Hper) in P0; [|lia]. destruct P0 as [K0 [q0 N0]].
  rewrite Hph in N0. apply Rabs_def2 in N0.
  assert (1 <= INR p0) by (change 1 with (INR 1); apply le_INR; lia).
  assert (INR p0 <= INR n) by (apply le_INR; lia).
  assert (Hq : (0 < q0 < 1)%Z); [|lia]. split; apply lt_IZR; apply Rmult_lt_reg_l with (2 * PI); nra.
Qed.

(** every other maximum midway between two samples: half of iota *)
Lemma iota_half (j : nat) : ph = 0 -> i * h * INR (2 * j + 1) = 4 * PI -> (2 * (2 * j + 1) < n - 1)%nat ->
  iota b n order trace = Ok (i / 2).
Proof.
  intros Hph HT HL. pose proof h_pos as Hh. pose proof PI_RGT_0 as HPI0. assert (Hs : 0 < i * h) by nra.
  assert (PK : forall k, (k < n)%nat -> (is_peak order x k = true <-> (0 < k < n - 1)%nat /\ exists m, k = (m * (2 * j + 1))%nat)).
  { intros k Hk. rewrite (peak_iff x order n (i * h) ph A R0 line_len line_nth HA Hs Hord Hper k Hk). rewrite Hph, Rplus_0_r. split; intros [K H]; (split; [exact K|]).
    - destruct H as [q N].
      assert (E : i * h * INR k - 2 * PI * IZR q = i * h / 2 * IZR (2 * Z.of_nat k - Z.of_nat (2 * j + 1) * q)).
      { rewrite minus_IZR, !mult_IZR, <- !INR_IZR_INZ. nra. }
      rewrite E, Rabs_mult, (Rabs_pos_eq (i * h / 2)) in N by lra.
      assert (Z0 : (2 * Z.of_nat k - Z.of_nat (2 * j + 1) * q = 0)%Z).
      { assert (Rabs (IZR (2 * Z.of_nat k - Z.of_nat (2 * j + 1) * q)) < 1) by nra. rewrite <- abs_IZR in H. apply lt_IZR in H. lia. }
      assert (Ev : exists m, q = (2 * m)%Z).
      { exists (Z.of_nat k - Z.of_nat j * q)%Z. lia. }
      destruct Ev as [m ->]. exists (Z.to_nat m). assert (0 <= m)%Z by nia. nia.
    - destruct H as [m ->]. exists (2 * Z.of_nat m)%Z. rewrite mult_INR, mult_IZR, <- INR_IZR_INZ.
      replace (i * h * (INR m * INR (2 * j + 1)) - 2 * PI * (2 * INR m)) with ((i * h * INR (2 * j + 1) - 4 * PI) * INR m) by ring.
      rewrite HT. rewrite Rminus_diag_eq, Rmult_0_l, Rabs_R0 by reflexivity. lra. }
  assert (P1 : is_peak order x (2 * j + 1) = true) by (apply PK; [lia|split; [lia|exists 1%nat; lia]]).
  assert (P2 : is_peak order x (2 * (2 * j + 1)) = true) by (apply PK; [lia|split; [lia|exists 2%nat; lia]]).
  destruct (filter_some_two (is_peak order x) n (2 * j + 1) (2 * (2 * j + 1))) as (p0 & p1 & rest & E); [lia|exact P1|exact P2|].
  assert (F : p0 = (2 * j + 1)%nat /\ p1 = (2 * (2 * j + 1))%nat).
  { destruct (filter_two _ _ _ _ _ _ E) as (L1 & L2 & A0 & A1 & Bt).
    assert (First : forall k, (k < p0)%nat -> is_peak order x k = false).
    { intros k Hk. destruct (is_peak order x k) eqn:F; [|reflexivity]. exfalso.
      assert (I : In k (filter (is_peak order x) (seq 0 n))) by (apply filter_In; split; [apply in_seq; lia|exact F]).
      pose proof (NoDup_filter (is_peak order x) (seq_NoDup n 0)) as ND. clear ND.
      assert (S : forall a m p r, filter (is_peak order x) (seq a m) = p :: r -> forall k, In k (p :: r) -> (p <= k)%nat).
      { clear. intros a m. revert a. induction m as [|m IH]; intros a p r E k I; [discriminate|]. cbn [seq filter] in E. destruct (is_peak order x a) eqn:F.
        - injection E as <- <-. destruct I as [->|I]; [lia|]. apply filter_In in I. destruct I as [I _]. apply in_seq in I. lia.
        - eapply IH; eauto. }
      rewrite E in I. pose proof (S _ _ _ _ E _ I). lia. }
    apply PK in A0; [|lia]. apply PK in A1; [|lia]. destruct A0 as [K0 [m0 M0]], A1 as [K1 [m1 M1]].
    assert (m0 = 1)%nat.
    { destruct (le_lt_dec m0 1); [nia|exfalso]. assert (is_peak order x (2 * j + 1) = false) by (apply First; nia). congruence. }
    assert (m1 = 2)%nat.
    { destruct (le_lt_dec m1 2); [nia|exfalso]. assert (is_peak order x (2 * (2 * j + 1)) = false) by (apply Bt; nia). congruence. }
    subst m0 m1. lia. }
  destruct F as [-> ->]. unfold iota. rewrite Ht. cbn [bind]. unfold argrelextrema. rewrite line_len, E. f_equal. rewrite !nth_angles by lia. fold h.
  rewrite (mult_INR 2). change (INR 2) with 2. set (J := INR (2 * j + 1)) in *.
  assert (J1 : 0 < J) by (apply lt_0_INR; lia).
  replace (2 * J * h - J * h) with (J * h) by ring. replace PI with (i * h * J / 4) by lra. field. split; lra.
Qed.
End Line.

Lemma n10000 : INR (Z.to_nat 10000) = 10000.
Proof. rewrite INR_IZR_INZ, Z2Nat.id by lia. reflexivity. Qed.
Lemma step_is : 400 * PI / INR (Z.to_nat 10000) = PI / 25.
Proof. rewrite n10000. field. Qed.

Lemma iota_positive b n order trace x v : 0 < b -> trace (angles b n) = Ok x -> length x = n -> iota b n order trace = Ok v -> 0 < v.
Proof.
  intros Hb Ht Hl E. unfold iota in E. rewrite Ht in E. cbn [bind] in E. destruct (argrelextrema order x) as [|p0 [|p1 rest]] eqn:P; try discriminate.
  apply (f_equal (fun r => match r with Ok w => w | Err _ => 0 end)) in E. cbn beta iota in E. subst v.
  unfold argrelextrema in P. rewrite Hl in P. destruct (filter_two _ _ _ _ _ _ P) as (L1 & L2 & _). rewrite !nth_angles by lia.
  assert (INR p0 < INR p1) by (apply lt_INR; lia). assert (0 < INR n) by (apply lt_0_INR; lia).
  pose proof PI_RGT_0 as HPI0. assert (0 < b / INR n) by (apply Rdiv_lt_0_compat; assumption). apply Rdiv_lt_0_compat; nra.
Qed.

Definition like_cosine (i ph A R0 : R) (l x : list R) : Prop := x = map (fun t => R0 + A * cos (i * t + ph)) l.

Lemma calc_close trace x i ph A R0 : trace (angles (400 * PI) (Z.to_nat 10000)) = Ok x ->
  like_cosine i ph A R0 (angles (400 * PI) (Z.to_nat 10000)) x -> 0 < A -> 1 / 99 <= i <= 9 / 2 ->
  (forall (k : nat) (q : Z), Rabs (i * (PI / 25) * INR k + ph - 2 * PI * IZR q) <> i * (PI / 25) / 2) ->
  exists v, calc_iota trace = Ok v /\ 0 < v /\ Rabs (2 * PI / v - 2 * PI / i) < PI / 25.
Proof.
  intros Ht Hx HA Hi Hn. pose proof PI_RGT_0 as HPI0. unfold calc_iota.
  destruct (iota_close (400 * PI) (Z.to_nat 10000) 10 i ph A R0 trace x Ht Hx HA) as (v & H1 & H2 & H3); rewrite ?step_is; try lra; try lia.
  - replace (INR (10 + 1)) with 11 by (cbn; ring). nra.
  - exact Hn.
  - rewrite n10000. nra.
  - exists v. rewrite step_is in H3. now repeat split.
Qed.
Lemma calc_half trace x A R0 (j : nat) : (11 <= j <= 2498)%nat -> trace (angles (400 * PI) (Z.to_nat 10000)) = Ok x ->
  like_cosine (100 / INR (2 * j + 1)) 0 A R0 (angles (400 * PI) (Z.to_nat 10000)) x -> 0 < A -> calc_iota trace = Ok (100 / INR (2 * j + 1) / 2).
Proof.
  intros Hj Ht Hx HA. pose proof PI_RGT_0 as HPI0. unfold calc_iota.
  assert (J : 23 <= INR (2 * j + 1)) by (replace 23 with (INR 23) by (cbn; ring); apply le_INR; lia).
  assert (I0 : 0 < 100 / INR (2 * j + 1)) by (apply Rdiv_lt_0_compat; lra).
  apply (iota_half (400 * PI) (Z.to_nat 10000) 10 _ 0 A R0 trace x Ht Hx HA) with (j := j); rewrite ?step_is; try lra; try lia.
  - replace (INR (10 + 1)) with 11 by (cbn; ring).
    assert (100 / INR (2 * j + 1) <= 100 / 23) by (apply Rmult_le_compat_l; [lra|apply Rinv_le_contravar; lra]). nra.
  - field. lra.
Qed.
Lemma calc_short trace x i A R0 : trace (angles (400 * PI) (Z.to_nat 10000)) = Ok x ->
  like_cosine i 0 A R0 (angles (400 * PI) (Z.to_nat 10000)) x -> 0 < A -> 0 < i <= 1 / 201 -> calc_iota trace = Err IndexError.
Proof.
  intros Ht Hx HA Hi. pose proof PI_RGT_0 as HPI0. unfold calc_iota.
  apply (iota_short (400 * PI) (Z.to_nat 10000) 10 i 0 A R0 trace x Ht Hx HA); rewrite ?step_is; try lra; try lia.
  - replace (INR (10 + 1)) with 11 by (cbn; ring). nra.
  - rewrite n10000. nra.
Qed.
Lemma calc_positive trace x v : trace (angles (400 * PI) (Z.to_nat 10000)) = Ok x -> length x = Z.to_nat 10000 -> calc_iota trace = Ok v -> 0 < v.
Proof. intros Ht Hl E. pose proof PI_RGT_0 as HPI0. refine (iota_positive (400 * PI) (Z.to_nat 10000) 10 trace x v _ Ht Hl E). lra. Qed.

(** ** A case without samples midway: iota = 1 from the maximum, 50 samples for each turn *)
Lemma no_tie_one (k : nat) (q : Z) : Rabs (1 * (PI / 25) * INR k + 0 - 2 * PI * IZR q) <> 1 * (PI / 25) / 2.
Proof.
  intros E. pose proof PI_RGT_0 as HPI0.
  replace (1 * (PI / 25) * INR k + 0 - 2 * PI * IZR q) with (PI / 25 * IZR (Z.of_nat k - 50 * q)) in E by (rewrite minus_IZR, mult_IZR, <- INR_IZR_INZ; field).
  rewrite Rabs_mult, (Rabs_pos_eq (PI / 25)), <- abs_IZR in E by lra.
  assert (E2 : 2 * IZR (Z.abs (Z.of_nat k - 50 * q)) = 1) by (apply Rmult_eq_reg_l with (PI / 25); lra).
  rewrite <- mult_IZR in E2. apply eq_IZR in E2. lia.
Qed.
