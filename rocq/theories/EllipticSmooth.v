(** Termination of the smoothing of the inner angles. *)
From Coq Require Import List ZArith QArith Qround Qfield Lia Lqa Bool.
From Verif Require Import Prelude PreludeFacts PolModel PolProofs EllipticModel EllipticSpec EllipticProofs.
Import ListNotations.
Open Scope Q_scope.

(** ** Averaging of periodic sequences *)
Section Avg.
Variable n : Z.
Hypothesis Hn : (0 < n)%Z.
Definition periodic (g : Z -> Q) := forall i, g (i + n)%Z == g i.
Definition total (g : Z -> Q) : Q := qsum (map g (zrange 0 n)).
Definition avg (f : Q) (g : Z -> Q) : Z -> Q := fun i => (1 - 2 * f) * g i + f * (g (i + 1)%Z + g (i - 1)%Z).
Definition same (g h : Z -> Q) := forall i, g i == h i.

Lemma periodic_k g : periodic g -> forall k i, g (i + k * n)%Z == g i.
Proof.
  intros P.
  assert (Pos : forall k : nat, forall i, g (i + Z.of_nat k * n)%Z == g i).
  { induction k as [|k IH]; intros i.
    - replace (i + Z.of_nat 0 * n)%Z with i by lia. reflexivity.
    - replace (i + Z.of_nat (S k) * n)%Z with ((i + Z.of_nat k * n) + n)%Z by lia. rewrite (P (i + Z.of_nat k * n)%Z). apply IH. }
  intros k i. destruct (Z.le_gt_cases 0 k) as [H|H].
  - rewrite <- (Z2Nat.id k H). apply Pos.
  - rewrite <- (Pos (Z.to_nat (- k)) (i + k * n)%Z). rewrite Z2Nat.id by lia.
    replace (i + k * n + - k * n)%Z with i by lia. reflexivity.
Qed.
Lemma periodic_mod g : periodic g -> forall i, g i == g (i mod n)%Z.
Proof.
  intros P i. rewrite (Z.mod_eq i n) by lia. rewrite <- (periodic_k g P (- (i / n)) i).
  replace (i + - (i / n) * n)%Z with (i - n * (i / n))%Z by lia. reflexivity.
Qed.

Lemma avg_periodic f g : periodic g -> periodic (avg f g).
Proof.
  intros P i. unfold avg. replace (i + n + 1)%Z with (i + 1 + n)%Z by lia. replace (i + n - 1)%Z with (i - 1 + n)%Z by lia.
  rewrite (P i), (P (i + 1)%Z), (P (i - 1)%Z). reflexivity.
Qed.
Lemma avg_same f g h : same g h -> same (avg f g) (avg f h).
Proof. intros E i. unfold avg. rewrite (E i), (E (i + 1)%Z), (E (i - 1)%Z). reflexivity. Qed.

Lemma total_ext g h : same g h -> total g == total h.
Proof. intros E. unfold total. apply qsum_map_ext. intros; apply E. Qed.

Lemma total_shift g : periodic g -> total (fun i => g (i + 1)%Z) == total g.
Proof.
  intros P. unfold total.
  assert (E : forall m, (0 <= m)%Z -> qsum (map (fun i => g (i + 1)%Z) (zrange 0 m)) + g 0%Z == qsum (map g (zrange 0 m)) + g m).
  { apply natlike_ind; [reflexivity|]. intros m Hm IH. unfold Z.succ. rewrite zrange_snoc by lia.
    rewrite !map_app, !qsum_app. cbn [map qsum]. lra. }
  specialize (E n ltac:(lia)). pose proof (P 0%Z) as P0. rewrite Z.add_0_l in P0. lra.
Qed.

Lemma total_avg f g : periodic g -> total (avg f g) == total g.
Proof.
  intros P. unfold avg.
  assert (P' : periodic (fun i => g (i - 1)%Z)).
  { intros i. replace (i + n - 1)%Z with (i - 1 + n)%Z by lia. apply P. }
  pose proof (total_shift g P) as S1. pose proof (total_shift _ P') as S2. cbv beta in S2.
  assert (S3 : total (fun i => g (i + 1 - 1)%Z) == total g).
  { apply total_ext. intros i. replace (i + 1 - 1)%Z with i by lia. reflexivity. }
  unfold total in *. rewrite qsum_map_plus, !qsum_map_scale, qsum_map_plus, S1, <- S2, S3. ring.
Qed.

Section F.
Variable f : Q.
Hypothesis F0 : 0 < f.
Hypothesis F2 : f <= 1 # 3.

Lemma avg_lower g m : (forall i, m <= g i) -> forall i, m <= avg f g i.
Proof.
  intros H i. unfold avg. pose proof (H i). pose proof (H (i + 1)%Z). pose proof (H (i - 1)%Z).
  assert (0 <= (1 - 2 * f) * (g i - m)) by (apply Qmult_le_0_compat; lra).
  assert (0 <= f * (g (i + 1)%Z - m)) by (apply Qmult_le_0_compat; lra).
  assert (0 <= f * (g (i - 1)%Z - m)) by (apply Qmult_le_0_compat; lra).
  lra.
Qed.

Fixpoint pw (c : Q) (k : nat) : Q := match k with O => 1 | S k => c * pw c k end.
Lemma pw_pos c k : 0 < c -> 0 < pw c k.
Proof. intros H. induction k; cbn [pw]; [lra|]. apply (Qmult_lt_l 0 (pw c k) c) in IHk; lra. Qed.
Lemma pw_le1 c k : 0 < c -> c <= 1 -> pw c k <= 1.
Proof.
  intros H H1. induction k; cbn [pw]; [lra|]. pose proof (pw_pos c k H).
  assert (0 <= (1 - c) * pw c k) by (apply Qmult_le_0_compat; lra). lra.
Qed.

(** one large entry lifts its surroundings *)
Lemma lift g m d j : (forall i, m <= g i) -> 0 <= d -> m + d <= g j ->
  forall k i, (j - Z.of_nat k <= i <= j + Z.of_nat k)%Z -> m + pw f k * d <= iter k (avg f) g i.
Proof.
  intros H Hd Hj. induction k as [|k IH]; intros i Hi.
  - replace i with j by lia. cbn [iter pw]. lra.
  - rewrite iter_S. set (h := iter k (avg f) g) in *.
    assert (Hm : forall i, m <= h i).
    { unfold h. clear IH Hi h. induction k as [|k IH]; [exact H|]. intros i'. rewrite iter_S. now apply avg_lower. }
    cbn [pw]. unfold avg. pose proof (Hm i) as A0. pose proof (Hm (i + 1)%Z) as A1. pose proof (Hm (i - 1)%Z) as A2.
    assert (B0 : 0 <= (1 - 2 * f) * (h i - m)) by (apply Qmult_le_0_compat; lra).
    destruct (Z.lt_trichotomy i j) as [C|[C|C]].
    + pose proof (IH (i + 1)%Z ltac:(lia)) as L.
      assert (0 <= f * (h (i + 1)%Z - (m + pw f k * d))) by (apply Qmult_le_0_compat; lra).
      assert (0 <= f * (h (i - 1)%Z - m)) by (apply Qmult_le_0_compat; lra). lra.
    + pose proof (IH i ltac:(lia)) as L. pose proof (pw_pos f k F0).
      assert (0 <= (1 - 2 * f) * (h i - (m + pw f k * d))) by (apply Qmult_le_0_compat; lra).
      assert (0 <= (1 - 3 * f) * (pw f k * d)) by (apply Qmult_le_0_compat; [lra|]; apply Qmult_le_0_compat; lra).
      assert (0 <= f * (h (i + 1)%Z - m)) by (apply Qmult_le_0_compat; lra).
      assert (0 <= f * (h (i - 1)%Z - m)) by (apply Qmult_le_0_compat; lra). lra.
    + pose proof (IH (i - 1)%Z ltac:(lia)) as L.
      assert (0 <= f * (h (i - 1)%Z - (m + pw f k * d))) by (apply Qmult_le_0_compat; lra).
      assert (0 <= f * (h (i + 1)%Z - m)) by (apply Qmult_le_0_compat; lra). lra.
Qed.

Lemma iter_avg_periodic k g : periodic g -> periodic (iter k (avg f) g).
Proof. revert g. induction k as [|k IH]; intros g P; [exact P|]. apply IH. now apply avg_periodic. Qed.
Lemma iter_avg_total k g : periodic g -> total (iter k (avg f) g) == total g.
Proof. revert g. induction k as [|k IH]; intros g P; [reflexivity|]. cbn [iter]. rewrite IH by now apply avg_periodic. now apply total_avg. Qed.

(** some entry is at least the mean *)
Lemma some_mean g mu : total g == inject_Z n * mu -> exists j, (0 <= j < n)%Z /\ mu <= g j.
Proof.
  intros T. destruct (existsb (fun j => Qle_bool mu (g j)) (zrange 0 n)) eqn:E.
  - apply existsb_exists in E. destruct E as (j & Hj & Hb). rewrite in_zrange in Hj. apply Qle_bool_iff in Hb. eauto.
  - exfalso. assert (A : forall j, (0 <= j < n)%Z -> g j < mu).
    { intros j Hj. destruct (Qlt_le_dec (g j) mu) as [L|L]; [exact L|]. exfalso.
      rewrite <- not_true_iff_false in E. apply E. apply existsb_exists. exists j. rewrite in_zrange. split; [exact Hj|]. now apply Qle_bool_iff. }
    assert (B : forall m, (0 <= m <= n)%Z -> qsum (map g (zrange 0 m)) <= inject_Z m * mu /\ ((0 < m)%Z -> qsum (map g (zrange 0 m)) < inject_Z m * mu)).
    { intros m [Hm Hm']. revert m Hm Hm'. apply (natlike_ind (fun m => (m <= n)%Z -> qsum (map g (zrange 0 m)) <= inject_Z m * mu /\ ((0 < m)%Z -> qsum (map g (zrange 0 m)) < inject_Z m * mu))).
      - intros _. split; [|lia]. change (zrange 0 0) with (@nil Z). change (inject_Z 0) with 0. cbn [map qsum]. lra.
      - intros m Hm IH Hle. destruct IH as [I1 _]; [lia|]. unfold Z.succ in *. rewrite zrange_snoc by lia. rewrite map_app, qsum_app. cbn [map qsum].
        pose proof (A m ltac:(lia)). rewrite inject_Z_plus. change (inject_Z 1) with 1. split; intros; lra. }
    destruct (B n ltac:(lia)) as [_ B']. specialize (B' Hn). unfold total in T. lra.
Qed.

Definition cN : Q := pw f (Z.to_nat n).

(** one round of [n] steps *)
Lemma round g m mu : periodic g -> total g == inject_Z n * mu -> m <= mu -> (forall i, m <= g i) ->
  forall i, m + cN * (mu - m) <= iter (Z.to_nat n) (avg f) g i.
Proof.
  intros P T Hm H i. destruct (some_mean g mu T) as (j & Hj & Hmu).
  rewrite (periodic_mod _ (iter_avg_periodic _ _ P) i). pose proof (Z.mod_pos_bound i n Hn).
  apply (lift g m (mu - m) j H); [lra|lra|]. rewrite Z2Nat.id by lia. lia.
Qed.

Lemma iter_add {A} (h : A -> A) a b x : iter (a + b) h x = iter b h (iter a h x).
Proof. revert x. induction a as [|a IH]; intros x; [reflexivity|]. cbn. apply IH. Qed.

Lemma rounds g m mu r : periodic g -> total g == inject_Z n * mu -> m <= mu -> (forall i, m <= g i) ->
  forall i, mu - pw (1 - cN) r * (mu - m) <= iter (r * Z.to_nat n) (avg f) g i.
Proof.
  assert (C0 : 0 < cN) by (apply pw_pos; exact F0). assert (C1 : cN <= 1) by (apply pw_le1; lra).
  revert g m. induction r as [|r IH]; intros g m P T Hm H i.
  - cbn [pw]. pose proof (H i). cbn. lra.
  - replace (S r * Z.to_nat n)%nat with (Z.to_nat n + r * Z.to_nat n)%nat by lia. rewrite iter_add.
    assert (Hm' : m + cN * (mu - m) <= mu).
    { assert (0 <= (1 - cN) * (mu - m)) by (apply Qmult_le_0_compat; lra). lra. }
    pose proof (IH (iter (Z.to_nat n) (avg f) g) (m + cN * (mu - m)) (iter_avg_periodic _ _ P)
      ltac:(rewrite iter_avg_total by exact P; exact T) Hm' (round g m mu P T Hm H) i) as K.
    cbn [pw].
    assert (E : mu - (1 - cN) * pw (1 - cN) r * (mu - m) == mu - pw (1 - cN) r * (mu - (m + cN * (mu - m)))) by ring.
    rewrite E. exact K.
Qed.

Lemma bernoulli c r : 0 < c -> c <= 1 -> pw (1 - c) r * (1 + inject_Z (Z.of_nat r) * c) <= 1 /\ 0 <= pw (1 - c) r.
Proof.
  intros H0 H1. induction r as [|r [IH IH0]].
  - cbn [pw]. change (inject_Z (Z.of_nat 0)) with 0. split; lra.
  - cbn [pw]. rewrite Nat2Z.inj_succ. unfold Z.succ. rewrite inject_Z_plus. change (inject_Z 1) with 1.
    set (p := pw (1 - c) r) in *. set (q := inject_Z (Z.of_nat r)) in *.
    assert (Q0 : 0 <= q) by (unfold q; change 0 with (inject_Z 0); rewrite <- Zle_Qle; lia).
    split.
    + assert (E : (1 - c) * p * (1 + (q + 1) * c) == p * (1 + q * c) - p * (c * c * (q + 1))) by ring.
      rewrite E. assert (0 <= p * (c * c * (q + 1))); [|lra].
      apply Qmult_le_0_compat; [exact IH0|]. apply Qmult_le_0_compat; [|lra]. apply Qmult_le_0_compat; lra.
    + apply Qmult_le_0_compat; lra.
Qed.

Theorem averaging_positive g m mu : periodic g -> total g == inject_Z n * mu -> 0 < mu -> (forall i, m <= g i) ->
  exists k, forall i, 0 < iter k (avg f) g i.
Proof.
  intros P T Hmu H.
  assert (C0 : 0 < cN) by (apply pw_pos; exact F0). assert (C1 : cN <= 1) by (apply pw_le1; lra).
  assert (Hm : m <= mu \/ mu < m) by (destruct (Qlt_le_dec mu m); auto). destruct Hm as [Hm|Hm].
  2:{ exists 0%nat. intros i. pose proof (H i). cbn [iter]. lra. }
  set (x := (mu - m) / (cN * mu)).
  assert (D : 0 < cN * mu) by (apply (Qmult_lt_l 0 mu cN) in Hmu; lra).
  set (r := Z.to_nat (Qfloor x + 1)).
  assert (X0 : 0 <= x) by (apply Qle_shift_div_l; lra).
  assert (Hr : x < inject_Z (Z.of_nat r)).
  { unfold r. assert (0 <= Qfloor x)%Z by (apply Qfloor_resp_le in X0; exact X0). rewrite Z2Nat.id by lia. apply Qlt_floor. }
  exists (r * Z.to_nat n)%nat. intros i. pose proof (rounds g m mu r P T Hm H i) as K.
  destruct (bernoulli cN r C0 C1) as [B B0]. set (p := pw (1 - cN) r) in *. set (q := inject_Z (Z.of_nat r)) in *.
  assert (p * (mu - m) < mu); [|lra].
  assert (Hx : mu - m < q * (cN * mu)).
  { assert (E : mu - m == x * (cN * mu)) by (unfold x; field; lra).
    rewrite E. apply Qmult_lt_compat_r; assumption. }
  assert (p * (mu - m) <= p * (q * cN) * mu).
  { assert (0 <= p * (q * (cN * mu) - (mu - m))) by (apply Qmult_le_0_compat; lra). lra. }
  assert (p * (q * cN) * mu <= (1 - p) * mu).
  { assert (0 <= (1 - p - p * (q * cN)) * mu) by (apply Qmult_le_0_compat; lra). lra. }
  destruct (Qlt_le_dec 0 p) as [Pp|Pp].
  - assert (0 < p * mu) by (apply (Qmult_lt_l 0 mu p) in Hmu; lra). lra.
  - assert (Pe : p == 0) by lra. rewrite Pe. lra.
Qed.

Lemma iter_avg_lower g m k : (forall i, m <= g i) -> forall i, m <= iter k (avg f) g i.
Proof. revert g. induction k as [|k IH]; intros g H; [exact H|]. apply IH. now apply avg_lower. Qed.

Lemma avg_bounds g a b : (forall i, a < g i < b) -> forall i, a < avg f g i < b.
Proof.
  intros H i. unfold avg. pose proof (H i) as [A0 B0]. pose proof (H (i + 1)%Z) as [A1 B1]. pose proof (H (i - 1)%Z) as [A2 B2].
  assert (X : forall u v, 0 < u -> 0 < v -> 0 < u * v).
  { intros u v Hu Hv. apply (Qmult_lt_l 0 v u) in Hv; lra. }
  assert (0 <= (1 - 2 * f) * (g i - a)) by (apply Qmult_le_0_compat; lra).
  assert (0 <= (1 - 2 * f) * (b - g i)) by (apply Qmult_le_0_compat; lra).
  pose proof (X f (g (i + 1)%Z - a) F0 ltac:(lra)). pose proof (X f (g (i - 1)%Z - a) F0 ltac:(lra)).
  pose proof (X f (b - g (i + 1)%Z) F0 ltac:(lra)). pose proof (X f (b - g (i - 1)%Z) F0 ltac:(lra)).
  split; lra.
Qed.
End F.
End Avg.

(** ** wrap *)
Section W.
Variable pi : Q.
Hypothesis Hpi : 0 < pi.

Lemma wrap_range v : - pi <= wrap pi v < pi.
Proof.
  unfold wrap, qrem. set (q := (v + pi) / (2 * pi)).
  assert (E : v + pi == q * (2 * pi)) by (unfold q; field; lra).
  pose proof (Qfloor_le q) as L. pose proof (Qlt_floor q) as U. rewrite inject_Z_plus in U. change (inject_Z 1) with 1 in U.
  set (k := inject_Z (Qfloor q)) in *.
  assert (0 <= (q - k) * (2 * pi)) by (apply Qmult_le_0_compat; lra).
  assert (0 < (k + 1 - q) * (2 * pi)).
  { assert (P : 0 < k + 1 - q) by lra. apply (Qmult_lt_r 0 (k + 1 - q) (2 * pi)) in P; lra. }
  split; lra.
Qed.
Lemma wrap_mod v : exists k : Z, wrap pi v == v - inject_Z k * (2 * pi).
Proof. exists (Qfloor ((v + pi) / (2 * pi))). unfold wrap, qrem. ring. Qed.
Lemma wrap_unique v u k : v == u + inject_Z k * (2 * pi) -> - pi <= u < pi -> wrap pi v == u.
Proof.
  intros E R. unfold wrap, qrem.
  assert (Ef : Qfloor ((v + pi) / (2 * pi)) = k).
  { apply Qfloor_spec. rewrite inject_Z_plus. change (inject_Z 1) with 1.
    assert (E2 : (v + pi) / (2 * pi) == inject_Z k + (u + pi) / (2 * pi)) by (rewrite E; field; lra).
    rewrite E2. assert (0 <= (u + pi) / (2 * pi)) by (apply Qle_shift_div_l; lra).
    assert ((u + pi) / (2 * pi) < 1) by (apply Qlt_shift_div_r; lra). split; lra. }
  rewrite Ef, E. ring.
Qed.
Lemma wrap_id u : - pi <= u < pi -> wrap pi u == u.
Proof. intros R. apply (wrap_unique u u 0); [change (inject_Z 0) with 0; ring|exact R]. Qed.
Lemma wrap_comp a b : a == b -> wrap pi a == wrap pi b.
Proof. 
  intros E. unfold wrap, qrem. rewrite (Qfloor_comp ((a + pi) / (2 * pi)) ((b + pi) / (2 * pi))) by (rewrite E; reflexivity).
  rewrite E. reflexivity.
Qed.
Lemma wrap_opp v : - pi < wrap pi v -> wrap pi (- v) == - wrap pi v.
Proof.
  intros H. destruct (wrap_mod v) as [k Hk]. pose proof (wrap_range v) as [_ U].
  apply (wrap_unique (- v) (- wrap pi v) (- k)); [|split; lra]. rewrite inject_Z_opp. lra.
Qed.

Section N.
Variable n : Z.
Hypothesis Hn : (0 < n)%Z.

Lemma gap_periodic x : periodic n (gap pi n x).
Proof.
  intros i. unfold gap. replace (i + n + 1)%Z with (i + 1 + 1 * n)%Z by lia. rewrite Z_mod_plus_full.
  replace (i + n)%Z with (i + 1 * n)%Z by lia. rewrite Z_mod_plus_full. reflexivity.
Qed.
Lemma gap_dxv x i : (0 <= i < n)%Z -> dxv pi n x (-1) i = gap pi n x i.
Proof. intros H. unfold dxv, gap. replace (i - -1)%Z with (i + 1)%Z by lia. now rewrite (Z.mod_small i n H). Qed.

Lemma back_gap x i : (0 <= i < n)%Z -> no_opposite pi n x -> dxv pi n x 1 i == - gap pi n x (i - 1).
Proof.
  intros H NO. unfold dxv. specialize (NO (i - 1)%Z).
  assert (E : gap pi n x (i - 1) = wrap pi (x i - x ((i - 1) mod n)%Z)).
  { unfold gap. replace (i - 1 + 1)%Z with i by lia. now rewrite (Z.mod_small i n H). }
  rewrite E in NO |- *. rewrite <- wrap_opp by exact NO. apply wrap_comp. ring.
Qed.

Lemma monotonic_iff x : monotonic pi n x = true <-> forall i, 0 < gap pi n x i.
Proof.
  unfold monotonic. rewrite forallb_forall. split.
  - intros H i. rewrite (periodic_mod n Hn _ (gap_periodic x) i). pose proof (Z.mod_pos_bound i n Hn) as B.
    rewrite <- gap_dxv by exact B. apply Qlt_bool_iff. apply H. now rewrite in_zrange.
  - intros H i Hi. rewrite in_zrange in Hi. rewrite gap_dxv by exact Hi. apply Qlt_bool_iff. apply H.
Qed.

Section F.
Variable f : Q.
Hypothesis F0 : 0 < f.
Hypothesis F2 : f <= 1 # 3.

Lemma smooth_avg x : no_opposite pi n x -> same (gap pi n (smooth_step pi n f x)) (avg f (gap pi n x)).
Proof.
  intros NO i.
  assert (B : forall i, - pi < avg f (gap pi n x) i < pi).
  { apply avg_bounds; [exact F0|exact F2|]. intros i'. split; [apply NO|]. apply wrap_range. }
  rewrite (periodic_mod n Hn _ (gap_periodic _) i).
  rewrite (periodic_mod n Hn _ (avg_periodic n f _ (gap_periodic x)) i).
  pose proof (Z.mod_pos_bound i n Hn) as Hi. set (j := (i mod n)%Z) in *. clearbody j. clear i.
  set (j' := ((j + 1) mod n)%Z). assert (Hj' : (0 <= j' < n)%Z) by apply (Z.mod_pos_bound _ n Hn).
  assert (E1 : gap pi n x j' == gap pi n x (j + 1)) by (symmetry; apply (periodic_mod n Hn _ (gap_periodic x))).
  assert (E2 : gap pi n x (j' - 1) == gap pi n x j).
  { rewrite (periodic_mod n Hn _ (gap_periodic x) (j' - 1)). unfold j'. rewrite Zminus_mod_idemp_l.
    replace (j + 1 - 1)%Z with j by lia. now rewrite (Z.mod_small j n Hi). }
  unfold gap at 1. rewrite (Z.mod_small j n Hi). fold j'.
  destruct (wrap_mod (x j' - x j)) as [k Hk].
  apply (wrap_unique _ _ k); [|split; [pose proof (B j); lra|apply B]].
  unfold smooth_step. rewrite !back_gap, !gap_dxv by assumption. unfold avg.
  assert (Eg : gap pi n x j == x j' - x j - inject_Z k * (2 * pi)).
  { unfold gap. rewrite (Z.mod_small j n Hi). exact Hk. }
  rewrite E1, E2. clear - Eg. lra.
Qed.

Lemma no_opposite_step x : no_opposite pi n x -> no_opposite pi n (smooth_step pi n f x).
Proof.
  intros NO i. rewrite (smooth_avg x NO i).
  assert (B : forall i, - pi < avg f (gap pi n x) i < pi).
  { apply avg_bounds; [exact F0|exact F2|]. intros i'. split; [apply NO|]. apply wrap_range. }
  apply B.
Qed.
Lemma no_opposite_iter k x : no_opposite pi n x -> no_opposite pi n (iter k (smooth_step pi n f) x).
Proof. revert x. induction k as [|k IH]; intros x H; [exact H|]. apply IH. now apply no_opposite_step. Qed.

Lemma iter_same k g h : same g h -> same (iter k (avg f) g) (iter k (avg f) h).
Proof. revert g h. induction k as [|k IH]; intros g h E; [exact E|]. apply IH. now apply avg_same. Qed.

Lemma smooth_iter_avg k x : no_opposite pi n x ->
  same (gap pi n (iter k (smooth_step pi n f) x)) (iter k (avg f) (gap pi n x)).
Proof.
  revert x. induction k as [|k IH]; intros x NO; [intros i; reflexivity|]. intros i. cbn [iter].
  rewrite (IH (smooth_step pi n f x) (no_opposite_step x NO) i). apply iter_same. now apply smooth_avg.
Qed.

Lemma turns_step x w : no_opposite pi n x -> turns pi n x w -> turns pi n (smooth_step pi n f x) w.
Proof.
  unfold turns. intros NO T. rewrite (total_ext n _ _ (smooth_avg x NO)).
  rewrite (total_avg n Hn f _ (gap_periodic x)). exact T.
Qed.
Lemma turns_iter k x w : no_opposite pi n x -> turns pi n x w -> turns pi n (iter k (smooth_step pi n f) x) w.
Proof. revert x. induction k as [|k IH]; intros x NO T; [exact T|]. apply IH; [now apply no_opposite_step|now apply turns_step]. Qed.

Lemma until_terminates k : forall x, monotonic pi n (iter k (smooth_step pi n f) x) = true ->
  exists fuel y, until_monotonic pi n fuel f x = Some y.
Proof.
  induction k as [|k IH]; intros x M.
  - exists 1%nat, x. cbn [until_monotonic]. cbn [iter] in M. now rewrite M.
  - destruct (IH _ M) as (fuel & y & E). destruct (monotonic pi n x) eqn:Ex.
    + exists 1%nat, x. cbn. now rewrite Ex.
    + exists (S fuel), y. cbn. now rewrite Ex.
Qed.

Lemma until_result fuel : forall x y, until_monotonic pi n fuel f x = Some y ->
  monotonic pi n y = true /\ exists k, y = iter k (smooth_step pi n f) x /\
    forall k', (k' < k)%nat -> monotonic pi n (iter k' (smooth_step pi n f) x) = false.
Proof.
  induction fuel as [|fuel IH]; intros x y; [discriminate|]. cbn [until_monotonic].
  destruct (monotonic pi n x) eqn:Ex.
  - intros [= <-]. split; [exact Ex|]. exists 0%nat. split; [reflexivity|]. intros k' Hk'. lia.
  - intros H. destruct (IH _ _ H) as [M (k & Ey & Hk)]. split; [exact M|]. exists (S k). split; [exact Ey|].
    intros [|k'] Hk'; [exact Ex|]. cbn [iter]. apply Hk. lia.
Qed.

Lemma until_turns_pos x w : no_opposite pi n x -> turns pi n x w -> (0 < w)%Z ->
  exists fuel y, until_monotonic pi n fuel f x = Some y.
Proof.
  intros NO T Hw.
  assert (Hw' : 0 < inject_Z w) by (change 0 with (inject_Z 0); rewrite <- Zlt_Qlt; lia).
  assert (Hn' : 0 < inject_Z n) by (change 0 with (inject_Z 0); rewrite <- Zlt_Qlt; lia).
  destruct (averaging_positive n Hn f F0 F2 (gap pi n x) (- pi) (inject_Z w * (2 * pi) / inject_Z n) (gap_periodic x)) as [k Hk].
  - unfold turns in T. unfold total. rewrite T. field. lra.
  - apply Qlt_shift_div_l; [exact Hn'|]. apply (Qmult_lt_r 0 (inject_Z w) (2 * pi)) in Hw'; lra.
  - intros i. apply wrap_range.
  - apply (until_terminates k). apply monotonic_iff. intros i. rewrite (smooth_iter_avg k x NO i). apply Hk.
Qed.

Lemma positive_total x : (forall i, 0 < gap pi n x i) -> 0 < qsum (map (gap pi n x) (zrange 0 n)).
Proof.
  intros H. apply qsum_pos.
  - rewrite zrange_cons by lia. discriminate.
  - intros q Hq. apply in_map_iff in Hq. destruct Hq as (i & <- & _). apply H.
Qed.

Lemma until_turns_nonpos x w fuel : no_opposite pi n x -> turns pi n x w -> (w <= 0)%Z ->
  until_monotonic pi n fuel f x = None.
Proof.
  intros NO T Hw. destruct (until_monotonic pi n fuel f x) as [y|] eqn:E; [|reflexivity]. exfalso.
  destruct (until_result _ _ _ E) as [M (k & -> & _)]. rewrite monotonic_iff in M. apply positive_total in M.
  pose proof (turns_iter k x w NO T) as T'. unfold turns in T'.
  assert (Hw' : inject_Z w <= 0) by (change 0 with (inject_Z 0); rewrite <- Zle_Qle; lia).
  assert (0 <= (- inject_Z w) * (2 * pi)) by (apply Qmult_le_0_compat; lra). lra.
Qed.
End F.

(** the sum of the gaps is a whole number of turns *)
Lemma turns_exists x : exists w, turns pi n x w.
Proof.
  assert (K : forall m, (0 <= m)%Z -> exists w, qsum (map (gap pi n x) (zrange 0 m)) ==
            x (m mod n)%Z - x (0 mod n)%Z + inject_Z w * (2 * pi)).
  { apply natlike_ind.
    - exists 0%Z. change (zrange 0 0) with (@nil Z). change (inject_Z 0) with 0. cbn [map qsum]. ring.
    - intros m Hm [w IH]. unfold Z.succ. rewrite zrange_snoc by lia.
      destruct (wrap_mod (x ((m + 1) mod n)%Z - x (m mod n)%Z)) as [k Hk].
      exists (w - k)%Z. rewrite map_app, qsum_app. cbn [map qsum]. unfold gap at 2. rewrite IH, Hk.
      unfold Z.sub. rewrite inject_Z_plus, inject_Z_opp. ring. }
  destruct (K n ltac:(lia)) as [w H]. exists w. unfold turns. rewrite H, Z.mod_same, Z.mod_0_l by lia. ring.
Qed.
End N.

(** two points never become monotonic *)
Lemma two_never f x fuel : until_monotonic pi 2 fuel f x = None.
Proof.
  destruct (until_monotonic pi 2 fuel f x) as [y|] eqn:E; [|reflexivity]. exfalso.
  destruct (until_result 2 f _ _ _ E) as [M _]. rewrite (monotonic_iff 2 ltac:(lia)) in M.
  pose proof (M 0%Z) as M0. pose proof (M 1%Z) as M1. unfold gap in M0, M1.
  change ((0 + 1) mod 2)%Z with 1%Z in M0. change (0 mod 2)%Z with 0%Z in M0.
  change ((1 + 1) mod 2)%Z with 0%Z in M1. change (1 mod 2)%Z with 1%Z in M1.
  assert (E2 : wrap pi (y 0%Z - y 1%Z) == - wrap pi (y 1%Z - y 0%Z)).
  { rewrite <- wrap_opp by lra. apply wrap_comp. ring. }
  lra.
Qed.
End W.

(** ** laplace *)
Lemma smooth_fac_range nz : (0 < nz)%Z -> 0 < fst (smooth_fac nz) /\ fst (smooth_fac nz) <= 1 # 3.
Proof.
  intros H. unfold smooth_fac.
  assert (0 < inject_Z nz) by (change 0 with (inject_Z 0); rewrite <- Zlt_Qlt; lia).
  destruct (Qlt_bool (1 # 10) ((1 # 10) * inject_Z nz / 192)) eqn:E; cbn [fst].
  - split; [reflexivity|discriminate].
  - apply Qlt_bool_false_iff in E. split; [|lra]. apply Qlt_shift_div_l; lra.
Qed.

Section L.
Variable pi : Q.
Hypothesis Hpi : 0 < pi.
Variable n : Z.
Hypothesis Hn : (0 < n)%Z.

Lemma laplace_terminates x w : no_opposite pi n x -> turns pi n x w -> (0 < w)%Z -> exists fuel y, laplace pi n fuel x = Some y.
Proof.
  intros NO T Hw. unfold laplace. destruct (smooth_fac_range n Hn) as [A B]. destruct (smooth_fac n) as [fac steps]. cbn [fst] in A, B.
  apply until_turns_pos with (w := w); try assumption; [now apply no_opposite_iter|now apply turns_iter].
Qed.
Lemma laplace_loops x w fuel : no_opposite pi n x -> turns pi n x w -> (w <= 0)%Z -> laplace pi n fuel x = None.
Proof.
  intros NO T Hw. unfold laplace. destruct (smooth_fac_range n Hn) as [A B]. destruct (smooth_fac n) as [fac steps]. cbn [fst] in A, B.
  apply until_turns_nonpos with (w := w); try assumption; [now apply no_opposite_iter|now apply turns_iter].
Qed.
Lemma laplace_result fuel x y : laplace pi n fuel x = Some y ->
  (forall i, 0 < gap pi n y i) /\ (forall w, no_opposite pi n x -> turns pi n x w -> turns pi n y w).
Proof.
  unfold laplace. destruct (smooth_fac_range n Hn) as [A B]. destruct (smooth_fac n) as [fac steps]. cbn [fst] in A, B.
  intros H. destruct (until_result pi n fac _ _ _ H) as [M (k & -> & _)]. rewrite (monotonic_iff pi n Hn) in M.
  split; [exact M|]. intros w NO T. apply turns_iter; try assumption; [now apply no_opposite_iter|now apply turns_iter].
Qed.
End L.
