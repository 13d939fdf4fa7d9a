(** Proofs about the finite-volume operator: fluxes, normals, linear functions,
    cell volumes. *)
From Coq Require Import List ZArith QArith Bool Lia Lqa Morphisms Setoid.
From Verif Require Import Prelude PreludeFacts PolModel DagpModel DagpSpec.
Import ListNotations.
Open Scope Q_scope.

(** ** Sums along lines of points *)

Lemma same_refl a : same_point a a. Proof. split; reflexivity. Qed.
Lemma same_sym a b : same_point a b -> same_point b a.
Proof. intros [H1 H2]. split; symmetry; assumption. Qed.
Lemma same_trans a b c : same_point a b -> same_point b c -> same_point a c.
Proof. intros [H1 H2] [H3 H4]. split; etransitivity; eassumption. Qed.

Lemma pairs_map_seq {A} (g : nat -> A) n s :
  pairs (map g (seq s (S n))) = map (fun m => (g m, g (S m))) (seq s n).
Proof.
  revert s. induction n; intros s; [reflexivity|].
  change (seq s (S (S n))) with (s :: seq (S s) (S n)).
  change (map g (s :: seq (S s) (S n))) with (g s :: map g (seq (S s) (S n))).
  specialize (IHn (S s)).
  change (seq (S s) (S n)) with (S s :: seq (S (S s)) n) in *.
  cbn [map pairs] in *. rewrite IHn. reflexivity.
Qed.

Lemma qsum_seq_S f n s : qsum (map f (seq s (S n))) == qsum (map f (seq s n)) + f (s + n)%nat.
Proof. rewrite seq_S, map_app, qsum_app. cbn [map qsum]. ring. Qed.

Lemma qsum_seq_shift f n s : qsum (map f (seq s n)) == qsum (map (fun m => f (s + m)%nat) (seq 0 n)).
Proof.
  induction n; [reflexivity|]. rewrite !qsum_seq_S, IHn. reflexivity.
Qed.

Lemma qsum_seq_ext f g n : (forall m, (m < n)%nat -> f m == g m) ->
  qsum (map f (seq 0 n)) == qsum (map g (seq 0 n)).
Proof. intros H. apply qsum_map_ext. intros m Hm. apply in_seq in Hm. apply H. lia. Qed.

Lemma qsum_telescope u n : qsum (map (fun m => u m - u (S m)) (seq 0 n)) == u 0%nat - u n.
Proof.
  induction n; [cbn; ring|]. rewrite qsum_seq_S, IHn. rewrite Nat.add_0_l. ring.
Qed.

Lemma qsum_seq_head f n : qsum (map f (seq 0 (S n))) == f 0%nat + qsum (map (fun m => f (S m)) (seq 0 n)).
Proof.
  change (seq 0 (S n)) with (0%nat :: seq 1 n). cbn [map qsum].
  rewrite <- seq_shift, map_map. reflexivity.
Qed.

Lemma qsum_seq_rev f n : qsum (map f (seq 0 n)) == qsum (map (fun m => f (n - 1 - m)%nat) (seq 0 n)).
Proof.
  induction n; [reflexivity|].
  rewrite qsum_seq_S, qsum_seq_head, IHn, Nat.add_0_l.
  replace (S n - 1 - 0)%nat with n by lia.
  rewrite (qsum_seq_ext (fun m => f (S n - 1 - S m)%nat) (fun m => f (n - 1 - m)%nat)).
  - ring.
  - intros m Hm. replace (S n - 1 - S m)%nat with (n - 1 - m)%nat by lia. reflexivity.
Qed.

Definition seg (h : Q * Q -> Q * Q -> Q) (l : list (Q * Q)) : Q :=
  qsum (map (fun ab : (Q*Q) * (Q*Q) => h (fst ab) (snd ab)) (pairs l)).

Lemma seg_join h l1 a b l2 :
  seg h ((l1 ++ [a]) ++ b :: l2) == seg h (l1 ++ [a]) + h a b + seg h (b :: l2).
Proof.
  unfold seg. induction l1 as [|x l1 IH].
  - cbn [app pairs map qsum fst snd]. ring.
  - destruct l1 as [|y l1].
    + cbn [app pairs map qsum fst snd] in *. rewrite IH. ring.
    + cbn [app pairs map qsum fst snd] in *. rewrite IH. ring.
Qed.

Definition line (h : Q * Q -> Q * Q -> Q) (g : nat -> Q * Q) : Q :=
  qsum (map (fun m => h (g m) (g (S m))) (seq 0 11)).

Lemma seg_line h g : seg h (map g (seq 0 12)) == line h g.
Proof. unfold seg, line. rewrite pairs_map_seq, map_map. cbn [fst snd]. reflexivity. Qed.

Definition respects (h : Q * Q -> Q * Q -> Q) : Prop :=
  forall a a' b b', same_point a a' -> same_point b b' -> h a b == h a' b'.

Lemma line_ext h g g' : respects h -> (forall m, (m <= 11)%nat -> same_point (g m) (g' m)) ->
  line h g == line h g'.
Proof.
  intros Hh H. unfold line. apply qsum_seq_ext. intros m Hm. apply Hh; apply H; lia.
Qed.

Lemma line_rev h g g' : respects h -> (forall a b, h b a == - h a b) ->
  (forall m, (m <= 11)%nat -> same_point (g' m) (g (11 - m)%nat)) -> line h g' == - line h g.
Proof.
  intros Hh Ha H.
  rewrite (line_ext h g' (fun m => g (11 - m)%nat) Hh H). unfold line.
  rewrite (qsum_seq_rev (fun m => h (g m) (g (S m))) 11).
  rewrite (qsum_seq_ext (fun m => h (g (11 - m)%nat) (g (11 - S m)%nat))
    (fun m => (-1) * h (g (11 - 1 - m)%nat) (g (S (11 - 1 - m))))).
  - rewrite qsum_map_scale. ring.
  - intros m Hm. rewrite Ha. replace (11 - S m)%nat with (11 - 1 - m)%nat by lia.
    replace (11 - m)%nat with (S (11 - 1 - m)) by lia. ring.
Qed.

(** ** Solving *)

Lemma solve2_spec dx dz b c : solve2 dx dz b = Some c ->
  fst c * fst dx + snd c * fst dz == fst b /\ fst c * snd dx + snd c * snd dz == snd b.
Proof.
  unfold solve2. destruct (Qeq_bool _ 0) eqn:E; [discriminate|]. intros H.
  injection H as <-. cbn [fst snd]. apply Qeq_bool_neq in E.
  split; field; exact E.
Qed.

Lemma in_indices n ny nz i j k :
  In (i, j, k) (indices n ny nz) <-> (0 <= i < n)%Z /\ (0 <= j < ny)%Z /\ (0 <= k < nz)%Z.
Proof.
  unfold indices. rewrite in_flat_map. split.
  - intros (i' & Hi & H). apply in_flat_map in H. destruct H as (j' & Hj & H).
    apply in_map_iff in H. destruct H as (k' & E & Hk). injection E as -> -> ->.
    rewrite in_zrange in *. lia.
  - intros (Hi & Hj & Hk). exists i. split; [apply in_zrange; lia|].
    apply in_flat_map. exists j. split; [apply in_zrange; lia|].
    apply in_map_iff. exists k. split; [reflexivity|apply in_zrange; lia].
Qed.

Lemma solve_spec n ny nz dx dz b c : solve n ny nz dx dz b = Ok c ->
  forall i j k, (0 <= i < n)%Z -> (0 <= j < ny)%Z -> (0 <= k < nz)%Z ->
    fst (c i j k) * fst (dx i j k) + snd (c i j k) * fst (dz i j k) == fst (b i j k) /\
    fst (c i j k) * snd (dx i j k) + snd (c i j k) * snd (dz i j k) == snd (b i j k).
Proof.
  unfold solve. intros H i j k Hi Hj Hk.
  destruct (forallb _ _) eqn:E; [|discriminate]. injection H as <-.
  rewrite forallb_forall in E. specialize (E (i, j, k)).
  rewrite in_indices in E. specialize (E (conj Hi (conj Hj Hk))). cbv beta iota in E.
  destruct (solve2 (dx i j k) (dz i j k) (b i j k)) eqn:E2; [|discriminate].
  exact (solve2_spec _ _ _ _ E2).
Qed.

(** ** The operator cell by cell *)

Lemma apply_op_cell nx nz cX cZ f i j k : (1 <= i < nx - 1)%Z ->
  apply_op nx nz cX cZ f i j k ==
  flux_through_x nz cX f i j k - flux_through_x nz cX f (i - 1) j k
  + flux_through_z nz cZ f i j k - flux_through_z nz cZ f i j ((k - 1) mod nz).
Proof.
  intros Hi. unfold apply_op. cbv beta zeta.
  replace (i =? 0)%Z with false by (symmetry; apply Z.eqb_neq; lia).
  replace (i =? nx - 1)%Z with false by (symmetry; apply Z.eqb_neq; lia).
  replace (1 <=? i)%Z with true by (symmetry; apply Z.leb_le; lia).
  replace (i <? nx - 1)%Z with true by (symmetry; apply Z.ltb_lt; lia).
  cbn [andb]. unfold flux_x, flux_z, flux_through_x, flux_through_z, roll. cbv beta zeta.
  replace (i - 1 + 1)%Z with i by lia. replace (i - 1 + 2)%Z with (i + 1)%Z by lia.
  replace (k - -1)%Z with (k + 1)%Z by lia.
  replace ((k - 1) mod nz - -1)%Z with ((k - 1) mod nz + 1)%Z by lia.
  field.
Qed.

Lemma apply_op_edges nx nz cX cZ f i j k : (i = 0 \/ i = nx - 1)%Z ->
  apply_op nx nz cX cZ f i j k = 0.
Proof.
  intros [-> | ->]; unfold apply_op; cbv beta zeta; [reflexivity|].
  rewrite Z.eqb_refl. destruct (nx - 1 =? 0)%Z; reflexivity.
Qed.

(** Sums over k of a rolled array. *)
Lemma sum_over_ext lo hi f g : (forall i, (lo <= i < hi)%Z -> f i == g i) ->
  sum_over lo hi f == sum_over lo hi g.
Proof. intros H. apply qsum_map_ext. intros i Hi. apply H. now apply in_zrange. Qed.

Lemma sum_over_plus lo hi f g : sum_over lo hi (fun i => f i + g i) == sum_over lo hi f + sum_over lo hi g.
Proof. apply qsum_map_plus. Qed.

Lemma sum_over_minus lo hi f g : sum_over lo hi (fun i => f i - g i) == sum_over lo hi f - sum_over lo hi g.
Proof.
  rewrite (sum_over_ext lo hi (fun i => f i - g i) (fun i => f i + (-1) * g i)) by (intros; ring).
  rewrite sum_over_plus. unfold sum_over at 2. rewrite qsum_map_scale. unfold sum_over. ring.
Qed.

Lemma sum_over_roll n f : (0 < n)%Z ->
  sum_over 0 n (fun k => f ((k - 1) mod n)%Z) == sum_over 0 n f.
Proof.
  intros Hn. unfold sum_over.
  rewrite (zrange_cons 0 n) at 1 by lia. cbn [map qsum].
  replace ((0 - 1) mod n)%Z with (n - 1)%Z.
  2:{ replace (0 - 1)%Z with ((n - 1) + (-1) * n)%Z by lia. rewrite Z_mod_plus_full, Z.mod_small; lia. }
  assert (Es : zrange 0 n = zrange 0 (n - 1) ++ [(n - 1)%Z]).
  { rewrite <- zrange_snoc by lia. f_equal; lia. }
  rewrite Es. rewrite map_app, qsum_app. cbn [map qsum].
  assert (E : qsum (map (fun k => f ((k - 1) mod n)%Z) (zrange (0 + 1) n)) ==
              qsum (map f (zrange 0 (n - 1)))).
  { unfold zrange. rewrite !map_map.
    replace (Z.to_nat (n - 1 - 0)) with (Z.to_nat (n - (0 + 1))) by lia.
    apply qsum_map_ext. intros m Hm. apply in_seq in Hm.
    replace (0 + 1 + Z.of_nat m - 1)%Z with (0 + Z.of_nat m)%Z by lia.
    rewrite Z.mod_small by lia. reflexivity. }
  rewrite E. ring.
Qed.

Lemma sum_over_telescope n u : (1 <= n)%Z ->
  sum_over 1 n (fun i => u i - u (i - 1)%Z) == u (n - 1)%Z - u 0%Z.
Proof.
  intros Hn. unfold sum_over.
  replace n with (1 + Z.of_nat (Z.to_nat (n - 1)))%Z by lia.
  generalize (Z.to_nat (n - 1)). clear. intros m. induction m.
  - rewrite zrange_nil by lia. cbn. ring.
  - replace (1 + Z.of_nat (S m))%Z with (1 + Z.of_nat m + 1)%Z by lia.
    rewrite zrange_snoc by lia. rewrite map_app, qsum_app, IHm. cbn [map qsum].
    replace (1 + Z.of_nat m + 1 - 1)%Z with (1 + Z.of_nat m)%Z by lia. ring.
Qed.

Lemma sum_over_swap lo hi lo' hi' (f : Z -> Z -> Q) :
  sum_over lo hi (fun i => sum_over lo' hi' (fun k => f i k)) ==
  sum_over lo' hi' (fun k => sum_over lo hi (fun i => f i k)).
Proof.
  unfold sum_over. induction (zrange lo hi) as [|a l IH]; cbn [map qsum].
  - symmetry. rewrite (qsum_map_ext (fun _ => 0) (fun _ => 0 * 0)) by (intros; ring).
    rewrite (qsum_map_scale 0 (fun _ => 0)). ring.
  - rewrite IH, <- qsum_map_plus. reflexivity.
Qed.

Lemma conservative nx nz cX cZ f j : (2 <= nx)%Z -> (0 < nz)%Z ->
  sum_over 0 nx (fun i => sum_over 0 nz (fun k => apply_op nx nz cX cZ f i j k)) ==
  sum_over 0 nz (fun k => flux_through_x nz cX f (nx - 2) j k)
  - sum_over 0 nz (fun k => flux_through_x nz cX f 0 j k).
Proof.
  intros Hx Hz.
  set (S := fun i => sum_over 0 nz (flux_through_x nz cX f i j)).
  assert (E0 : forall i, (i = 0 \/ i = nx - 1)%Z ->
    sum_over 0 nz (fun k => apply_op nx nz cX cZ f i j k) == 0).
  { intros i Hi. rewrite (sum_over_ext 0 nz _ (fun _ => 0 * 0)).
    - unfold sum_over. rewrite (qsum_map_scale 0 (fun _ => 0)). ring.
    - intros k _. rewrite apply_op_edges by exact Hi. ring. }
  transitivity (sum_over 1 (nx - 1) (fun i => sum_over 0 nz (fun k => apply_op nx nz cX cZ f i j k))).
  { unfold sum_over at 1 3. rewrite zrange_cons by lia. cbn [map qsum].
    rewrite (E0 0%Z) by (left; reflexivity).
    change (0 + 1)%Z with 1%Z.
    assert (Es : zrange 1 nx = zrange 1 (nx - 1) ++ [(nx - 1)%Z]).
    { rewrite <- zrange_snoc by lia. f_equal; lia. }
    rewrite Es. rewrite map_app, qsum_app. cbn [map qsum].
    rewrite (E0 (nx - 1)%Z) by (right; reflexivity). ring. }
  rewrite (sum_over_ext 1 (nx - 1) _ (fun i => S i - S (i - 1)%Z)).
  - rewrite sum_over_telescope by lia. unfold S. replace (nx - 1 - 1)%Z with (nx - 2)%Z by lia. reflexivity.
  - intros i Hi.
    rewrite (sum_over_ext 0 nz _ (fun k =>
       (flux_through_x nz cX f i j k - flux_through_x nz cX f (i - 1) j k)
       + (flux_through_z nz cZ f i j k - flux_through_z nz cZ f i j ((k - 1) mod nz)))).
    2:{ intros k _. rewrite apply_op_cell by exact Hi. ring. }
    rewrite sum_over_plus, !sum_over_minus.
    rewrite (sum_over_roll nz (flux_through_z nz cZ f i j)) by exact Hz.
    unfold S. ring.
Qed.

Lemma constants nx nz cX cZ f j : (0 < nz)%Z ->
  (forall i i' k k', (0 <= i < nx)%Z -> (0 <= i' < nx)%Z -> (0 <= k < nz)%Z -> (0 <= k' < nz)%Z ->
     f i j k == f i' j k') ->
  forall i k, (0 <= i < nx)%Z -> (0 <= k < nz)%Z -> apply_op nx nz cX cZ f i j k == 0.
Proof.
  intros Hz Hf i k Hi Hk.
  destruct (Z.eq_dec i 0) as [->|N0]; [rewrite apply_op_edges by auto; reflexivity|].
  destruct (Z.eq_dec i (nx - 1)) as [->|N1]; [rewrite apply_op_edges by auto; reflexivity|].
  rewrite apply_op_cell by lia. unfold flux_through_x, flux_through_z. cbv zeta.
  assert (M : forall a, (0 <= a mod nz < nz)%Z) by (intros; apply Z.mod_pos_bound; exact Hz).
  assert (E : forall i' k', (0 <= i' < nx)%Z -> (0 <= k' < nz)%Z -> f i' j k' == f i j k).
  { intros. apply Hf; auto. }
  replace (i - 1 + 1)%Z with i by lia.
  repeat match goal with
  | |- context [f ?a j ?b] =>
      lazymatch constr:((a, b)) with
      | (i, k) => fail
      | _ => rewrite (E a b) by (first [lia | apply M])
      end
  end.
  field.
Qed.
