(** The perpendicular operator on rectangular grids: summation by parts and the maximum principle. *)
From Coq Require Import List ZArith QArith Qabs Bool Lia Lqa.
From Verif Require Import Prelude PreludeFacts PolModel DagpModel DagpSpec DagpProofs DagpRect DagpThms.
Import ListNotations.
Open Scope Q_scope.

Lemma sum_over_snoc lo hi f : (lo <= hi)%Z -> sum_over lo (hi + 1) f == sum_over lo hi f + f hi.
Proof. intros H. unfold sum_over. rewrite zrange_snoc, map_app, qsum_app by exact H. cbn [map qsum]. ring. Qed.
Lemma sum_over_nil lo hi f : (hi <= lo)%Z -> sum_over lo hi f == 0.
Proof. intros H. unfold sum_over. rewrite zrange_nil by exact H. reflexivity. Qed.
Lemma sum_over_head lo hi f : (lo < hi)%Z -> sum_over lo hi f == f lo + sum_over (lo + 1) hi f.
Proof. intros H. unfold sum_over. rewrite zrange_cons by exact H. cbn [map qsum]. reflexivity. Qed.
Lemma sum_over_scale lo hi c f : sum_over lo hi (fun i => c * f i) == c * sum_over lo hi f.
Proof. apply qsum_map_scale. Qed.
Lemma sum_over_nonneg lo hi f : (forall i, (lo <= i < hi)%Z -> 0 <= f i) -> 0 <= sum_over lo hi f.
Proof. intros H. apply qsum_nonneg. intros q Hq. apply in_map_iff in Hq. destruct Hq as (i & <- & Hi). apply H. now apply in_zrange. Qed.
Lemma sum_over_zero lo hi f : (forall i, (lo <= i < hi)%Z -> 0 <= f i) -> sum_over lo hi f == 0 -> forall i, (lo <= i < hi)%Z -> f i == 0.
Proof.
  intros H E i Hi. remember (Z.to_nat (hi - lo)) as n eqn:En. revert hi H E Hi En. induction n as [|n IH]; intros hi H E Hi En; [lia|].
  replace hi with (hi - 1 + 1)%Z in E by lia. rewrite sum_over_snoc in E by lia.
  assert (0 <= sum_over lo (hi - 1) f) by (apply sum_over_nonneg; intros; apply H; lia). assert (0 <= f (hi - 1)%Z) by (apply H; lia).
  destruct (Z.eq_dec i (hi - 1)) as [->|N]; [lra|]. apply (IH (hi - 1)%Z); [intros; apply H; lia|lra|lia|lia].
Qed.

(** radial part *)
Lemma parts_x n (A f g : Z -> Q) : (1 <= n)%Z ->
  sum_over 1 n (fun i => g i * (A i * (f (i + 1)%Z - f i) - A (i - 1)%Z * (f i - f (i - 1)%Z))) ==
  g n * A (n - 1)%Z * (f n - f (n - 1)%Z) - g 0%Z * A 0%Z * (f 1%Z - f 0%Z) - sum_over 0 n (fun i => A i * (f (i + 1)%Z - f i) * (g (i + 1)%Z - g i)).
Proof.
  intros Hn. remember (Z.to_nat (n - 1)) as m eqn:Em. revert n Hn Em. induction m as [|m IH]; intros n Hn Em.
  - assert (n = 1%Z) as -> by lia. rewrite (sum_over_nil 1 1), (sum_over_head 0 1), (sum_over_nil (0 + 1) 1) by lia. cbn. ring.
  - replace n with (n - 1 + 1)%Z by lia. set (p := (n - 1)%Z). rewrite !sum_over_snoc by lia. unfold p. rewrite (IH (n - 1)%Z) by lia.
    replace (n - 1 + 1 - 1)%Z with (n - 1)%Z by lia. replace (n - 1 + 1)%Z with n by lia. ring.
Qed.
(** toroidal part *)
Lemma roll_back n k : (0 < n)%Z -> (0 <= k < n)%Z -> (((k - 1) mod n + 1) mod n = k)%Z.
Proof. intros Hn Hk. rewrite Zplus_mod_idemp_l. replace (k - 1 + 1)%Z with k by lia. now apply Z.mod_small. Qed.
Lemma parts_z n (f g : Z -> Q) : (0 < n)%Z ->
  sum_over 0 n (fun k => g k * (f ((k + 1) mod n)%Z - 2 * f k + f ((k - 1) mod n)%Z)) ==
  - sum_over 0 n (fun k => (f ((k + 1) mod n)%Z - f k) * (g ((k + 1) mod n)%Z - g k)).
Proof.
  intros Hn. set (F k := f ((k + 1) mod n)%Z - f k).
  rewrite (sum_over_ext 0 n _ (fun k => g k * F k - (fun k => g ((k + 1) mod n)%Z * F k) ((k - 1) mod n)%Z)).
  - rewrite sum_over_minus, (sum_over_roll n (fun k => g ((k + 1) mod n)%Z * F k)) by exact Hn. rewrite <- sum_over_minus.
    setoid_replace (- sum_over 0 n (fun k => (f ((k + 1) mod n)%Z - f k) * (g ((k + 1) mod n)%Z - g k))) with ((-1) * sum_over 0 n (fun k => (f ((k + 1) mod n)%Z - f k) * (g ((k + 1) mod n)%Z - g k))) by ring.
    rewrite <- sum_over_scale. apply sum_over_ext. intros k Hk. unfold F. ring.
  - intros k Hk. cbv beta. rewrite (roll_back n k) by lia. unfold F. rewrite (roll_back n k) by lia. ring.
Qed.

Section Form.
Variables (nx nz : Z) (A B : Z -> Q).
Hypothesis Hx : (2 <= nx)%Z.
Hypothesis Hz : (0 < nz)%Z.
Definition stencil (f : Z -> Z -> Q) (i k : Z) : Q :=
  (A i * (f (i + 1)%Z k - f i k) - A (i - 1)%Z * (f i k - f (i - 1)%Z k)) + B i * (f i ((k + 1) mod nz)%Z - 2 * f i k + f i ((k - 1) mod nz)%Z).
Definition form (f g : Z -> Z -> Q) : Q :=
  sum_over 0 (nx - 1) (fun i => sum_over 0 nz (fun k => A i * (f (i + 1)%Z k - f i k) * (g (i + 1)%Z k - g i k)))
  + sum_over 1 (nx - 1) (fun i => sum_over 0 nz (fun k => B i * (f i ((k + 1) mod nz)%Z - f i k) * (g i ((k + 1) mod nz)%Z - g i k))).
Definition vanishes (g : Z -> Z -> Q) : Prop := forall k, (0 <= k < nz)%Z -> g 0%Z k == 0 /\ g (nx - 1)%Z k == 0.
Lemma by_parts f g : vanishes g -> sum_over 1 (nx - 1) (fun i => sum_over 0 nz (fun k => g i k * stencil f i k)) == - form f g.
Proof.
  intros V. unfold form.
  rewrite (sum_over_ext _ _ _ (fun i => sum_over 0 nz (fun k => g i k * (A i * (f (i + 1)%Z k - f i k) - A (i - 1)%Z * (f i k - f (i - 1)%Z k)))
     + sum_over 0 nz (fun k => g i k * (B i * (f i ((k + 1) mod nz)%Z - 2 * f i k + f i ((k - 1) mod nz)%Z))))).
  2:{ intros i _. rewrite <- sum_over_plus. apply sum_over_ext. intros k _. unfold stencil. ring. }
  rewrite sum_over_plus, (sum_over_swap 1 (nx - 1)), (sum_over_swap 0 (nx - 1)).
  assert (E1 : sum_over 0 nz (fun k => sum_over 1 (nx - 1) (fun i => g i k * (A i * (f (i + 1)%Z k - f i k) - A (i - 1)%Z * (f i k - f (i - 1)%Z k)))) ==
    - sum_over 0 nz (fun k => sum_over 0 (nx - 1) (fun i => A i * (f (i + 1)%Z k - f i k) * (g (i + 1)%Z k - g i k)))).
  { setoid_replace (- sum_over 0 nz (fun k => sum_over 0 (nx - 1) (fun i => A i * (f (i + 1)%Z k - f i k) * (g (i + 1)%Z k - g i k))))
      with ((-1) * sum_over 0 nz (fun k => sum_over 0 (nx - 1) (fun i => A i * (f (i + 1)%Z k - f i k) * (g (i + 1)%Z k - g i k)))) by ring.
    rewrite <- sum_over_scale. apply sum_over_ext. intros k Hk. destruct (V k Hk) as [V0 V1].
    rewrite (parts_x (nx - 1) A (fun i => f i k) (fun i => g i k)) by lia. rewrite V0, V1. ring. }
  assert (E2 : sum_over 1 (nx - 1) (fun i => sum_over 0 nz (fun k => g i k * (B i * (f i ((k + 1) mod nz)%Z - 2 * f i k + f i ((k - 1) mod nz)%Z)))) ==
    - sum_over 1 (nx - 1) (fun i => sum_over 0 nz (fun k => B i * (f i ((k + 1) mod nz)%Z - f i k) * (g i ((k + 1) mod nz)%Z - g i k)))).
  { setoid_replace (- sum_over 1 (nx - 1) (fun i => sum_over 0 nz (fun k => B i * (f i ((k + 1) mod nz)%Z - f i k) * (g i ((k + 1) mod nz)%Z - g i k))))
      with ((-1) * sum_over 1 (nx - 1) (fun i => sum_over 0 nz (fun k => B i * (f i ((k + 1) mod nz)%Z - f i k) * (g i ((k + 1) mod nz)%Z - g i k)))) by ring.
    rewrite <- sum_over_scale. apply sum_over_ext. intros i _.
    rewrite (sum_over_ext _ _ (fun k => g i k * (B i * (f i ((k + 1) mod nz)%Z - 2 * f i k + f i ((k - 1) mod nz)%Z))) (fun k => B i * (g i k * (f i ((k + 1) mod nz)%Z - 2 * f i k + f i ((k - 1) mod nz)%Z)))) by (intros; ring).
    rewrite (sum_over_ext _ _ (fun k => B i * (f i ((k + 1) mod nz)%Z - f i k) * (g i ((k + 1) mod nz)%Z - g i k)) (fun k => B i * ((f i ((k + 1) mod nz)%Z - f i k) * (g i ((k + 1) mod nz)%Z - g i k)))) by (intros; ring).
    rewrite !sum_over_scale. rewrite (parts_z nz (f i) (g i) Hz). ring. }
  rewrite E1, E2. ring.
Qed.
Lemma form_sym f g : form f g == form g f.
Proof. unfold form. apply Qplus_comp; apply sum_over_ext; intros i _; apply sum_over_ext; intros k _; ring. Qed.
Lemma square_nonneg (a b : Q) : 0 <= a -> 0 <= a * b * b.
Proof. intros Ha. rewrite <- Qmult_assoc. apply Qmult_le_0_compat; [exact Ha|]. destruct (Qlt_le_dec b 0); [setoid_replace (b * b) with ((- b) * (- b)) by ring; apply Qmult_le_0_compat; lra|apply Qmult_le_0_compat; lra]. Qed.
Hypothesis HA : forall i, (0 <= i < nx - 1)%Z -> 0 < A i.
Hypothesis HB : forall i, (1 <= i < nx - 1)%Z -> 0 < B i.
Lemma form_nonneg f : 0 <= form f f.
Proof.
  unfold form. assert (X : forall a b, 0 <= a -> 0 <= b -> 0 <= a + b) by (intros; lra). apply X; apply sum_over_nonneg; intros i Hi; apply sum_over_nonneg; intros k _; apply square_nonneg; apply Qlt_le_weak; [now apply HA|now apply HB].
Qed.
Lemma form_zero f : vanishes f -> form f f == 0 -> forall i k, (0 <= i < nx)%Z -> (0 <= k < nz)%Z -> f i k == 0.
Proof.
  intros V E i k Hi Hk. unfold form in E.
  assert (N1 : forall i, (0 <= i < nx - 1)%Z -> 0 <= sum_over 0 nz (fun k => A i * (f (i + 1)%Z k - f i k) * (f (i + 1)%Z k - f i k)))
    by (intros; apply sum_over_nonneg; intros; apply square_nonneg, Qlt_le_weak; now apply HA).
  assert (N2 : 0 <= sum_over 1 (nx - 1) (fun i => sum_over 0 nz (fun k => B i * (f i ((k + 1) mod nz)%Z - f i k) * (f i ((k + 1) mod nz)%Z - f i k))))
    by (apply sum_over_nonneg; intros; apply sum_over_nonneg; intros; apply square_nonneg, Qlt_le_weak; now apply HB).
  assert (N3 := sum_over_nonneg 0 (nx - 1) _ N1). cbv beta in N3.
  assert (E1 : sum_over 0 (nx - 1) (fun i => sum_over 0 nz (fun k => A i * (f (i + 1)%Z k - f i k) * (f (i + 1)%Z k - f i k))) == 0) by lra.
  assert (D : forall i, (0 <= i < nx - 1)%Z -> f (i + 1)%Z k == f i k).
  { intros i' Hi'. assert (E2 := sum_over_zero _ _ _ N1 E1 i' Hi'). cbv beta in E2.
    assert (E3 := sum_over_zero 0 nz _ ltac:(intros k' _; cbv beta; apply square_nonneg, Qlt_le_weak; now apply HA) E2 k Hk). cbv beta in E3. assert (PA := HA i' Hi').
    apply Qmult_integral in E3. destruct E3 as [E3|E3]; [apply Qmult_integral in E3; destruct E3; lra|lra]. }
  remember (Z.to_nat i) as n eqn:En. revert i Hi En. induction n as [|n IH]; intros i Hi En.
  - assert (i = 0%Z) as -> by lia. apply V. exact Hk.
  - replace i with (i - 1 + 1)%Z by lia. rewrite D by lia. apply IH; lia.
Qed.
(** the maximum principle *)
Lemma pick_max (l : list (Z * Z)) (f : Z -> Z -> Q) : l <> [] -> exists p, In p l /\ forall p', In p' l -> f (fst p') (snd p') <= f (fst p) (snd p).
Proof.
  induction l as [|a l IH]; [congruence|]. intros _. destruct l as [|b l].
  - exists a. split; [now left|]. intros p' [<-|[]]. lra.
  - destruct (IH ltac:(discriminate)) as (p & Ip & Hp). destruct (Qlt_le_dec (f (fst p) (snd p)) (f (fst a) (snd a))) as [H|H].
    + exists a. split; [now left|]. intros p' [<-|I]; [lra|]. assert (X := Hp p' I). lra.
    + exists p. split; [now right|]. intros p' [<-|I]; [exact H|]. now apply Hp.
Qed.
Definition plane : list (Z * Z) := flat_map (fun i => map (fun k => (i, k)) (zrange 0 nz)) (zrange 0 nx).
Lemma in_plane i k : In (i, k) plane <-> (0 <= i < nx)%Z /\ (0 <= k < nz)%Z.
Proof.
  unfold plane. rewrite in_flat_map. split.
  - intros (i' & Hi & H). apply in_map_iff in H. destruct H as (k' & E & Hk). injection E as <- <-. rewrite in_zrange in Hi, Hk. tauto.
  - intros [Hi Hk]. exists i. split; [now apply in_zrange|]. apply in_map. now apply in_zrange.
Qed.
Lemma maximum f : (forall i k, (1 <= i < nx - 1)%Z -> (0 <= k < nz)%Z -> 0 <= stencil f i k) ->
  forall i k, (0 <= i < nx)%Z -> (0 <= k < nz)%Z -> exists i' k', (i' = 0 \/ i' = nx - 1)%Z /\ (0 <= k' < nz)%Z /\ f i k <= f i' k'.
Proof.
  intros HS i k Hi Hk.
  destruct (pick_max plane f) as ((im & km) & Im & Mm). { intros E. assert (I := proj2 (in_plane i k) (conj Hi Hk)). rewrite E in I. exact I. }
  cbn [fst snd] in Mm. assert (M' : forall i' k', (0 <= i' < nx)%Z -> (0 <= k' < nz)%Z -> f i' k' <= f im km) by (intros i' k' H1 H2; apply (Mm (i', k')), in_plane; split; assumption).
  apply in_plane in Im. destruct Im as [Him Hkm].
  (** the column of the maximum goes on down to the boundary *)
  assert (D : forall n, (Z.of_nat n <= im)%Z -> (im < nx - 1)%Z -> f (im - Z.of_nat n)%Z km == f im km).
  { induction n as [|n IH]; intros Hn Hb; [now replace (im - Z.of_nat 0)%Z with im by lia|].
    specialize (IH ltac:(lia) Hb). set (i0 := (im - Z.of_nat n)%Z) in *. replace (im - Z.of_nat (S n))%Z with (i0 - 1)%Z by lia.
    assert (X := HS i0 km ltac:(lia) Hkm). unfold stencil in X.
    assert (Y1 := M' (i0 + 1)%Z km ltac:(lia) Hkm). assert (Y2 := M' (i0 - 1)%Z km ltac:(lia) Hkm).
    assert (Y3 := M' i0 ((km + 1) mod nz)%Z ltac:(lia) (Z.mod_pos_bound _ _ Hz)). assert (Y4 := M' i0 ((km - 1) mod nz)%Z ltac:(lia) (Z.mod_pos_bound _ _ Hz)).
    assert (PA := HA i0 ltac:(lia)). assert (PA' := HA (i0 - 1)%Z ltac:(lia)). assert (PB := HB i0 ltac:(lia)). rewrite IH in X.
    set (m := f im km) in *.
    assert (T1 : 0 <= A i0 * (m - f (i0 + 1)%Z km)) by (apply Qmult_le_0_compat; lra).
    assert (T2 : 0 <= B i0 * (2 * m - f i0 ((km + 1) mod nz)%Z - f i0 ((km - 1) mod nz)%Z)) by (apply Qmult_le_0_compat; lra).
    destruct (Qlt_le_dec (f (i0 - 1)%Z km) m) as [H|H]; [|apply Qle_antisym; assumption].
    assert (T3 : 0 < A (i0 - 1)%Z * (m - f (i0 - 1)%Z km)) by (apply Qmult_lt_0_compat; lra). exfalso. lra. }
  destruct (Z.eq_dec im (nx - 1)) as [E|N].
  - exists im, km. split; [now right|]. split; [exact Hkm|]. now apply M'.
  - exists 0%Z, km. split; [now left|]. split; [exact Hkm|]. assert (D0 := D (Z.to_nat im) ltac:(lia) ltac:(lia)). replace (im - Z.of_nat (Z.to_nat im))%Z with 0%Z in D0 by lia. rewrite D0. now apply M'.
Qed.
End Form.
