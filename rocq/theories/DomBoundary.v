(** Proofs about the Dommaschk potentials: values at R = 1. *)
From Coq Require Import List Reals ZArith Lra Lia.
From Verif Require Import Prelude FieldReal CoilSpec CoilProofs DomModel DomProofs DomRadial.
Import ListNotations.
Open Scope R_scope.

(** * Convolutions of coefficients *)
Definition conv (n k : nat) (f g : Z -> R) : R := Sum (k + 1) (fun j => f (Z.of_nat j) * g (Z.of_nat k - Z.of_nat n - Z.of_nat j)%Z).
Definition zero_below (f : Z -> R) : Prop := forall n, (n < 0)%Z -> f n = 0.

Lemma conv_comm n k f g : zero_below f -> zero_below g -> conv n k f g = conv n k g f.
Proof.
  intros Zf Zg. unfold conv. destruct (le_lt_dec n k) as [L|L].
  - replace (k + 1)%nat with (S (k - n) + n)%nat by lia. rewrite !seq_app, !map_app, !rsum_app.
    rewrite (rsum_zero (fun j => f (Z.of_nat j) * g (Z.of_nat k - Z.of_nat n - Z.of_nat j)%Z) (seq (0 + S (k - n)) n)).
    2: { intros j Hj. apply in_seq in Hj. rewrite Zg by lia. ring. }
    rewrite (rsum_zero (fun j => g (Z.of_nat j) * f (Z.of_nat k - Z.of_nat n - Z.of_nat j)%Z) (seq (0 + S (k - n)) n)).
    2: { intros j Hj. apply in_seq in Hj. rewrite Zf by lia. ring. }
    f_equal. rewrite Sum_rev. apply rsum_ext. intros j Hj. apply in_seq in Hj.
    replace (Z.of_nat k - Z.of_nat n - Z.of_nat (k - n - j))%Z with (Z.of_nat j) by lia.
    replace (Z.of_nat (k - n - j)) with (Z.of_nat k - Z.of_nat n - Z.of_nat j)%Z by lia. ring.
  - rewrite !rsum_zero; [reflexivity| |]; intros j Hj; [rewrite Zf by lia|rewrite Zg by lia]; ring.
Qed.
Lemma conv_shift n k f g : zero_below f -> zero_below g ->
  conv n k (fun j => f (j - 1)%Z) g = conv n k f (fun s => g (s - 1)%Z).
Proof.
  intros Zf Zg. unfold conv. rewrite Nat.add_1_r, Sum_S, Sum_last. rewrite Zf by lia. rewrite (Zg (_ - _ - _ - 1)%Z) by lia.
  rewrite !Rmult_0_l, Rmult_0_r, Rplus_0_l, Rplus_0_r. apply rsum_ext. intros j _.
  replace (Z.of_nat (S j) - 1)%Z with (Z.of_nat j) by lia. now replace (Z.of_nat k - Z.of_nat n - Z.of_nat j - 1)%Z with (Z.of_nat k - Z.of_nat n - Z.of_nat (S j))%Z by lia.
Qed.
Lemma conv_pick n k (i : nat) g (c : R) : zero_below g ->
  conv n k (fun j => if (j =? Z.of_nat i)%Z then c else 0) g = c * g (Z.of_nat k - Z.of_nat n - Z.of_nat i)%Z.
Proof.
  intros Zg. unfold conv. destruct (le_lt_dec i k) as [L|L].
  - replace (k + 1)%nat with (i + S (k - i))%nat by lia. rewrite seq_app, map_app, rsum_app. cbn [seq map].
    rewrite (rsum_zero _ (seq 0 i)). 2: { intros j Hj. apply in_seq in Hj. destruct (Z.eqb_spec (Z.of_nat j) (Z.of_nat i)); [lia|ring]. }
    match goal with |- context [rsum (?a :: ?l)] => change (rsum (a :: l)) with (a + rsum l) end.
    rewrite rsum_zero. 2: { intros j Hj. apply in_seq in Hj. destruct (Z.eqb_spec (Z.of_nat j) (Z.of_nat i)); [lia|ring]. }
    rewrite Nat.add_0_l, Z.eqb_refl. ring.
  - rewrite rsum_zero. 2: { intros j Hj. apply in_seq in Hj. destruct (Z.eqb_spec (Z.of_nat j) (Z.of_nat i)); [lia|ring]. }
    rewrite Zg by lia. ring.
Qed.
Lemma conv_add_l n k f f' g : conv n k (fun j => f j + f' j) g = conv n k f g + conv n k f' g.
Proof. unfold conv. rewrite <- rsum_plus. apply rsum_ext. intros; ring. Qed.
Lemma conv_scal_l n k c f g : conv n k (fun j => c * f j) g = c * conv n k f g.
Proof. unfold conv. rewrite <- rsum_scale. apply rsum_ext. intros; ring. Qed.
Lemma conv_ext n k f f' g g' : (forall j, f j = f' j) -> (forall j, g j = g' j) -> conv n k f g = conv n k f' g'.
Proof. intros F G. unfold conv. apply rsum_ext. intros j _. now rewrite F, G. Qed.

(** * The coefficients once more *)
Section Coefficients.
Variable m : nat.
Let al n := alpha n m.
Let be n := beta n m.
Let ga n := delta n m.
(** exponents *)
Let als n := alpha_st n m.
Let bes n := beta_st n m.
Let gas n := delta_st n m.
Lemma zb_al : zero_below al. Proof. intros n H. now apply alpha_neg. Qed.
Lemma zb_be : zero_below be. Proof. intros n H. apply beta_out. now left. Qed.
Lemma zb_ga : zero_below ga. Proof. intros n H. apply delta_low. lia. Qed.
Lemma zb_als : zero_below als. Proof. intros n H. unfold als, alpha_st. rewrite alpha_neg by exact H. ring. Qed.
Lemma zb_bes : zero_below bes. Proof. intros n H. unfold bes, beta_st. rewrite beta_out by now left. ring. Qed.
Lemma zb_gas : zero_below gas. Proof. intros n H. unfold gas, delta_st. rewrite delta_low by lia. ring. Qed.

Lemma al_all n : 4 * IZR n * (IZR n + INR m) * al n = - al (n - 1)%Z.
Proof. destruct (Z_lt_le_dec n 0); [unfold al; rewrite !alpha_neg by lia; ring|now apply alpha_rec]. Qed.
Lemma be_all n : 4 * IZR n * (IZR n - INR m) * be n = - be (n - 1)%Z + (if (n =? Z.of_nat m)%Z then be (Z.of_nat m - 1)%Z else 0).
Proof.
  destruct (Z_lt_le_dec n 0).
  - unfold be. rewrite !(beta_out n), !(beta_out (n - 1)) by lia. destruct (Z.eqb_spec n (Z.of_nat m)); [lia|ring].
  - unfold be. rewrite beta_rec by assumption. destruct (Z.eqb_spec n (Z.of_nat m)) as [->|_]; reflexivity.
Qed.
Lemma ga_all n : 4 * IZR n * (IZR n + INR m) * ga n = - ga (n - 1)%Z + 2 * als n + (if (n =? Z.of_nat 0)%Z then - (2 * als 0%Z) else 0).
Proof.
  destruct (Z_lt_le_dec n 0).
  - unfold ga. rewrite !delta_low by lia. rewrite zb_als by assumption. destruct (Z.eqb_spec n (Z.of_nat 0)); [lia|ring].
  - unfold ga. rewrite delta_rec by assumption. change (Z.of_nat 0) with 0%Z. destruct (Z.eqb_spec n 0) as [->|_]; unfold als; ring.
Qed.

(** the Wronskian *)
Definition X (k : nat) : R := conv m k al gas - conv m k al al - conv m k ga als + conv 0 k al bes - conv 0 k be als.



Lemma X_T k : 2 * INR k * (conv 0 k al bes - conv 0 k be als) = be (Z.of_nat m - 1)%Z * al (Z.of_nat k - Z.of_nat m)%Z.
Proof.
  rewrite (conv_comm 0 k al bes zb_al zb_bes).
  transitivity (conv 0 k (fun j => 4 * IZR j * (IZR j - INR m) * be j) al - conv 0 k be (fun i => 4 * IZR i * (IZR i + INR m) * al i)).
  - unfold conv. replace (INR k) with (IZR (Z.of_nat k)) by (symmetry; apply INR_IZR_INZ).
    transitivity (Sum (k + 1) (fun j => 2 * IZR (Z.of_nat k) * (bes (Z.of_nat j) * al (Z.of_nat k - Z.of_nat 0 - Z.of_nat j)%Z) +
       - (2 * IZR (Z.of_nat k)) * (be (Z.of_nat j) * als (Z.of_nat k - Z.of_nat 0 - Z.of_nat j)%Z))).
    + rewrite rsum_plus, !rsum_scale. ring.
    + transitivity (Sum (k + 1) (fun j => (4 * IZR (Z.of_nat j) * (IZR (Z.of_nat j) - INR m) * be (Z.of_nat j)) * al (Z.of_nat k - Z.of_nat 0 - Z.of_nat j)%Z +
        -1 * (be (Z.of_nat j) * (4 * IZR (Z.of_nat k - Z.of_nat 0 - Z.of_nat j) * (IZR (Z.of_nat k - Z.of_nat 0 - Z.of_nat j) + INR m) * al (Z.of_nat k - Z.of_nat 0 - Z.of_nat j)%Z)))).
      * apply rsum_ext. intros j _. unfold bes, als, beta_st, alpha_st, be, al. rewrite (INR_IZR_INZ m).
        rewrite !plus_IZR, !minus_IZR, !mult_IZR, !minus_IZR. change (IZR (Z.of_nat 0)) with 0. ring.
      * rewrite rsum_plus, rsum_scale. ring.
  - rewrite (conv_ext 0 k (fun j => 4 * IZR j * (IZR j - INR m) * be j) (fun j => -1 * be (j - 1)%Z + (if (j =? Z.of_nat m)%Z then be (Z.of_nat m - 1)%Z else 0)) al al)
      by (intros j; try rewrite be_all; ring).
    rewrite (conv_ext 0 k be be (fun i => 4 * IZR i * (IZR i + INR m) * al i) (fun i => -1 * al (i - 1)%Z)) by (intros j; try rewrite al_all; ring).
    rewrite conv_add_l, conv_scal_l, conv_pick by exact zb_al. rewrite (conv_shift 0 k be al zb_be zb_al).
    replace (conv 0 k be (fun i => -1 * al (i - 1)%Z)) with (-1 * conv 0 k be (fun s => al (s - 1)%Z)) by (unfold conv; rewrite <- rsum_scale; apply rsum_ext; intros; ring).
    replace (Z.of_nat k - Z.of_nat 0 - Z.of_nat m)%Z with (Z.of_nat k - Z.of_nat m)%Z by lia. ring.
Qed.

Lemma X_Y k : 2 * INR k * (conv m k al gas - conv m k al al - conv m k ga als) = - (2 * INR m * al 0%Z * al (Z.of_nat k - Z.of_nat m)%Z).
Proof.
  rewrite (conv_comm m k al gas zb_al zb_gas).
  assert (E : 2 * INR k * (conv m k gas al - conv m k ga als) =
    conv m k (fun j => 4 * IZR j * (IZR j + INR m) * ga j) al - conv m k ga (fun i => 4 * IZR i * (IZR i + INR m) * al i)).
  { unfold conv. replace (INR k) with (IZR (Z.of_nat k)) by (symmetry; apply INR_IZR_INZ).
    transitivity (Sum (k + 1) (fun j => 2 * IZR (Z.of_nat k) * (gas (Z.of_nat j) * al (Z.of_nat k - Z.of_nat m - Z.of_nat j)%Z) +
       - (2 * IZR (Z.of_nat k)) * (ga (Z.of_nat j) * als (Z.of_nat k - Z.of_nat m - Z.of_nat j)%Z))).
    + rewrite rsum_plus, !rsum_scale. ring.
    + transitivity (Sum (k + 1) (fun j => (4 * IZR (Z.of_nat j) * (IZR (Z.of_nat j) + INR m) * ga (Z.of_nat j)) * al (Z.of_nat k - Z.of_nat m - Z.of_nat j)%Z +
        -1 * (ga (Z.of_nat j) * (4 * IZR (Z.of_nat k - Z.of_nat m - Z.of_nat j) * (IZR (Z.of_nat k - Z.of_nat m - Z.of_nat j) + INR m) * al (Z.of_nat k - Z.of_nat m - Z.of_nat j)%Z)))).
      * apply rsum_ext. intros j _. unfold gas, als, delta_st, alpha_st, ga, al. rewrite (INR_IZR_INZ m).
        rewrite !plus_IZR, !mult_IZR, !minus_IZR. ring.
      * rewrite rsum_plus, rsum_scale. ring. }
  assert (F : conv m k (fun j => 4 * IZR j * (IZR j + INR m) * ga j) al - conv m k ga (fun i => 4 * IZR i * (IZR i + INR m) * al i) =
    2 * conv m k als al - 2 * als 0%Z * al (Z.of_nat k - Z.of_nat m)%Z).
  { rewrite (conv_ext m k (fun j => 4 * IZR j * (IZR j + INR m) * ga j) (fun j => (-1 * ga (j - 1)%Z + 2 * als j) + (if (j =? Z.of_nat 0)%Z then - (2 * als 0%Z) else 0)) al al)
      by (intros j; try rewrite ga_all; ring).
    rewrite (conv_ext m k ga ga (fun i => 4 * IZR i * (IZR i + INR m) * al i) (fun i => -1 * al (i - 1)%Z)) by (intros j; try rewrite al_all; ring).
    rewrite !conv_add_l, !conv_scal_l, conv_pick by exact zb_al. rewrite (conv_shift m k ga al zb_ga zb_al).
    replace (conv m k ga (fun i => -1 * al (i - 1)%Z)) with (-1 * conv m k ga (fun s => al (s - 1)%Z)) by (unfold conv; rewrite <- rsum_scale; apply rsum_ext; intros; ring).
    replace (Z.of_nat k - Z.of_nat m - Z.of_nat 0)%Z with (Z.of_nat k - Z.of_nat m)%Z by lia. ring. }
  assert (G : 2 * conv m k als al = 2 * INR k * conv m k al al).
  { replace (2 * conv m k als al) with (conv m k als al + conv m k al als) by (rewrite (conv_comm m k al als zb_al zb_als); ring).
    unfold conv. rewrite <- rsum_plus, <- rsum_scale. apply rsum_ext. intros j _. unfold als, alpha_st, al.
    rewrite (INR_IZR_INZ k), !plus_IZR, !mult_IZR, !minus_IZR. ring. }
  transitivity (2 * INR k * (conv m k gas al - conv m k ga als) - 2 * INR k * conv m k al al); [ring|]. rewrite E, F, G.
  unfold als, alpha_st. fold (al 0%Z). rewrite plus_IZR, <- (INR_IZR_INZ m). change (2 * 0)%Z with 0%Z. ring.
Qed.

Lemma X_pos k : (1 <= k)%nat -> X k = 0.
Proof.
  intros H. assert (0 < INR k) by (apply lt_0_INR; lia).
  assert (E : 2 * INR k * X k = 0).
  { unfold X. replace (2 * INR k * _) with (2 * INR k * (conv m k al gas - conv m k al al - conv m k ga als) + 2 * INR k * (conv 0 k al bes - conv 0 k be als)) by ring.
    rewrite X_T, X_Y. destruct (Nat.eq_dec m 0) as [M|M].
    - unfold be. rewrite (beta_out (Z.of_nat m - 1)) by lia. rewrite M. cbn [INR]. ring.
    - unfold be. rewrite beta_last by lia. unfold al. ring. }
  apply Rmult_integral in E as [E|E]; lra.
Qed.
Lemma X_0 : X 0 = -1.
Proof.
  unfold X, conv. cbn [Nat.add seq map]. unfold rsum. cbn [fold_right Z.of_nat]. change (0 - 0 - 0)%Z with 0%Z.
  unfold gas, als, bes, delta_st, alpha_st, beta_st. destruct (Nat.eq_dec m 0) as [M|M].
  - unfold al, be, ga. rewrite M. cbn [Z.of_nat Z.sub Z.opp Z.add].
    rewrite !delta_low, !beta_out by lia. change 0%Z with (Z.of_nat 0). rewrite !alpha_nat. cbn. field.
  - unfold al, be, ga. rewrite !(alpha_neg (0 - Z.of_nat m - 0)), !delta_low by lia.
    rewrite !minus_IZR, !plus_IZR, <- !(INR_IZR_INZ m). change (2 * 0)%Z with 0%Z.
    destruct m as [|m']; [lia|]. change 0%Z with (Z.of_nat 0). rewrite beta_nat, alpha_nat by lia.
    replace (S m' - 0 - 1)%nat with m' by lia. replace (S m' + 0)%nat with (S m') by lia. replace (2 * 0 + S m')%nat with (S m') by lia.
    replace (2 * Z.of_nat 0 - Z.of_nat (S m') + 1)%Z with (- Z.of_nat m')%Z by lia. rewrite powerRZ_neg', <- pow_powerRZ.
    rewrite INR_fact_S, S_INR. change (INR (fact 0)) with 1. cbn [pow]. change (IZR (Z.of_nat 0)) with 0.
    assert (0 < INR (fact m')) by apply fact_pos. assert (0 <= INR m') by apply pos_INR. assert (0 < 2 ^ m') by (apply pow_lt; lra).
    field. repeat split; lra.
Qed.
Lemma X_eq k : X k = if (k =? 0)%nat then -1 else 0.
Proof. destruct k as [|k]; [exact X_0|]. cbn [Nat.eqb]. apply X_pos. lia. Qed.

Lemma term_1 a c b p q : term a c b p q 1 = c - b.
Proof. unfold term. rewrite ln_1, !powerRZ_R1. ring. Qed.
Lemma term1_1 a c b p q : term1 a c b p q 1 = a + IZR p * c - IZR q * b.
Proof. unfold term1. rewrite ln_1, !powerRZ_R1. ring. Qed.

Ltac sums := unfold conv; rewrite <- ?rsum_scale, <- ?rsum_plus; apply rsum_ext; intros; unfold ca, cc, cb, sidx, kidx, pe, qe, al, be, ga, als, bes, gas, alpha_st, beta_st, delta_st;
  change (Z.of_nat 0) with 0%Z; rewrite ?Z.sub_0_r; ring.

Lemma N_value k : fN m k 1 = 0.
Proof.
  unfold fN, rad. erewrite rsum_ext by (intros; apply term_1).
  transitivity (conv m k al ga + -1 * conv m k ga al + conv 0 k al be + -1 * conv 0 k be al); [sums|].
  rewrite (conv_comm m k ga al zb_ga zb_al), (conv_comm 0 k be al zb_be zb_al). ring.
Qed.
Lemma D_value k : fD m k 1 = if (k =? 0)%nat then 1 else 0.
Proof.
  unfold fD, rad. erewrite rsum_ext by (intros; apply term_1).
  transitivity (- X k); [|rewrite X_eq; destruct (k =? 0)%nat; ring]. f_equal. unfold X.
  transitivity (conv m k al gas + -1 * conv m k al al + -1 * conv m k ga als + conv 0 k al bes + -1 * conv 0 k be als); [sums|ring].
Qed.
Definition fN1 (k : nat) (x : R) : R := rad1 m al ga be k x.
Definition fD1 (k : nat) (x : R) : R := - rad1 m als (fun n => delta_st n m - alpha n m) bes k x.
Lemma N_slope k : fN1 k 1 = if (k =? 0)%nat then 1 else 0.
Proof.
  unfold fN1, rad1. erewrite rsum_ext by (intros; apply term1_1).
  transitivity (- X k); [|rewrite X_eq; destruct (k =? 0)%nat; ring]. unfold X.
  transitivity (conv m k al al + conv m k als ga + -1 * conv m k gas al + conv 0 k als be + -1 * conv 0 k bes al); [sums|].
  rewrite (conv_comm m k als ga zb_als zb_ga), (conv_comm m k gas al zb_gas zb_al), (conv_comm 0 k als be zb_als zb_be), (conv_comm 0 k bes al zb_bes zb_al). ring.
Qed.
Lemma D_slope k : fD1 k 1 = 0.
Proof.
  unfold fD1, rad1. erewrite rsum_ext by (intros; apply term1_1).
  transitivity (- (conv m k al als + conv m k als gas + -1 * conv m k als al + -1 * conv m k gas als + conv 0 k als bes + -1 * conv 0 k bes als)); [f_equal; sums|].
  rewrite (conv_comm m k als gas zb_als zb_gas), (conv_comm m k als al zb_als zb_al), (conv_comm 0 k als bes zb_als zb_bes). ring.
Qed.
End Coefficients.
