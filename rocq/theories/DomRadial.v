(** Proofs about the Dommaschk potentials: the radial functions. *)
From Coq Require Import List Reals ZArith Lra Lia.
From Verif Require Import Prelude FieldReal CoilSpec CoilProofs DomModel DomProofs.
Import ListNotations.
Open Scope R_scope.

Notation Sum n f := (rsum (map f (seq 0 n))).

(** * Sums *)
Lemma Sum_S f n : Sum (S n) f = f 0%nat + Sum n (fun j => f (S j)).
Proof. cbn [seq map]. rewrite <- seq_shift, map_map. reflexivity. Qed.
Lemma Sum_last f n : Sum (S n) f = Sum n f + f n.
Proof. rewrite seq_S, map_app, rsum_app. cbn. ring. Qed.
Lemma Sum_indicator (c : R) m k : Sum k (fun i => if (S i =? m)%nat then c else 0) = if andb (1 <=? m)%nat (m <=? k)%nat then c else 0.
Proof.
  induction k as [|k IH].
  - cbn [seq map rsum fold_right]. destruct (Nat.leb_spec 1 m), (Nat.leb_spec m 0); cbn; try lia; reflexivity.
  - rewrite Sum_last, IH. destruct (Nat.eqb_spec (S k) m); destruct (Nat.leb_spec 1 m), (Nat.leb_spec m k), (Nat.leb_spec m (S k)); cbn [andb]; try lia; ring.
Qed.
Lemma Sum_rev f n : Sum (S n) f = Sum (S n) (fun j => f (n - j)%nat).
Proof.
  revert f. induction n as [|n IH]; intros f; [reflexivity|].
  rewrite Sum_last. rewrite (Sum_S (fun j => f (S n - j)%nat)). rewrite Nat.sub_0_r, IH, Rplus_comm. f_equal.
Qed.

(** * One term *)
Definition term (a c b : R) (p q : Z) (x : R) : R := (a * ln x + c) * powerRZ x p - b * powerRZ x q.
Definition term1 (a c b : R) (p q : Z) (x : R) : R := a * powerRZ x (p - 1) + IZR p * (a * ln x + c) * powerRZ x (p - 1) - IZR q * b * powerRZ x (q - 1).
Definition term2 (a c b : R) (p q : Z) (x : R) : R :=
  (2 * IZR p - 1) * a * powerRZ x (p - 2) + IZR p * (IZR p - 1) * (a * ln x + c) * powerRZ x (p - 2) - IZR q * (IZR q - 1) * b * powerRZ x (q - 2).
Lemma power_step x n : 0 < x -> powerRZ x n = x * powerRZ x (n - 1).
Proof. intros H. replace n with (1 + (n - 1))%Z at 1 by lia. rewrite powerRZ_add by lra. change (powerRZ x 1) with (x * 1). ring. Qed.
Lemma d_powerx x n : 0 < x -> derivable_pt_lim (fun t => powerRZ t n) x (IZR n * powerRZ x (n - 1)).
Proof. intros H. eapply d_eq; [|apply (d_powerRZ (fun t => t) x 1 n (d_id x))]; [ring|right; lra]. Qed.
Lemma d_lnx x : 0 < x -> derivable_pt_lim ln x (/ x).
Proof. intros H. now apply derivable_pt_lim_ln. Qed.
Lemma term_d1 a c b p q x : 0 < x -> derivable_pt_lim (term a c b p q) x (term1 a c b p q x).
Proof.
  intros H. unfold term. eapply d_eq; [|apply d_sub; [apply d_mul; [apply d_add; [apply d_scal, d_lnx, H|apply d_const]|apply d_powerx, H]|apply d_scal, d_powerx, H]].
  unfold term1. rewrite (power_step x p H). field. lra.
Qed.
Lemma term_d2 a c b p q x : 0 < x -> derivable_pt_lim (term1 a c b p q) x (term2 a c b p q x).
Proof.
  intros H. unfold term1.
  eapply d_eq; [|apply d_sub; [apply d_add; [apply d_scal, d_powerx, H|apply d_mul; [apply d_scal, d_add; [apply d_scal, d_lnx, H|apply d_const]|apply d_powerx, H]]|apply d_scal, d_powerx, H]].
  unfold term2. replace (p - 1 - 1)%Z with (p - 2)%Z by lia. replace (q - 1 - 1)%Z with (q - 2)%Z by lia.
  rewrite (power_step x (p - 1) H). replace (p - 1 - 1)%Z with (p - 2)%Z by lia. rewrite !minus_IZR. field. lra.
Qed.
Lemma term_L a c b p q M x : 0 < x ->
  term2 a c b p q x + term1 a c b p q x / x - M / x ^ 2 * term a c b p q x =
  ((IZR p ^ 2 - M) * (a * ln x + c) + 2 * IZR p * a) * powerRZ x (p - 2) - (IZR q ^ 2 - M) * b * powerRZ x (q - 2).
Proof.
  intros H. unfold term2, term1, term. rewrite (power_step x p H), (power_step x (p - 1) H), (power_step x q H), (power_step x (q - 1) H).
  replace (p - 1 - 1)%Z with (p - 2)%Z by lia. replace (q - 1 - 1)%Z with (q - 2)%Z by lia. field. lra.
Qed.

(** * The radial functions *)
Section Radial.
Variable m : nat.
Variables P Q B : Z -> R.
Hypothesis P_neg : forall s, (s < 0)%Z -> P s = 0.
Definition sidx (k j : nat) : Z := (Z.of_nat k - Z.of_nat m - Z.of_nat j)%Z.
Definition kidx (k j : nat) : Z := (Z.of_nat k - Z.of_nat j)%Z.
Definition ca (k j : nat) : R := alpha (Z.of_nat j) m * P (sidx k j).
Definition cc (k j : nat) : R := alpha (Z.of_nat j) m * Q (sidx k j) - delta (Z.of_nat j) m * P (sidx k j) + alpha (Z.of_nat j) m * B (kidx k j).
Definition cb (k j : nat) : R := beta (Z.of_nat j) m * P (kidx k j).
Definition pe (j : nat) : Z := (2 * Z.of_nat j + Z.of_nat m)%Z.
Definition qe (j : nat) : Z := (2 * Z.of_nat j - Z.of_nat m)%Z.
Definition rad (k : nat) (x : R) : R := Sum (k + 1) (fun j => term (ca k j) (cc k j) (cb k j) (pe j) (qe j) x).
Definition rad1 (k : nat) (x : R) : R := Sum (k + 1) (fun j => term1 (ca k j) (cc k j) (cb k j) (pe j) (qe j) x).
Definition rad2 (k : nat) (x : R) : R := Sum (k + 1) (fun j => term2 (ca k j) (cc k j) (cb k j) (pe j) (qe j) x).
Lemma rad_d1 k x : 0 < x -> derivable_pt_lim (rad k) x (rad1 k x).
Proof. intros H. unfold rad, rad1. apply (d_rsum (fun j t => term (ca k j) (cc k j) (cb k j) (pe j) (qe j) t)). intros j _. now apply term_d1. Qed.
Lemma rad_d2 k x : 0 < x -> derivable_pt_lim (rad1 k) x (rad2 k x).
Proof. intros H. unfold rad1, rad2. apply (d_rsum (fun j t => term1 (ca k j) (cc k j) (cb k j) (pe j) (qe j) t)). intros j _. now apply term_d2. Qed.

Definition lap (k j : nat) (x : R) : R :=
  ((IZR (pe j) ^ 2 - INR m ^ 2) * (ca k j * ln x + cc k j) + 2 * IZR (pe j) * ca k j) * powerRZ x (pe j - 2) - (IZR (qe j) ^ 2 - INR m ^ 2) * cb k j * powerRZ x (qe j - 2).
Lemma rad_L_sum k x : 0 < x -> rad2 k x + rad1 k x / x - INR m ^ 2 / x ^ 2 * rad k x = Sum (k + 1) (fun j => lap k j x).
Proof.
  intros H. unfold rad2, rad1, rad.
  transitivity (Sum (k + 1) (fun j => term2 (ca k j) (cc k j) (cb k j) (pe j) (qe j) x + (/ x * term1 (ca k j) (cc k j) (cb k j) (pe j) (qe j) x
     + - (INR m ^ 2 / x ^ 2) * term (ca k j) (cc k j) (cb k j) (pe j) (qe j) x))).
  - rewrite !rsum_plus, !rsum_scale. unfold Rdiv. ring.
  - apply rsum_ext. intros j _. unfold lap. rewrite <- term_L by exact H. unfold Rdiv. ring.
Qed.
Lemma pe_sq j : IZR (pe j) ^ 2 - INR m ^ 2 = 4 * IZR (Z.of_nat j) * (IZR (Z.of_nat j) + INR m).
Proof. unfold pe. rewrite plus_IZR, mult_IZR, (INR_IZR_INZ m). ring. Qed.
Lemma qe_sq j : IZR (qe j) ^ 2 - INR m ^ 2 = 4 * IZR (Z.of_nat j) * (IZR (Z.of_nat j) - INR m).
Proof. unfold qe. rewrite minus_IZR, mult_IZR, (INR_IZR_INZ m). ring. Qed.
Lemma lap_0 k x : lap k 0 x = 2 * INR m * alpha 0 m * P (Z.of_nat k - Z.of_nat m) * powerRZ x (Z.of_nat m - 2).
Proof.
  unfold lap. rewrite pe_sq, qe_sq. unfold pe, ca, sidx. rewrite plus_IZR, <- (INR_IZR_INZ m).
  replace (2 * Z.of_nat 0 + Z.of_nat m - 2)%Z with (Z.of_nat m - 2)%Z by lia. replace (Z.of_nat k - Z.of_nat m - Z.of_nat 0)%Z with (Z.of_nat k - Z.of_nat m)%Z by lia.
  cbn [Z.of_nat]. change (2 * 0)%Z with 0%Z. ring.
Qed.
Lemma lap_S k i x : lap (S k) (S i) x = - term (ca k i) (cc k i) (cb k i) (pe i) (qe i) x -
  (if (S i =? m)%nat then beta (Z.of_nat m - 1) m * P (Z.of_nat (S k) - Z.of_nat m) * powerRZ x (Z.of_nat m - 2) else 0).
Proof.
  unfold lap, term. rewrite pe_sq, qe_sq.
  assert (A := alpha_rec (Z.of_nat (S i)) m ltac:(lia)). assert (D := delta_rec (Z.of_nat (S i)) m ltac:(lia)). assert (Bt := beta_rec (Z.of_nat (S i)) m ltac:(lia)).
  replace (Z.of_nat (S i) - 1)%Z with (Z.of_nat i) in A, D, Bt by lia. destruct (Z.eqb_spec (Z.of_nat (S i)) 0) as [E|_]; [lia|].
  replace (pe (S i) - 2)%Z with (pe i) by (unfold pe; lia). replace (qe (S i) - 2)%Z with (qe i) by (unfold qe; lia).
  unfold ca, cc, cb. replace (sidx (S k) (S i)) with (sidx k i) by (unfold sidx; lia). replace (kidx (S k) (S i)) with (kidx k i) by (unfold kidx; lia).
  set (j4 := 4 * IZR (Z.of_nat (S i)) * (IZR (Z.of_nat (S i)) + INR m)) in *.
  set (i4 := 4 * IZR (Z.of_nat (S i)) * (IZR (Z.of_nat (S i)) - INR m)) in *.
  unfold alpha_st in D. fold (pe (S i)) in D.
  transitivity ((j4 * alpha (Z.of_nat (S i)) m * (P (sidx k i) * ln x + Q (sidx k i) + B (kidx k i)) - (j4 * delta (Z.of_nat (S i)) m - 2 * (alpha (Z.of_nat (S i)) m * IZR (pe (S i)))) * P (sidx k i)) * powerRZ x (pe i)
    - (i4 * beta (Z.of_nat (S i)) m) * P (kidx k i) * powerRZ x (qe i)); [ring|].
  rewrite A, D, Bt. destruct (Nat.eqb_spec (S i) m) as [E|E].
  - destruct (Z.eqb_spec (Z.of_nat (S i)) (Z.of_nat m)) as [_|F]; [|lia].
    replace (Z.of_nat m - 1)%Z with (Z.of_nat i) by lia. replace (Z.of_nat (S k) - Z.of_nat m)%Z with (kidx k i) by (unfold kidx; lia).
    replace (Z.of_nat m - 2)%Z with (qe i) by (unfold qe; lia). ring.
  - destruct (Z.eqb_spec (Z.of_nat (S i)) (Z.of_nat m)) as [F|_]; [lia|]. ring.
Qed.

Lemma rad_L_0 x : 0 < x -> rad2 0 x + rad1 0 x / x - INR m ^ 2 / x ^ 2 * rad 0 x = 0.
Proof.
  intros H. rewrite rad_L_sum by exact H. cbn [Nat.add seq map rsum fold_right]. rewrite lap_0.
  destruct m as [|m']; [cbn [INR]; ring|]. rewrite P_neg by lia. ring.
Qed.
Lemma rad_L_S k x : 0 < x -> rad2 (S k) x + rad1 (S k) x / x - INR m ^ 2 / x ^ 2 * rad (S k) x = - rad k x.
Proof.
  intros H. rewrite rad_L_sum by exact H. change (S k + 1)%nat with (S (k + 1)). rewrite Sum_S, lap_0.
  set (e := beta (Z.of_nat m - 1) m * P (Z.of_nat (S k) - Z.of_nat m) * powerRZ x (Z.of_nat m - 2)).
  rewrite (rsum_ext (fun j => lap (S k) (S j) x) (fun i => -1 * term (ca k i) (cc k i) (cb k i) (pe i) (qe i) x + -1 * (if (S i =? m)%nat then e else 0)))
    by (intros i _; rewrite lap_S; unfold e; ring).
  rewrite rsum_plus, !rsum_scale, Sum_indicator. fold (rad k x).
  destruct (Nat.leb_spec 1 m) as [M1|M1]; cbn [andb].
  - destruct (Nat.leb_spec m (k + 1)) as [M2|M2].
    + unfold e. rewrite beta_last by exact M1. ring.
    + rewrite P_neg by lia. ring.
  - replace m with 0%nat by lia. cbn [INR]. ring.
Qed.
End Radial.

(** the two families of the code *)
Definition fN (m k : nat) (x : R) : R := rad m (fun n => alpha n m) (fun n => delta n m) (fun n => beta n m) k x.
Definition fD (m k : nat) (x : R) : R := - rad m (fun n => alpha_st n m) (fun n => delta_st n m - alpha n m) (fun n => beta_st n m) k x.

Lemma fold_Add (f : nat -> expr) l x phi z : forall e,
  lambdify (fold_left (fun a j => Add a (f j)) l e) x phi z = lambdify e x phi z + rsum (map (fun j => lambdify (f j) x phi z) l).
Proof. unfold rsum. induction l as [|j l IH]; intros e; cbn [fold_left map fold_right]; [ring|]. rewrite IH. cbn [lambdify]. ring. Qed.
Lemma fold_Add_defined (f : nat -> expr) l x phi z : (forall j, In j l -> defined (f j) x phi z) -> forall e,
  defined e x phi z -> defined (fold_left (fun a j => Add a (f j)) l e) x phi z.
Proof.
  induction l as [|j l IH]; intros H e De; [exact De|]. cbn [fold_left]. apply IH.
  - intros i Hi. apply H. now right.
  - split; [exact De|]. apply H. now left.
Qed.
Lemma CN_value m k x phi z : lambdify (CN m k) x phi z = fN m k x.
Proof.
  unfold CN. cbv zeta. rewrite fold_Add. cbn [lambdify]. rewrite Rplus_0_l. unfold fN, rad. apply rsum_ext. intros j _.
  unfold term, ca, cc, cb, sidx, kidx, pe, qe. ring.
Qed.
Lemma CD_value m k x phi z : lambdify (CD m k) x phi z = fD m k x.
Proof.
  unfold CD. cbv zeta. rewrite fold_Add. cbn [lambdify]. rewrite Rplus_0_l. unfold fD, rad.
  replace (- rsum _) with (-1 * Sum (k + 1) (fun j => term (ca m (fun n => alpha_st n m) k j) (cc m (fun n => alpha_st n m) (fun n => delta_st n m - alpha n m) (fun n => beta_st n m) k j)
    (cb m (fun n => alpha_st n m) k j) (pe m j) (qe m j) x)) by ring.
  rewrite <- rsum_scale. apply rsum_ext. intros j _. unfold term, ca, cc, cb, sidx, kidx, pe, qe. ring.
Qed.
Lemma CN_defined m k x phi z : 0 < x -> defined (CN m k) x phi z.
Proof.
  intros H. unfold CN. cbv zeta. apply fold_Add_defined; [|exact I]. intros j _. cbn [defined lambdify]. repeat split; try tauto; try lra; right; lra.
Qed.
Lemma CD_defined m k x phi z : 0 < x -> defined (CD m k) x phi z.
Proof.
  intros H. unfold CD. cbv zeta. apply fold_Add_defined; [|exact I]. intros j _. cbn [defined lambdify]. repeat split; try tauto; try lra; right; lra.
Qed.
