(** Proofs about the Dommaschk potentials: harmonic functions and their gradients. *)
From Coq Require Import List Reals ZArith Lra Lia.
From Verif Require Import Prelude FieldReal CoilSpec CoilProofs DomModel DomProofs DomRadial DomBoundary DomSpec.
Import ListNotations.
Open Scope R_scope.

(** * Powers of Z *)
Definition zp (q : Z) (z : R) : R := if (q <? 0)%Z then 0 else powerRZ z q * / INR (fact (Z.to_nat q)).
Lemma zp_d q z : derivable_pt_lim (zp q) z (zp (q - 1) z).
Proof.
  unfold zp. destruct (Z.ltb_spec q 0) as [L|L].
  - destruct (Z.ltb_spec (q - 1) 0); [|lia]. exact (d_const 0 z).
  - apply derivable_pt_lim_ext with (f := fun t => / INR (fact (Z.to_nat q)) * powerRZ t q); [intros; ring|].
    eapply d_eq; [|apply d_scal, (d_powerRZ (fun t => t) z 1 q (d_id z)); now left].
    destruct (Z.ltb_spec (q - 1) 0) as [L1|L1].
    + replace q with 0%Z by lia. ring.
    + replace (Z.to_nat q) with (S (Z.to_nat (q - 1))) by lia. rewrite INR_fact_S.
      replace (IZR q) with (INR (Z.to_nat (q - 1)) + 1) by (rewrite INR_IZR_INZ, Z2Nat.id by lia; rewrite <- plus_IZR; f_equal; lia).
      assert (0 < INR (fact (Z.to_nat (q - 1)))) by apply fact_pos. assert (0 <= INR (Z.to_nat (q - 1))) by apply pos_INR.
      field. lra.
Qed.

(** * Harmonic functions *)
Section Product.
Variables (n : nat) (v : Z) (K : nat) (C C1 C2 : nat -> R -> R) (T T1 : R -> R).
Hypothesis HK : (v < 2 * Z.of_nat K)%Z \/ K = 0%nat.
Hypothesis HC1 : forall k x, 0 < x -> derivable_pt_lim (C k) x (C1 k x).
Hypothesis HC2 : forall k x, 0 < x -> derivable_pt_lim (C1 k) x (C2 k x).
Hypothesis HL0 : forall x, 0 < x -> C2 0%nat x + C1 0%nat x / x - INR n ^ 2 / x ^ 2 * C 0%nat x = 0.
Hypothesis HLS : forall k x, 0 < x -> C2 (S k) x + C1 (S k) x / x - INR n ^ 2 / x ^ 2 * C (S k) x = - C k x.
Hypothesis HT1 : forall p, derivable_pt_lim T p (T1 p).
Hypothesis HT2 : forall p, derivable_pt_lim T1 p (- INR n ^ 2 * T p).
Lemma product_harmonic : harmonic (fun x z phi => T phi * Sum K (fun k => zp (v - 2 * Z.of_nat k) z * C k x)).
Proof.
  exists (fun x z phi => T phi * Sum K (fun k => zp (v - 2 * Z.of_nat k) z * C1 k x)),
    (fun x z phi => T1 phi * Sum K (fun k => zp (v - 2 * Z.of_nat k) z * C k x)),
    (fun x z phi => T phi * Sum K (fun k => zp (v - 2 * Z.of_nat k - 1) z * C k x)),
    (fun x z phi => T phi * Sum K (fun k => zp (v - 2 * Z.of_nat k) z * C2 k x)),
    (fun x z phi => - INR n ^ 2 * T phi * Sum K (fun k => zp (v - 2 * Z.of_nat k) z * C k x)),
    (fun x z phi => T phi * Sum K (fun k => zp (v - 2 * Z.of_nat k - 1 - 1) z * C k x)).
  intros x z phi H. unfold d_x, d_z, d_phi.
  split; [|split; [|split; [|split; [|split; [|split]]]]].
  - apply d_scal, (d_rsum (fun k t => zp (v - 2 * Z.of_nat k) z * C k t)). intros k _. apply d_scal, HC1, H.
  - eapply d_eq; [|apply d_mul; [apply HT1|apply d_const]]. cbv beta. ring.
  - apply d_scal, (d_rsum (fun k t => zp (v - 2 * Z.of_nat k) t * C k x)). intros k _.
    eapply d_eq; [|apply d_mul; [apply zp_d|apply d_const]]. cbv beta. ring.
  - apply d_scal, (d_rsum (fun k t => zp (v - 2 * Z.of_nat k) z * C1 k t)). intros k _. apply d_scal, HC2, H.
  - eapply d_eq; [|apply d_mul; [apply HT2|apply d_const]]. cbv beta. ring.
  - apply d_scal, (d_rsum (fun k t => zp (v - 2 * Z.of_nat k - 1) t * C k x)). intros k _.
    eapply d_eq; [|apply d_mul; [apply zp_d|apply d_const]]. cbv beta. ring.
  - set (g := fun k => zp (v - 2 * Z.of_nat k - 1 - 1) z * C k x).
    transitivity (T phi * (Sum K (fun k => zp (v - 2 * Z.of_nat k) z * (C2 k x + C1 k x / x - INR n ^ 2 / x ^ 2 * C k x)) + Sum K g)).
    + rewrite (rsum_ext (fun k => zp (v - 2 * Z.of_nat k) z * (C2 k x + C1 k x / x - INR n ^ 2 / x ^ 2 * C k x))
        (fun k => zp (v - 2 * Z.of_nat k) z * C2 k x + (/ x * (zp (v - 2 * Z.of_nat k) z * C1 k x) + - (INR n ^ 2 / x ^ 2) * (zp (v - 2 * Z.of_nat k) z * C k x)))) by (intros; unfold Rdiv; ring).
      rewrite !rsum_plus, !rsum_scale. fold g. field. lra.
    + destruct K as [|K']; [cbn; ring|]. destruct HK as [HK'|]; [|discriminate].
      rewrite Sum_S, Sum_last. rewrite HL0 by exact H.
      rewrite (rsum_ext (fun j => zp (v - 2 * Z.of_nat (S j)) z * (C2 (S j) x + C1 (S j) x / x - INR n ^ 2 / x ^ 2 * C (S j) x)) (fun j => -1 * g j)).
      2: { intros j _. rewrite HLS by exact H. unfold g. replace (v - 2 * Z.of_nat (S j))%Z with (v - 2 * Z.of_nat j - 1 - 1)%Z by lia. ring. }
      rewrite rsum_scale. unfold g at 3. unfold zp at 2. destruct (Z.ltb_spec (v - 2 * Z.of_nat K' - 1 - 1) 0) as [_|B]; [|lia]. ring.
Qed.
End Product.

Lemma harmonic_add f g : harmonic f -> harmonic g -> harmonic (fun x z phi => f x z phi + g x z phi).
Proof.
  intros (fx & fp & fz & fxx & fpp & fzz & F) (gx & gp & gz & gxx & gpp & gzz & G).
  exists (fun x z phi => fx x z phi + gx x z phi), (fun x z phi => fp x z phi + gp x z phi), (fun x z phi => fz x z phi + gz x z phi),
    (fun x z phi => fxx x z phi + gxx x z phi), (fun x z phi => fpp x z phi + gpp x z phi), (fun x z phi => fzz x z phi + gzz x z phi).
  intros x z phi H. destruct (F x z phi H) as (F1 & F2 & F3 & F4 & F5 & F6 & F7). destruct (G x z phi H) as (G1 & G2 & G3 & G4 & G5 & G6 & G7).
  unfold d_x, d_z, d_phi in *. repeat (split; [apply d_add; assumption|]).
  transitivity ((fxx x z phi + fx x z phi / x + fpp x z phi / x ^ 2 + fzz x z phi) + (gxx x z phi + gx x z phi / x + gpp x z phi / x ^ 2 + gzz x z phi)); [field; lra|].
  rewrite F7, G7. ring.
Qed.
Lemma harmonic_ext f g : (forall x z phi, 0 < x -> f x z phi = g x z phi) -> harmonic f -> harmonic g.
Proof.
  intros E (fx & fp & fz & fxx & fpp & fzz & F). exists fx, fp, fz, fxx, fpp, fzz. intros x z phi H.
  destruct (F x z phi H) as (F1 & F2 & F3 & F4). unfold d_x, d_z, d_phi in *.
  split; [|split; [|split; [|exact F4]]].
  - apply (d_local (fun t => f t z phi) _ _ _ (x / 2) (2 * x)); [lra|intros; apply E; lra|exact F1].
  - apply derivable_pt_lim_ext with (f := fun t => f x z t); [intros; apply E, H|exact F2].
  - apply derivable_pt_lim_ext with (f := fun t => f x t phi); [intros; apply E, H|exact F3].
Qed.
Lemma harmonic_phi : harmonic (fun _ _ phi => phi).
Proof.
  exists (fun _ _ _ => 0), (fun _ _ _ => 1), (fun _ _ _ => 0), (fun _ _ _ => 0), (fun _ _ _ => 0), (fun _ _ _ => 0). intros x z phi H. unfold d_x, d_z, d_phi.
  split; [exact (d_const phi x)|]. split; [exact (d_id phi)|]. split; [exact (d_const phi z)|].
  split; [exact (d_const 0 x)|]. split; [exact (d_const 1 phi)|]. split; [exact (d_const 0 z)|]. field. lra.
Qed.
Lemma d_scaled (f : R -> R) r x d : r <> 0 -> derivable_pt_lim f (x * / r) d -> derivable_pt_lim (fun t => f (t * / r)) x (d * / r).
Proof.
  intros N H. apply (derivable_pt_lim_comp (fun t => t * / r) f x (/ r) d); [|exact H].
  eapply d_eq; [|apply d_mul; [apply d_id|apply d_const]]. cbv beta. ring.
Qed.
Lemma harmonic_scale f r : 0 < r -> harmonic f -> harmonic (fun x z phi => f (x * / r) (z * / r) phi).
Proof.
  intros Hr (fx & fp & fz & fxx & fpp & fzz & F).
  exists (fun x z phi => fx (x * / r) (z * / r) phi * / r), (fun x z phi => fp (x * / r) (z * / r) phi), (fun x z phi => fz (x * / r) (z * / r) phi * / r),
    (fun x z phi => fxx (x * / r) (z * / r) phi * / r * / r), (fun x z phi => fpp (x * / r) (z * / r) phi), (fun x z phi => fzz (x * / r) (z * / r) phi * / r * / r).
  intros x z phi H. assert (H' : 0 < x * / r) by (apply Rmult_lt_0_compat; [exact H|now apply Rinv_0_lt_compat]).
  destruct (F (x * / r) (z * / r) phi H') as (F1 & F2 & F3 & F4 & F5 & F6 & F7). unfold d_x, d_z, d_phi in *. assert (r <> 0) by lra.
  split; [apply (d_scaled (fun t => f t (z * / r) phi)); assumption|]. split; [exact F2|]. split; [apply (d_scaled (fun t => f (x * / r) t phi)); assumption|].
  split; [eapply d_eq; [|apply d_mul; [apply (d_scaled (fun t => fx t (z * / r) phi)); eassumption|apply d_const]]; cbv beta; ring|].
  split; [exact F5|]. split; [eapply d_eq; [|apply d_mul; [apply (d_scaled (fun t => fz (x * / r) t phi)); eassumption|apply d_const]]; cbv beta; ring|].
  transitivity (/ r ^ 2 * (fxx (x * / r) (z * / r) phi + fx (x * / r) (z * / r) phi / (x * / r) + fpp (x * / r) (z * / r) phi / (x * / r) ^ 2 + fzz (x * / r) (z * / r) phi)); [field; lra|].
  rewrite F7. ring.
Qed.

(** * D and N *)
Definition steps (v : Z) : nat := Z.to_nat (Z.quot v 2 + 1).
Lemma steps_ok v : (-1 <= v)%Z -> (v < 2 * Z.of_nat (steps v))%Z \/ steps v = 0%nat.
Proof.
  intros H. left. unfold steps. destruct (Z.eq_dec v (-1)) as [->|N]; [vm_compute; reflexivity|].
  rewrite Z.quot_div_nonneg by lia. assert (D := Z.div_mod v 2 ltac:(lia)). assert (M := Z.mod_pos_bound v 2 ltac:(lia)). lia.
Qed.
Lemma zof_value q x phi z : lambdify (Z_over_factorial q) x phi z = zp q z.
Proof. unfold Z_over_factorial, zp. destruct (q <? 0)%Z; reflexivity. Qed.
Lemma zof_defined q x phi z : defined (Z_over_factorial q) x phi z.
Proof. unfold Z_over_factorial. destruct (Z.ltb_spec q 0); cbn [defined]; [exact I|]. split; [|exact I]. split; [exact I|]. now left. Qed.
Lemma D_expr n v x phi z : lambdify (D n v) x phi z = Sum (steps v) (fun k => zp (v - 2 * Z.of_nat k) z * fD n k x).
Proof.
  unfold D. rewrite fold_Add. cbn [lambdify]. rewrite Rplus_0_l. apply rsum_ext. intros k _. now rewrite zof_value, CD_value.
Qed.
Lemma N_expr n v x phi z : lambdify (N n v) x phi z = Sum (steps v) (fun k => zp (v - 2 * Z.of_nat k) z * fN n k x).
Proof.
  unfold N. rewrite fold_Add. cbn [lambdify]. rewrite Rplus_0_l. apply rsum_ext. intros k _. now rewrite zof_value, CN_value.
Qed.
Lemma D_defined n v x phi z : 0 < x -> defined (D n v) x phi z.
Proof. intros H. unfold D. apply fold_Add_defined; [|exact I]. intros k _. split; [apply zof_defined|now apply CD_defined]. Qed.
Lemma N_defined n v x phi z : 0 < x -> defined (N n v) x phi z.
Proof. intros H. unfold N. apply fold_Add_defined; [|exact I]. intros k _. split; [apply zof_defined|now apply CN_defined]. Qed.

Lemma fN_d1 m k x : 0 < x -> derivable_pt_lim (fN m k) x (fN1 m k x).
Proof. exact (rad_d1 m _ _ _ k x). Qed.
Lemma fD_d1 m k x : 0 < x -> derivable_pt_lim (fD m k) x (fD1 m k x).
Proof. intros H. unfold fD, fD1. apply d_opp, (rad_d1 m _ _ _ k x H). Qed.

Section Modes.
Variables (n : nat) (v : Z) (T T1 : R -> R).
Hypothesis HK : (-1 <= v)%Z.
Hypothesis HT1 : forall p, derivable_pt_lim T p (T1 p).
Hypothesis HT2 : forall p, derivable_pt_lim T1 p (- INR n ^ 2 * T p).
Lemma N_harmonic : harmonic (fun x z phi => T phi * lambdify (N n v) x phi z).
Proof.
  apply (harmonic_ext (fun x z phi => T phi * Sum (steps v) (fun k => zp (v - 2 * Z.of_nat k) z * fN n k x))); [intros; now rewrite N_expr|].
  refine (product_harmonic n v (steps v) (fN n) (fN1 n) (rad2 n (fun s => alpha s n) (fun s => delta s n) (fun s => beta s n)) T T1 (steps_ok v HK) _ _ _ _ HT1 HT2).
  - intros k x H. now apply fN_d1.
  - intros k x H. exact (rad_d2 n _ _ _ k x H).
  - intros x H. apply (rad_L_0 n (fun s => alpha s n)); [intros s; apply alpha_neg|exact H].
  - intros k x H. apply (rad_L_S n (fun s => alpha s n)); [intros s; apply alpha_neg|exact H].
Qed.
Lemma D_harmonic : harmonic (fun x z phi => T phi * lambdify (D n v) x phi z).
Proof.
  apply (harmonic_ext (fun x z phi => T phi * Sum (steps v) (fun k => zp (v - 2 * Z.of_nat k) z * fD n k x))); [intros; now rewrite D_expr|].
  refine (product_harmonic n v (steps v) (fD n) (fD1 n) (fun k x => - rad2 n (fun s => alpha_st s n) (fun s => delta_st s n - alpha s n) (fun s => beta_st s n) k x) T T1 (steps_ok v HK) _ _ _ _ HT1 HT2).
  - intros k x H. now apply fD_d1.
  - intros k x H. unfold fD1. apply d_opp. exact (rad_d2 n _ _ _ k x H).
  - intros x H. assert (E := rad_L_0 n (fun s => alpha_st s n) (fun s => delta_st s n - alpha s n) (fun s => beta_st s n) (zb_als n) x H).
    unfold fD1, fD. unfold Rdiv in *. lra.
  - intros k x H. assert (E := rad_L_S n (fun s => alpha_st s n) (fun s => delta_st s n - alpha s n) (fun s => beta_st s n) (zb_als n) k x H).
    unfold fD1, fD. unfold Rdiv in *. lra.
Qed.
End Modes.

Lemma trig_d1 n a b p : derivable_pt_lim (fun phi => a * cos (INR n * phi) + b * sin (INR n * phi)) p (INR n * (b * cos (INR n * p) - a * sin (INR n * p))).
Proof.
  eapply d_eq; [|apply d_add; apply d_scal; [apply (d_cos (fun phi => INR n * phi))|apply (d_sin (fun phi => INR n * phi))]; apply d_scal, d_id]. cbv beta. ring.
Qed.
Lemma trig_d2 n a b p : derivable_pt_lim (fun phi => INR n * (b * cos (INR n * phi) - a * sin (INR n * phi))) p (- INR n ^ 2 * (a * cos (INR n * p) + b * sin (INR n * p))).
Proof.
  eapply d_eq; [|apply d_scal, d_sub; apply d_scal; [apply (d_cos (fun phi => INR n * phi))|apply (d_sin (fun phi => INR n * phi))]; apply d_scal, d_id]. cbv beta. ring.
Qed.

Lemma V_harmonic n m a b c d : harmonic (fun x z phi => lambdify (V n m a b c d) x phi z).
Proof.
  apply (harmonic_ext (fun x z phi => (a * cos (INR n * phi) + b * sin (INR n * phi)) * lambdify (D n (Z.of_nat m)) x phi z +
    (c * cos (INR n * phi) + d * sin (INR n * phi)) * lambdify (N n (Z.of_nat m - 1)) x phi z)); [reflexivity|].
  apply harmonic_add.
  - exact (D_harmonic n (Z.of_nat m) _ _ ltac:(lia) (trig_d1 n a b) (trig_d2 n a b)).
  - exact (N_harmonic n (Z.of_nat m - 1) _ _ ltac:(lia) (trig_d1 n c d) (trig_d2 n c d)).
Qed.
Lemma V_defined n m a b c d x phi z : 0 < x -> defined (V n m a b c d) x phi z.
Proof.
  intros H. unfold V. cbn [defined]. assert (D1 := D_defined n (Z.of_nat m) x phi z H). assert (D2 := N_defined n (Z.of_nat m - 1) x phi z H). tauto.
Qed.

(** every expression built up by U has a property that phi has and additions of V keep *)
Lemma U_ind n0 n1 A (Pr : expr -> Prop) : Pr (Sym Sphi) -> (forall e i j a b c d, Pr e -> Pr (Add e (V i j a b c d))) -> Pr (U n0 n1 A).
Proof.
  intros H0 HA. unfold U. generalize (Sym Sphi) H0. clear H0. generalize (seq 0 n0). intros l. induction l as [|i l IH]; intros e He; [exact He|].
  cbn [fold_left]. apply IH. clear IH. revert e He. generalize (seq 0 n1). intros l'. induction l' as [|j l' IH]; intros e He; [exact He|].
  cbn [fold_left]. apply IH. destruct (A i j) as [[[a b] c] d]. destruct (orb _ _); [now apply HA|exact He].
Qed.
Lemma U_harmonic n0 n1 A : harmonic (fun x z phi => lambdify (U n0 n1 A) x phi z).
Proof.
  apply (U_ind n0 n1 A (fun e => harmonic (fun x z phi => lambdify e x phi z))); [exact harmonic_phi|].
  intros e i j a b c d He. exact (harmonic_add _ _ He (V_harmonic i j a b c d)).
Qed.
Lemma U_defined n0 n1 A x phi z : 0 < x -> defined (U n0 n1 A) x phi z.
Proof.
  intros H. apply (U_ind n0 n1 A (fun e => defined e x phi z)); [exact I|]. intros e i j a b c d He. split; [exact He|]. now apply V_defined.
Qed.

(** * The field *)
Section Field.
Variables (n0 n1 : nat) (A : nat -> nat -> R * R * R * R) (R_0 B_0 : R).
Hypothesis HR : 0 < R_0.
Let pot (x z phi : R) : R := lambdify (P n0 n1 A R_0) x phi z.
Lemma pot_value x z phi : pot x z phi = lambdify (U n0 n1 A) (x * / R_0) phi (z * / R_0).
Proof. unfold pot, P. rewrite !subs_value. reflexivity. Qed.
Lemma pot_harmonic : harmonic pot.
Proof.
  apply (harmonic_ext (fun x z phi => lambdify (U n0 n1 A) (x * / R_0) phi (z * / R_0))); [intros; symmetry; apply pot_value|].
  exact (harmonic_scale (fun x z phi => lambdify (U n0 n1 A) x phi z) R_0 HR (U_harmonic n0 n1 A)).
Qed.
Lemma P_defined x phi z : 0 < x -> defined (P n0 n1 A R_0) x phi z.
Proof.
  intros H. unfold P. apply subs_defined; [cbn; tauto|]. apply subs_defined; [cbn; tauto|]. cbn [lambdify].
  apply U_defined, Rmult_lt_0_compat; [exact H|now apply Rinv_0_lt_compat].
Qed.
Lemma pot_dx x z phi : 0 < x -> d_x pot x z phi (lambdify (diff (P n0 n1 A R_0) SR) x phi z).
Proof. intros H. exact (diff_along (P n0 n1 A R_0) SR x phi z (P_defined x phi z H)). Qed.
Lemma pot_dp x z phi : 0 < x -> d_phi pot x z phi (lambdify (diff (P n0 n1 A R_0) Sphi) x phi z).
Proof. intros H. exact (diff_along (P n0 n1 A R_0) Sphi x phi z (P_defined x phi z H)). Qed.
Lemma pot_dz x z phi : 0 < x -> d_z pot x z phi (lambdify (diff (P n0 n1 A R_0) SZ) x phi z).
Proof. intros H. exact (diff_along (P n0 n1 A R_0) SZ x phi z (P_defined x phi z H)). Qed.

(** R_0 / Byf(R_0, 0, 0) * B_0 *)
Let w : R := R_0 / Byf n0 n1 A R_0 R_0 0 0 * B_0.
Lemma Bx_eq x z phi : dom_Bx n0 n1 A R_0 B_0 x z phi = w * lambdify (diff (P n0 n1 A R_0) SR) x phi z.
Proof. unfold dom_Bx, Bxf, w. cbn [lambdify]. unfold Rdiv. ring. Qed.
Lemma Bz_eq x z phi : dom_Bz n0 n1 A R_0 B_0 x z phi = w * lambdify (diff (P n0 n1 A R_0) SZ) x phi z.
Proof. unfold dom_Bz, Bzf, w. cbn [lambdify]. unfold Rdiv. ring. Qed.
Lemma By_eq x z phi : 0 < x -> dom_By n0 n1 A R_0 B_0 x z phi = w * lambdify (diff (P n0 n1 A R_0) Sphi) x phi z / x.
Proof.
  intros H. unfold dom_By, w. unfold Byf at 1. cbn [lambdify]. change (powerRZ x (-1)) with (/ (x * 1)). rewrite Rmult_1_r. unfold Rdiv. ring.
Qed.

Lemma field_gradient : gradient (fun x z phi => w * pot x z phi) (dom_Bx n0 n1 A R_0 B_0) (dom_By n0 n1 A R_0 B_0) (dom_Bz n0 n1 A R_0 B_0).
Proof.
  intros x z phi H. unfold d_x, d_z, d_phi. split; [|split].
  - eapply d_eq; [symmetry; apply Bx_eq|]. apply d_scal. exact (pot_dx x z phi H).
  - eapply d_eq; [|apply d_scal; exact (pot_dp x z phi H)]. rewrite By_eq by exact H. field. lra.
  - eapply d_eq; [symmetry; apply Bz_eq|]. apply d_scal. exact (pot_dz x z phi H).
Qed.
Lemma field_divergence x z phi : 0 < x ->
  cylindrical_divergence (dom_Bx n0 n1 A R_0 B_0) (dom_By n0 n1 A R_0 B_0) (dom_Bz n0 n1 A R_0 B_0) x z phi 0.
Proof.
  intros H. destruct pot_harmonic as (fx & fp & fz & fxx & fpp & fzz & F).
  assert (EX : forall t z phi, 0 < t -> fx t z phi = lambdify (diff (P n0 n1 A R_0) SR) t phi z).
  { intros t z' p Ht. destruct (F t z' p Ht) as (F1 & _). exact (uniqueness_limite _ _ _ _ F1 (pot_dx t z' p Ht)). }
  assert (EP : forall t z phi, 0 < t -> fp t z phi = lambdify (diff (P n0 n1 A R_0) Sphi) t phi z).
  { intros t z' p Ht. destruct (F t z' p Ht) as (_ & F1 & _). exact (uniqueness_limite _ _ _ _ F1 (pot_dp t z' p Ht)). }
  assert (EZ : forall t z phi, 0 < t -> fz t z phi = lambdify (diff (P n0 n1 A R_0) SZ) t phi z).
  { intros t z' p Ht. destruct (F t z' p Ht) as (_ & _ & F1 & _). exact (uniqueness_limite _ _ _ _ F1 (pot_dz t z' p Ht)). }
  destruct (F x z phi H) as (_ & _ & _ & F4 & F5 & F6 & F7). unfold d_x, d_z, d_phi in *.
  exists (w * (fx x z phi + x * fxx x z phi)), (w / x * fpp x z phi), (w * fzz x z phi). unfold d_x, d_z, d_phi.
  split; [|split; [|split]].
  - apply (d_local (fun t => w * (t * fx t z phi)) _ _ _ (x / 2) (2 * x)); [lra| |].
    + intros t Ht. rewrite Bx_eq, EX by lra. ring.
    + eapply d_eq; [|apply d_scal, d_mul; [apply d_id|exact F4]]. cbv beta. ring.
  - apply derivable_pt_lim_ext with (f := fun t => w / x * fp x z t); [intros t; rewrite By_eq, EP by exact H; field; lra|].
    apply d_scal. exact F5.
  - apply derivable_pt_lim_ext with (f := fun t => w * fz x t phi); [intros t; rewrite Bz_eq, EZ by exact H; ring|]. apply d_scal. exact F6.
  - transitivity (w * (fxx x z phi + fx x z phi / x + fpp x z phi / x ^ 2 + fzz x z phi)); [rewrite F7; ring|]. field. lra.
Qed.
Lemma field_axis : Byf n0 n1 A R_0 R_0 0 0 <> 0 -> dom_By n0 n1 A R_0 B_0 R_0 0 0 = B_0.
Proof. intros H. unfold dom_By. field. exact H. Qed.
End Field.

(** * Values at R = 1 *)
Lemma zp_zpower v z : zp (Z.of_nat v) z = zpower v z.
Proof. unfold zp, zpower. destruct (Z.ltb_spec (Z.of_nat v) 0); [lia|]. rewrite Nat2Z.id, <- pow_powerRZ. reflexivity. Qed.
Lemma Sum_first (g : nat -> R) K : (1 <= K)%nat -> (forall k, (1 <= k)%nat -> g k = 0) -> Sum K g = g 0%nat.
Proof.
  intros H Z. destruct K as [|K]; [lia|]. rewrite Sum_S, rsum_zero; [ring|]. intros k _. apply Z. lia.
Qed.
Lemma steps_pos v : (1 <= steps (Z.of_nat v))%nat.
Proof. unfold steps. rewrite Z.quot_div_nonneg by lia. assert (0 <= Z.of_nat v / 2)%Z by (apply Z.div_pos; lia). lia. Qed.
Lemma D_boundary n v z phi : lambdify (D n (Z.of_nat v)) 1 phi z = zpower v z /\ d_x (fun x z phi => lambdify (D n (Z.of_nat v)) x phi z) 1 z phi 0.
Proof.
  split.
  - rewrite D_expr, Sum_first; [|apply steps_pos|].
    + rewrite DomBoundary.D_value. cbn [Nat.eqb]. replace (Z.of_nat v - 2 * Z.of_nat 0)%Z with (Z.of_nat v) by lia. rewrite zp_zpower. ring.
    + intros k Hk. rewrite DomBoundary.D_value. destruct (Nat.eqb_spec k 0); [lia|ring].
  - unfold d_x. apply derivable_pt_lim_ext with (f := fun x => Sum (steps (Z.of_nat v)) (fun k => zp (Z.of_nat v - 2 * Z.of_nat k) z * fD n k x)); [intros; symmetry; apply D_expr|].
    eapply d_eq; [|apply (d_rsum (fun k t => zp (Z.of_nat v - 2 * Z.of_nat k) z * fD n k t)); intros k _; apply d_scal, fD_d1; lra].
    apply rsum_zero. intros k _. rewrite D_slope. ring.
Qed.
Lemma N_boundary n v z phi : lambdify (N n (Z.of_nat v)) 1 phi z = 0 /\ d_x (fun x z phi => lambdify (N n (Z.of_nat v)) x phi z) 1 z phi (zpower v z).
Proof.
  split.
  - rewrite N_expr. apply rsum_zero. intros k _. rewrite DomBoundary.N_value. ring.
  - unfold d_x. apply derivable_pt_lim_ext with (f := fun x => Sum (steps (Z.of_nat v)) (fun k => zp (Z.of_nat v - 2 * Z.of_nat k) z * fN n k x)); [intros; symmetry; apply N_expr|].
    eapply d_eq; [|apply (d_rsum (fun k t => zp (Z.of_nat v - 2 * Z.of_nat k) z * fN n k t)); intros k _; apply d_scal, fN_d1; lra].
    rewrite Sum_first; [|apply steps_pos|].
    + rewrite N_slope. cbn [Nat.eqb]. replace (Z.of_nat v - 2 * Z.of_nat 0)%Z with (Z.of_nat v) by lia. rewrite zp_zpower. ring.
    + intros k Hk. rewrite N_slope. destruct (Nat.eqb_spec k 0); [lia|ring].
Qed.
Lemma N_minus n x phi z : lambdify (N n (-1)) x phi z = 0.
Proof. rewrite N_expr. apply rsum_zero. intros k _. unfold zp. destruct (Z.ltb_spec (-1 - 2 * Z.of_nat k) 0); [ring|lia]. Qed.

(** * Special tables of coefficients *)
Lemma fold_left_ind {X Y} (f : X -> Y -> X) (Pr : X -> Prop) l : (forall x y, In y l -> Pr x -> Pr (f x y)) -> forall x, Pr x -> Pr (fold_left f l x).
Proof.
  induction l as [|y l IH]; intros H x Hx; [exact Hx|]. cbn [fold_left]. apply IH; [intros; apply H; [now right|assumption]|]. apply H; [now left|exact Hx].
Qed.
Lemma U_ind_in n0 n1 A (Pr : expr -> Prop) : Pr (Sym Sphi) ->
  (forall e i j a b c d, (i < n0)%nat -> (j < n1)%nat -> A i j = (a, b, c, d) -> ~ (a = 0 /\ b = 0 /\ c = 0 /\ d = 0) -> Pr e -> Pr (Add e (V i j a b c d))) -> Pr (U n0 n1 A).
Proof.
  intros H0 HA. unfold U. apply fold_left_ind; [|exact H0]. intros e i Hi He. apply in_seq in Hi. apply fold_left_ind; [|exact He].
  intros e' j Hj He'. apply in_seq in Hj. destruct (A i j) as [[[a b] c] d] eqn:EA.
  destruct (orb _ _) eqn:EO; [|exact He']. apply HA; [lia|lia|exact EA| |exact He'].
  intros (-> & -> & -> & ->). unfold zero in EO. destruct (Req_EM_T 0 0); [discriminate|congruence].
Qed.
Lemma U_zero n0 n1 A : (forall i j, A i j = (0, 0, 0, 0)) -> U n0 n1 A = Sym Sphi.
Proof.
  intros H. apply (U_ind_in n0 n1 A (fun e => e = Sym Sphi)); [reflexivity|]. intros e i j a b c d _ _ E N. rewrite H in E. injection E as <- <- <- <-. tauto.
Qed.
(** potentials without dependence on phi other than phi itself *)
Lemma U_axisymmetric n0 n1 A x z : (n0 <= 1)%nat -> exists w, forall phi, lambdify (U n0 n1 A) x phi z = phi + w.
Proof.
  intros H. apply (U_ind_in n0 n1 A (fun e => exists w, forall phi, lambdify e x phi z = phi + w)); [exists 0; intros; cbn [lambdify]; ring|].
  intros e i j a b c d Hi _ _ _ (w & E). exists (w + lambdify (V i j a b c d) x 0 z). intros phi. cbn [lambdify]. rewrite E.
  replace i with 0%nat by lia. unfold V. cbn [lambdify]. rewrite !D_expr, !N_expr. change (INR 0) with 0. rewrite !Rmult_0_l. ring.
Qed.
Lemma trig_period n phi : cos (INR n * (phi + 2 * PI)) = cos (INR n * phi) /\ sin (INR n * (phi + 2 * PI)) = sin (INR n * phi).
Proof.
  replace (INR n * (phi + 2 * PI)) with (INR n * phi + 2 * INR n * PI) by ring. split; [apply cos_period|apply sin_period].
Qed.
Lemma U_period n0 n1 A x z phi : lambdify (U n0 n1 A) x (phi + 2 * PI) z = lambdify (U n0 n1 A) x phi z + 2 * PI.
Proof.
  apply (U_ind n0 n1 A (fun e => lambdify e x (phi + 2 * PI) z = lambdify e x phi z + 2 * PI)); [reflexivity|].
  intros e i j a b c d E. cbn [lambdify]. rewrite E. unfold V. cbn [lambdify]. rewrite !D_expr, !N_expr.
  destruct (trig_period i phi) as [-> ->]. ring.
Qed.

Section Special.
Variables (n0 n1 : nat) (A : nat -> nat -> R * R * R * R) (R_0 B_0 : R).
Hypothesis HR : 0 < R_0.
Let dP s x phi z := lambdify (diff (P n0 n1 A R_0) s) x phi z.
Lemma dP_period s x phi z : 0 < x -> dP s x (phi + 2 * PI) z = dP s x phi z.
Proof.
  intros H. unfold dP. assert (E : forall x z phi, lambdify (P n0 n1 A R_0) x (phi + 2 * PI) z = lambdify (P n0 n1 A R_0) x phi z + 2 * PI).
  { intros x0 z0 p0. transitivity (lambdify (U n0 n1 A) (x0 * / R_0) (p0 + 2 * PI) (z0 * / R_0)); [exact (pot_value n0 n1 A R_0 x0 z0 (p0 + 2 * PI))|].
    rewrite U_period. f_equal. symmetry. exact (pot_value n0 n1 A R_0 x0 z0 p0). }
  destruct s.
  - apply (uniqueness_limite (fun t => lambdify (P n0 n1 A R_0) t (phi + 2 * PI) z) x); [exact (pot_dx n0 n1 A R_0 HR x z (phi + 2 * PI) H)|].
    apply derivable_pt_lim_ext with (f := fun t => lambdify (P n0 n1 A R_0) t phi z + 2 * PI); [intros; symmetry; apply E|].
    eapply d_eq; [|apply d_add; [exact (pot_dx n0 n1 A R_0 HR x z phi H)|apply d_const]]. ring.
  - apply (uniqueness_limite (fun t => lambdify (P n0 n1 A R_0) x (t + 2 * PI) z) phi).
    + eapply d_eq; [|apply (derivable_pt_lim_comp (fun t => t + 2 * PI) (fun t => lambdify (P n0 n1 A R_0) x t z)); [apply d_add; [apply d_id|apply d_const]|exact (pot_dp n0 n1 A R_0 HR x z (phi + 2 * PI) H)]]. ring.
    + apply derivable_pt_lim_ext with (f := fun t => lambdify (P n0 n1 A R_0) x t z + 2 * PI); [intros; symmetry; apply E|].
      eapply d_eq; [|apply d_add; [exact (pot_dp n0 n1 A R_0 HR x z phi H)|apply d_const]]. ring.
  - apply (uniqueness_limite (fun t => lambdify (P n0 n1 A R_0) x (phi + 2 * PI) t) z); [exact (pot_dz n0 n1 A R_0 HR x z (phi + 2 * PI) H)|].
    apply derivable_pt_lim_ext with (f := fun t => lambdify (P n0 n1 A R_0) x phi t + 2 * PI); [intros; symmetry; apply E|].
    eapply d_eq; [|apply d_add; [exact (pot_dz n0 n1 A R_0 HR x z phi H)|apply d_const]]. ring.
Qed.
Lemma field_period x z phi : 0 < x ->
  dom_Bx n0 n1 A R_0 B_0 x z (phi + 2 * PI) = dom_Bx n0 n1 A R_0 B_0 x z phi /\
  dom_By n0 n1 A R_0 B_0 x z (phi + 2 * PI) = dom_By n0 n1 A R_0 B_0 x z phi /\
  dom_Bz n0 n1 A R_0 B_0 x z (phi + 2 * PI) = dom_Bz n0 n1 A R_0 B_0 x z phi.
Proof.
  intros H. rewrite !Bx_eq, !Bz_eq, !By_eq by exact H.
  change (lambdify (diff (P n0 n1 A R_0) SR) x (phi + 2 * PI) z) with (dP SR x (phi + 2 * PI) z).
  change (lambdify (diff (P n0 n1 A R_0) Sphi) x (phi + 2 * PI) z) with (dP Sphi x (phi + 2 * PI) z).
  change (lambdify (diff (P n0 n1 A R_0) SZ) x (phi + 2 * PI) z) with (dP SZ x (phi + 2 * PI) z).
  rewrite !dP_period by exact H. auto.
Qed.
Lemma axisymmetric_dp x z phi : (n0 <= 1)%nat -> 0 < x -> dP Sphi x phi z = 1.
Proof.
  intros Hn H. unfold dP. destruct (U_axisymmetric n0 n1 A (x * / R_0) (z * / R_0) Hn) as (w & E).
  apply (uniqueness_limite (fun t => lambdify (P n0 n1 A R_0) x t z) phi); [exact (pot_dp n0 n1 A R_0 HR x z phi H)|].
  apply derivable_pt_lim_ext with (f := fun t => t + w).
  { intros t. rewrite <- E. symmetry. exact (pot_value n0 n1 A R_0 x z t). }
  eapply d_eq; [|apply d_add; [apply d_id|apply d_const]]. ring.
Qed.
Lemma axisymmetric_axis : (n0 <= 1)%nat -> Byf n0 n1 A R_0 R_0 0 0 = 1.
Proof.
  intros Hn. unfold Byf. cbn [lambdify]. change (lambdify (diff (P n0 n1 A R_0) Sphi) R_0 0 0) with (dP Sphi R_0 0 0).
  rewrite axisymmetric_dp by assumption. change (powerRZ R_0 (-1)) with (/ (R_0 * 1)). field. lra.
Qed.
Lemma axisymmetric_By x z phi : (n0 <= 1)%nat -> 0 < x -> dom_By n0 n1 A R_0 B_0 x z phi = B_0 * R_0 / x.
Proof.
  intros Hn H. rewrite By_eq by exact H. rewrite axisymmetric_axis by exact Hn.
  change (lambdify (diff (P n0 n1 A R_0) Sphi) x phi z) with (dP Sphi x phi z). rewrite axisymmetric_dp by assumption. field. lra.
Qed.
Lemma empty_field x z phi : (forall i j, A i j = (0, 0, 0, 0)) -> 0 < x ->
  dom_Bx n0 n1 A R_0 B_0 x z phi = 0 /\ dom_By n0 n1 A R_0 B_0 x z phi = B_0 * R_0 / x /\ dom_Bz n0 n1 A R_0 B_0 x z phi = 0.
Proof.
  intros HA H. rewrite Bx_eq, Bz_eq. rewrite By_eq by exact H. unfold Byf, P. rewrite (U_zero n0 n1 A HA). cbn [subs same_symbol diff lambdify].
  change (powerRZ R_0 (-1)) with (/ (R_0 * 1)). split; [ring|]. split; [field; lra|ring].
Qed.
End Special.

(** * The sum over the modes *)
Lemma U_sum n0 n1 A x phi z : lambdify (U n0 n1 A) x phi z =
  phi + Sum n0 (fun i => Sum n1 (fun j => let '(a, b, c, d) := A i j in
    (a * cos (INR i * phi) + b * sin (INR i * phi)) * lambdify (D i (Z.of_nat j)) x phi z +
    (c * cos (INR i * phi) + d * sin (INR i * phi)) * lambdify (N i (Z.of_nat j - 1)) x phi z)).
Proof.
  unfold U. change phi with (lambdify (Sym Sphi) x phi z) at 2. generalize (Sym Sphi). generalize (seq 0 n0). intros l.
  induction l as [|i l IH]; intros e; [cbn [fold_left map]; unfold rsum; cbn [fold_right]; ring|].
  cbn [fold_left map]. rewrite IH. clear IH.
  match goal with |- _ = _ + rsum (?a :: ?r) => change (rsum (a :: r)) with (a + rsum r) end. rewrite <- Rplus_assoc. f_equal.
  revert e. generalize (seq 0 n1). intros l'. induction l' as [|j l' IH]; intros e; [cbn [fold_left map]; unfold rsum; cbn [fold_right]; ring|].
  cbn [fold_left map]. rewrite IH.
  match goal with |- _ = _ + rsum (?a :: ?r) => change (rsum (a :: r)) with (a + rsum r) end. rewrite <- Rplus_assoc. f_equal.
  destruct (A i j) as [[[a b] c] d]. destruct (orb _ _) eqn:EO; [reflexivity|].
  apply Bool.orb_false_iff in EO. destruct EO as [Ea EO]. apply Bool.orb_false_iff in EO. destruct EO as [Eb EO]. apply Bool.orb_false_iff in EO. destruct EO as [Ec Ed].
  unfold zero in *. destruct (Req_EM_T a 0) as [->|]; [|discriminate]. destruct (Req_EM_T b 0) as [->|]; [|discriminate].
  destruct (Req_EM_T c 0) as [->|]; [|discriminate]. destruct (Req_EM_T d 0) as [->|]; [|discriminate]. ring.
Qed.
Lemma P_sum n0 n1 A R_0 x phi z : lambdify (P n0 n1 A R_0) x phi z =
  phi + Sum n0 (fun i => Sum n1 (fun j => let '(a, b, c, d) := A i j in
    (a * cos (INR i * phi) + b * sin (INR i * phi)) * lambdify (D i (Z.of_nat j)) (x / R_0) phi (z / R_0) +
    (c * cos (INR i * phi) + d * sin (INR i * phi)) * lambdify (N i (Z.of_nat j - 1)) (x / R_0) phi (z / R_0))).
Proof. transitivity (lambdify (U n0 n1 A) (x * / R_0) phi (z * / R_0)); [exact (pot_value n0 n1 A R_0 x z phi)|apply U_sum]. Qed.

Lemma D_0_2 x phi z : 0 < x -> lambdify (D 0 2) x phi z = z ^ 2 / 2 + 1 / 4 - x ^ 2 / 4 + ln x / 2.
Proof.
  intros H. unfold D. change (Z.to_nat (2 ÷ 2 + 1)) with 2%nat. cbn [seq fold_left lambdify]. 
  unfold Z_over_factorial, CD. cbn -[powerRZ ln alpha_st beta_st delta_st alpha beta delta Rmult Rplus Ropp]. 
  unfold alpha_st, beta_st, delta_st. unfold alpha, beta, delta, gamma. cbn -[powerRZ ln Rmult Rplus Ropp Rdiv IZR].
  unfold rsum. cbn [map seq fold_right]. cbn -[ln Rmult Rplus Ropp Rdiv]. simpl. field.
Qed.
