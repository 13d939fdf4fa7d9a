(** Proofs about the approximate invariant of the field lines of Dommaschk potentials. *)
From Coq Require Import List Reals ZArith Lra Lia.
From Verif Require Import Prelude FieldReal CoilSpec CoilProofs DomModel DomHatModel DomProofs DomRadial DomBoundary DomSpec DomField.
Import ListNotations.
Open Scope R_scope.

(** * The chain rule along a curve *)
Lemma diff_curve e (X Z : R -> R) s X' Z' : derivable_pt_lim X s X' -> derivable_pt_lim Z s Z' -> defined e (X s) s (Z s) ->
  derivable_pt_lim (fun t => lambdify e (X t) t (Z t)) s (lambdify (diff e SR) (X s) s (Z s) * X' + lambdify (diff e Sphi) (X s) s (Z s) + lambdify (diff e SZ) (X s) s (Z s) * Z').
Proof.
  intros HX HZ. induction e as [c|t|a IHa b IHb|a IHa b IHb|a IHa n|a IHa|a IHa|a IHa]; cbn [defined diff lambdify].
  - intros _. eapply d_eq; [|apply d_const]. ring.
  - intros _. destruct t; cbn [same_symbol]; (eapply d_eq; [|first [exact HX|exact HZ|apply d_id]]); ring.
  - intros [Da Db]. eapply d_eq; [|apply d_add; [exact (IHa Da)|exact (IHb Db)]]. ring.
  - intros [Da Db]. eapply d_eq; [|apply d_mul; [exact (IHa Da)|exact (IHb Db)]]. cbv beta. ring.
  - intros [Da V]. eapply d_eq; [|apply d_powerRZ; [exact (IHa Da)|exact V]]. cbv beta. ring.
  - intros [Da V]. eapply d_eq; [|apply d_ln; [exact V|exact (IHa Da)]]. cbv beta. change (powerRZ ?u (-1)) with (/ (u * 1)). field. lra.
  - intros Da. eapply d_eq; [|apply d_cos; exact (IHa Da)]. cbv beta. ring.
  - intros Da. eapply d_eq; [|apply d_sin; exact (IHa Da)]. cbv beta. ring.
Qed.

(** * Derivatives of expressions without phi *)
Definition flat (e : expr) : Prop := forall x phi phi' z, lambdify e x phi z = lambdify e x phi' z.
Lemma flat_diff e s x phi phi' z : flat e -> (forall phi, defined e x phi z) -> s <> Sphi -> lambdify (diff e s) x phi z = lambdify (diff e s) x phi' z.
Proof.
  intros F H Hs. pose proof (diff_along e s x phi z (H phi)) as D1. pose proof (diff_along e s x phi' z (H phi')) as D2.
  destruct s; [|contradiction|].
  - apply (uniqueness_limite (along e SR x phi z) x); [exact D1|]. apply derivable_pt_lim_ext with (f := along e SR x phi' z); [intros t; apply F|exact D2].
  - apply (uniqueness_limite (along e SZ x phi z) z); [exact D1|]. apply derivable_pt_lim_ext with (f := along e SZ x phi' z); [intros t; apply F|exact D2].
Qed.
Lemma D_flat n v : flat (D n v).
Proof. intros x p p' z. now rewrite !D_expr. Qed.
Lemma N_flat n v : flat (N n v).
Proof. intros x p p' z. now rewrite !N_expr. Qed.

(** * V_hat is an integral of V *)
(** d/dphi of the derivatives of e' are those of e *)
Definition integral (e e' : expr) : Prop := forall s x phi z, s <> Sphi -> 0 < x ->
  derivable_pt_lim (fun t => lambdify (diff e' s) x t z) phi (lambdify (diff e s) x phi z).
Lemma integral_add a a' b b' : integral a a' -> integral b b' -> integral (Add a b) (Add a' b').
Proof. intros Ha Hb s x phi z Hs Hx. cbn [diff lambdify]. apply d_add; [now apply Ha|now apply Hb]. Qed.
Lemma trig_int n a b p : (0 < n)%nat ->
  derivable_pt_lim (fun phi => (a * cos (INR n * phi + - (PI / 2)) + b * sin (INR n * phi + - (PI / 2))) * / INR n) p (a * cos (INR n * p) + b * sin (INR n * p)).
Proof.
  intros H. assert (0 < INR n) by now apply lt_0_INR.
  apply derivable_pt_lim_ext with (f := fun phi => / INR n * (a * sin (INR n * phi) + - b * cos (INR n * phi))).
  { intros t. replace (INR n * t + - (PI / 2)) with (- (PI / 2 - INR n * t)) by ring. rewrite cos_neg, sin_antisym, cos_shift, sin_shift. ring. }
  eapply d_eq; [|apply d_scal, d_add; apply d_scal; [apply d_sin|apply d_cos]; apply d_scal, d_id]. cbv beta. field. lra.
Qed.
Lemma V_integral n m a b c d : (0 < n)%nat -> integral (V n m a b c d) (Mul (V_hat n m a b c d) (piece n)).
Proof.
  intros Hn s x phi z Hs Hx. unfold V, V_hat, piece. replace (Nat.eqb n 0) with false by (symmetry; apply Nat.eqb_neq; lia).
  cbn [diff lambdify]. replace (same_symbol s Sphi) with false by (destruct s; [reflexivity|contradiction|reflexivity]).
  set (dD := lambdify (diff (D n (Z.of_nat m)) s) x phi z). set (dN := lambdify (diff (N n (Z.of_nat m - 1)) s) x phi z).
  assert (ED : forall t, lambdify (diff (D n (Z.of_nat m)) s) x t z = dD) by (intros t; apply flat_diff; [apply D_flat|intros; now apply D_defined|exact Hs]).
  assert (EN : forall t, lambdify (diff (N n (Z.of_nat m - 1)) s) x t z = dN) by (intros t; apply flat_diff; [apply N_flat|intros; now apply N_defined|exact Hs]).
  apply derivable_pt_lim_ext with (f := fun t => (a * cos (INR n * t + - (PI / 2)) + b * sin (INR n * t + - (PI / 2))) * / INR n * dD + (c * cos (INR n * t + - (PI / 2)) + d * sin (INR n * t + - (PI / 2))) * / INR n * dN).
  { intros t. rewrite ED, EN. ring. }
  eapply d_eq; [|apply d_add; (apply d_mul; [apply (trig_int n _ _ phi Hn)|apply d_const])]. cbv beta. ring.
Qed.
Lemma U_integral n0 n1 A : (forall j, A 0%nat j = (0, 0, 0, 0)) -> integral (U n0 n1 A) (U_hat n0 n1 A).
Proof.
  intros HA. unfold U, U_hat. assert (H0 : integral (Sym Sphi) (Num 0)).
  { intros s x phi z Hs Hx. cbn [diff lambdify]. replace (same_symbol s Sphi) with false by (destruct s; [reflexivity|contradiction|reflexivity]). apply d_const. }
  revert H0. generalize (Sym Sphi) (Num 0). generalize (seq 0 n0). intros l. induction l as [|i l IH]; intros e e' He; [exact He|].
  cbn [fold_left]. apply IH. clear IH. revert e e' He. generalize (seq 0 n1). intros l'. induction l' as [|j l' IH]; intros e e' He; [exact He|].
  cbn [fold_left]. apply IH. destruct (A i j) as [[[a b] c] d] eqn:EA. destruct (orb _ _) eqn:EO; [|exact He].
  apply integral_add; [exact He|]. apply V_integral. destruct i; [|lia]. rewrite HA in EA. injection EA as <- <- <- <-. exfalso. revert EO.
  unfold zero. destruct (Req_EM_T 0 0); [discriminate|contradiction].
Qed.

Lemma V_hat_defined n m a b c d x phi z : 0 < x -> defined (V_hat n m a b c d) x phi z.
Proof.
  intros H. unfold V_hat. cbn [defined]. assert (D1 := D_defined n (Z.of_nat m) x phi z H). assert (D2 := N_defined n (Z.of_nat m - 1) x phi z H). tauto.
Qed.
Lemma U_hat_defined n0 n1 A x phi z : 0 < x -> defined (U_hat n0 n1 A) x phi z.
Proof.
  intros H. unfold U_hat. apply fold_left_ind; [|exact I]. intros e i _ He. apply fold_left_ind; [|exact He]. intros e' j _ He'.
  destruct (A i j) as [[[a b] c] d]. destruct (orb _ _); [|exact He']. split; [exact He'|]. split; [now apply V_hat_defined|]. unfold piece. now destruct (Nat.eqb i 0).
Qed.

(** derivatives of what is substituted into *)
Section Scaled.
Variables (e : expr) (R_0 : R).
Hypothesis HR : 0 < R_0.
Hypothesis He : forall x phi z, 0 < x -> defined e x phi z.
Let e' := subs (subs e SR (Mul (Sym SR) (Num (/ R_0)))) SZ (Mul (Sym SZ) (Num (/ R_0))).
Lemma scaled_value x phi z : lambdify e' x phi z = lambdify e (x * / R_0) phi (z * / R_0).
Proof. unfold e'. rewrite !subs_value. reflexivity. Qed.
Lemma pos_scaled x : 0 < x -> 0 < x * / R_0.
Proof. intros H. apply Rmult_lt_0_compat; [exact H|now apply Rinv_0_lt_compat]. Qed.
Lemma scaled_defined x phi z : 0 < x -> defined e' x phi z.
Proof. intros H. unfold e'. apply subs_defined; [cbn; tauto|]. apply subs_defined; [cbn; tauto|]. cbn [lambdify]. now apply He, pos_scaled. Qed.
Lemma scaled_diff s x phi z : 0 < x ->
  lambdify (diff e' s) x phi z = lambdify (diff e s) (x * / R_0) phi (z * / R_0) * (match s with Sphi => 1 | _ => / R_0 end).
Proof.
  intros H. pose proof (diff_along e' s x phi z (scaled_defined x phi z H)) as D1. pose proof (diff_along e s (x * / R_0) phi (z * / R_0) (He _ _ _ (pos_scaled x H))) as D2.
  destruct s.
  - apply (uniqueness_limite (along e' SR x phi z) x); [exact D1|]. apply derivable_pt_lim_ext with (f := fun t => along e SR (x * / R_0) phi (z * / R_0) (t * / R_0)).
    { intros t. symmetry. exact (scaled_value t phi z). }
    apply (derivable_pt_lim_comp (fun t => t * / R_0) (along e SR (x * / R_0) phi (z * / R_0))); [|exact D2].
    eapply d_eq; [|apply d_mul; [apply d_id|apply d_const]]. cbv beta. ring.
  - rewrite Rmult_1_r. apply (uniqueness_limite (along e' Sphi x phi z) phi); [exact D1|]. apply derivable_pt_lim_ext with (f := along e Sphi (x * / R_0) phi (z * / R_0)); [intros t; symmetry; exact (scaled_value x t z)|exact D2].
  - apply (uniqueness_limite (along e' SZ x phi z) z); [exact D1|]. apply derivable_pt_lim_ext with (f := fun t => along e SZ (x * / R_0) phi (z * / R_0) (t * / R_0)).
    { intros t. symmetry. exact (scaled_value x phi t). }
    apply (derivable_pt_lim_comp (fun t => t * / R_0) (along e SZ (x * / R_0) phi (z * / R_0))); [|exact D2].
    eapply d_eq; [|apply d_mul; [apply d_id|apply d_const]]. cbv beta. ring.
Qed.
End Scaled.
Lemma P_integral n0 n1 A R_0 : 0 < R_0 -> (forall j, A 0%nat j = (0, 0, 0, 0)) -> integral (P n0 n1 A R_0) (P_hat n0 n1 A R_0).
Proof.
  intros HR HA s x phi z Hs Hx. unfold P, P_hat.
  rewrite (scaled_diff (U n0 n1 A) R_0 HR (U_defined n0 n1 A)) by exact Hx.
  apply derivable_pt_lim_ext with (f := fun t => lambdify (diff (U_hat n0 n1 A) s) (x * / R_0) t (z * / R_0) * match s with Sphi => 1 | _ => / R_0 end).
  { intros t. symmetry. now apply (scaled_diff (U_hat n0 n1 A) R_0 HR (U_hat_defined n0 n1 A)). }
  eapply d_eq; [|apply d_mul; [apply (U_integral n0 n1 A HA s _ phi _ Hs (pos_scaled R_0 HR x Hx))|apply d_const]]. cbv beta. ring.
Qed.
Lemma P_hat_defined n0 n1 A R_0 x phi z : 0 < R_0 -> 0 < x -> defined (P_hat n0 n1 A R_0) x phi z.
Proof. intros HR H. exact (scaled_defined (U_hat n0 n1 A) R_0 HR (U_hat_defined n0 n1 A) x phi z H). Qed.
