(** The expressions of the Dommaschk potentials are bounded wherever R is bounded above and below and Z is bounded,
    and so are their derivatives. *)
From Coq Require Import List Reals ZArith Lra Lia.
From Verif Require Import Prelude FieldReal CoilSpec CoilProofs DomModel DomHatModel DomProofs DomRadial DomBoundary DomSpec DomField DomHat.
Import ListNotations.
Open Scope R_scope.

(** sums and products of R, Z, powers and logarithms of multiples of R, and functions of phi *)
Definition multiple (a : expr) : Prop := exists c, 0 < c /\ forall x phi z, lambdify a x phi z = c * x.
Inductive tame : expr -> Prop :=
| tame_num c : tame (Num c)
| tame_R : tame (Sym SR)
| tame_Z : tame (Sym SZ)
| tame_add a b : tame a -> tame b -> tame (Add a b)
| tame_mul a b : tame a -> tame b -> tame (Mul a b)
| tame_pow a n : tame a -> (0 <= n)%Z -> tame (Pow a n)
| tame_base a n : tame a -> multiple a -> tame (Pow a n)
| tame_log a : tame a -> multiple a -> tame (Log a)
| tame_cos k : tame (Cos (Mul (Num k) (Sym Sphi)))
| tame_sin k : tame (Sin (Mul (Num k) (Sym Sphi)))
| tame_cos' k c : tame (Cos (Add (Mul (Num k) (Sym Sphi)) (Num c)))
| tame_sin' k c : tame (Sin (Add (Mul (Num k) (Sym Sphi)) (Num c))).

Lemma multiple_pos a x phi z : multiple a -> 0 < x -> 0 < lambdify a x phi z.
Proof. intros (c & Hc & E) H. rewrite E. now apply Rmult_lt_0_compat. Qed.
Lemma tame_defined e x phi z : tame e -> 0 < x -> defined e x phi z.
Proof.
  intros T H. induction T; cbn [defined lambdify]; try tauto.
  - split; [assumption|]. right. pose proof (multiple_pos a x phi z H0 H). lra.
  - split; [assumption|]. now apply multiple_pos.
Qed.
Lemma tame_diff e s : tame e -> exists e', tame e' /\ forall x phi z, 0 < x -> lambdify e' x phi z = lambdify (diff e s) x phi z.
Proof.
  intros T. induction T as [c| | |a b Ta (a' & Ta' & Ea) Tb (b' & Tb' & Eb)|a b Ta (a' & Ta' & Ea) Tb (b' & Tb' & Eb)|a n Ta (a' & Ta' & Ea) Hn|a n Ta (a' & Ta' & Ea) M|a Ta (a' & Ta' & Ea) M|k|k|k c|k c].
  - exists (Num 0). split; [constructor|reflexivity].
  - eexists (Num _). split; [constructor|cbn [diff lambdify]; reflexivity].
  - eexists (Num _). split; [constructor|cbn [diff lambdify]; reflexivity].
  - exists (Add a' b'). split; [now constructor|]. intros x phi z H. cbn [diff lambdify]. now rewrite Ea, Eb.
  - exists (Add (Mul a' b) (Mul a b')). split; [now repeat constructor|]. intros x phi z H. cbn [diff lambdify]. now rewrite Ea, Eb.
  - destruct (Z.eq_dec n 0) as [->|N].
    + exists (Num 0). split; [constructor|]. intros x phi z H. cbn [diff lambdify]. ring.
    + exists (Mul (Mul (Num (IZR n)) (Pow a (n - 1))) a'). split; [repeat constructor; [assumption|lia|assumption]|]. intros x phi z H. cbn [diff lambdify]. now rewrite Ea.
  - exists (Mul (Mul (Num (IZR n)) (Pow a (n - 1))) a'). split; [apply tame_mul; [apply tame_mul; [apply tame_num|now apply tame_base]|assumption]|]. intros x phi z H. cbn [diff lambdify]. now rewrite Ea.
  - exists (Mul (Pow a (-1)) a'). split; [apply tame_mul; [now apply tame_base|assumption]|]. intros x phi z H. cbn [diff lambdify]. now rewrite Ea.
  - exists (Mul (Mul (Num (-1)) (Sin (Mul (Num k) (Sym Sphi)))) (Num (k * (if same_symbol s Sphi then 1 else 0)))). split; [repeat constructor|]. intros x phi z H. cbn [diff lambdify]. ring.
  - exists (Mul (Cos (Mul (Num k) (Sym Sphi))) (Num (k * (if same_symbol s Sphi then 1 else 0)))). split; [repeat constructor|]. intros x phi z H. cbn [diff lambdify]. ring.
  - exists (Mul (Mul (Num (-1)) (Sin (Add (Mul (Num k) (Sym Sphi)) (Num c)))) (Num (k * (if same_symbol s Sphi then 1 else 0)))). split; [repeat constructor|]. intros x phi z H. cbn [diff lambdify]. ring.
  - exists (Mul (Cos (Add (Mul (Num k) (Sym Sphi)) (Num c))) (Num (k * (if same_symbol s Sphi then 1 else 0)))). split; [repeat constructor|]. intros x phi z H. cbn [diff lambdify]. ring.
Qed.

Section Bounds.
Variables r1 r2 zm : R.
Hypothesis H1 : 0 < r1.
Definition inside (x z : R) : Prop := r1 <= x <= r2 /\ Rabs z <= zm.
Definition bounded (f : R -> R -> R -> R) : Prop := exists M, 0 <= M /\ forall x phi z, inside x z -> Rabs (f x phi z) <= M.
Lemma bounded_add f g : bounded f -> bounded g -> bounded (fun x phi z => f x phi z + g x phi z).
Proof.
  intros (M & M0 & HM) (M' & M0' & HM'). exists (M + M'). split; [lra|]. intros x phi z I. eapply Rle_trans; [apply Rabs_triang|]. specialize (HM x phi z I). specialize (HM' x phi z I). lra.
Qed.
Lemma bounded_mul f g : bounded f -> bounded g -> bounded (fun x phi z => f x phi z * g x phi z).
Proof.
  intros (M & M0 & HM) (M' & M0' & HM'). exists (M * M'). split; [now apply Rmult_le_pos|]. intros x phi z I. rewrite Rabs_mult. specialize (HM x phi z I). specialize (HM' x phi z I).
  apply Rmult_le_compat; try apply Rabs_pos; assumption.
Qed.
Lemma bounded_const c : bounded (fun _ _ _ => c).
Proof. exists (Rabs c). split; [apply Rabs_pos|intros; lra]. Qed.
Lemma bounded_pow f n : bounded f -> bounded (fun x phi z => f x phi z ^ n).
Proof. intros B. induction n as [|n IH]; cbn [pow]; [apply bounded_const|]. now apply bounded_mul. Qed.
Lemma bounded_ext f g : (forall x phi z, inside x z -> f x phi z = g x phi z) -> bounded f -> bounded g.
Proof. intros E (M & M0 & HM). exists M. split; [exact M0|]. intros x phi z I. rewrite <- E by exact I. now apply HM. Qed.
Lemma bounded_powerRZ f n : bounded f -> (0 <= n)%Z \/ bounded (fun x phi z => / f x phi z) -> bounded (fun x phi z => powerRZ (f x phi z) n).
Proof.
  intros B H. destruct n as [|p|p]; cbn [powerRZ]; [apply bounded_const|now apply bounded_pow|].
  destruct H as [H|H]; [lia|]. apply bounded_ext with (f := fun x phi z => (/ f x phi z) ^ Pos.to_nat p); [intros; apply pow_inv|now apply bounded_pow].
Qed.
Lemma multiple_inv a : multiple a -> bounded (fun x phi z => / lambdify a x phi z).
Proof.
  intros (c & Hc & E). exists (/ (c * r1)). assert (0 < c * r1) by now apply Rmult_lt_0_compat. split; [left; now apply Rinv_0_lt_compat|].
  intros x phi z [I _]. rewrite E. rewrite Rabs_pos_eq; [|left; apply Rinv_0_lt_compat, Rmult_lt_0_compat; lra].
  apply Rinv_le_contravar; [assumption|]. apply Rmult_le_compat_l; lra.
Qed.
Lemma tame_bounded e : tame e -> bounded (fun x phi z => lambdify e x phi z).
Proof.
  intros T. induction T as [c| | |a b Ta IHa Tb IHb|a b Ta IHa Tb IHb|a n Ta IHa Hn|a n Ta IHa M|a Ta IHa M|k|k|k c|k c]; cbn [lambdify].
  - apply bounded_const.
  - exists (Rmax 0 r2). split; [apply Rmax_l|]. intros x phi z [I _]. rewrite Rabs_pos_eq by lra. eapply Rle_trans; [apply I|apply Rmax_r].
  - exists (Rmax 0 zm). split; [apply Rmax_l|]. intros x phi z [_ I]. eapply Rle_trans; [apply I|apply Rmax_r].
  - now apply bounded_add.
  - now apply bounded_mul.
  - apply bounded_powerRZ; [assumption|now left].
  - apply bounded_powerRZ; [assumption|right; now apply multiple_inv].
  - destruct M as (c & Hc & E). exists (Rabs (ln (c * r1)) + Rabs (ln (c * r2))). split; [pose proof (Rabs_pos (ln (c * r1))); pose proof (Rabs_pos (ln (c * r2))); lra|].
    intros x phi z [I _]. rewrite E. assert (0 < c * r1) by (apply Rmult_lt_0_compat; lra).
    assert (L1 : ln (c * r1) <= ln (c * x)). { destruct (Req_dec x r1) as [->|]; [lra|]. left. apply ln_increasing; [assumption|]. apply Rmult_lt_compat_l; lra. }
    assert (L2 : ln (c * x) <= ln (c * r2)). { destruct (Req_dec x r2) as [->|]; [lra|]. left. apply ln_increasing; [apply Rmult_lt_0_compat; lra|]. apply Rmult_lt_compat_l; lra. }
    unfold Rabs. repeat destruct (Rcase_abs _); lra.
  - exists 1. split; [lra|]. intros x phi z _. pose proof (COS_bound (k * phi)). apply Rabs_le. lra.
  - exists 1. split; [lra|]. intros x phi z _. pose proof (SIN_bound (k * phi)). apply Rabs_le. lra.
  - exists 1. split; [lra|]. intros x phi z _. pose proof (COS_bound (k * phi + c)). apply Rabs_le. lra.
  - exists 1. split; [lra|]. intros x phi z _. pose proof (SIN_bound (k * phi + c)). apply Rabs_le. lra.
Qed.
End Bounds.

(** * The potentials *)
Lemma multiple_R : multiple (Sym SR).
Proof. exists 1. split; [lra|]. intros. cbn [lambdify]. ring. Qed.
Lemma tame_zof q : tame (Z_over_factorial q).
Proof. unfold Z_over_factorial. destruct (Z.ltb_spec q 0); [constructor|]. repeat constructor. assumption. Qed.
Ltac tame_tac := repeat first [apply multiple_R | apply tame_R | apply tame_Z | apply tame_num | apply tame_add | apply tame_mul | apply tame_base | apply tame_log ].
Lemma tame_CD m k : tame (CD m k).
Proof. unfold CD. apply fold_left_ind; [|constructor]. intros e j _ He. cbv zeta. apply tame_add; [exact He|]. tame_tac. Qed.
Lemma tame_CN m k : tame (CN m k).
Proof. unfold CN. apply fold_left_ind; [|constructor]. intros e j _ He. cbv zeta. apply tame_add; [exact He|]. tame_tac. Qed.
Lemma tame_D n v : tame (D n v).
Proof. unfold D. apply fold_left_ind; [|constructor]. intros e j _ He. apply tame_add; [exact He|]. apply tame_mul; [apply tame_zof|apply tame_CD]. Qed.
Lemma tame_N n v : tame (N n v).
Proof. unfold N. apply fold_left_ind; [|constructor]. intros e j _ He. apply tame_add; [exact He|]. apply tame_mul; [apply tame_zof|apply tame_CN]. Qed.
Lemma tame_V n m a b c d : tame (V n m a b c d).
Proof. unfold V. cbv zeta. pose proof (tame_D n (Z.of_nat m)). pose proof (tame_N n (Z.of_nat m - 1)). repeat first [assumption|apply tame_num|apply tame_cos|apply tame_sin|apply tame_add|apply tame_mul]. Qed.
Lemma tame_V_hat n m a b c d : tame (V_hat n m a b c d).
Proof. unfold V_hat. cbv zeta. pose proof (tame_D n (Z.of_nat m)). pose proof (tame_N n (Z.of_nat m - 1)). repeat first [assumption|apply tame_num|apply tame_cos'|apply tame_sin'|apply tame_add|apply tame_mul]. Qed.
Lemma tame_U n0 n1 A : exists W, tame W /\ forall x phi z, lambdify (U n0 n1 A) x phi z = phi + lambdify W x phi z.
Proof.
  apply (U_ind n0 n1 A (fun e => exists W, tame W /\ forall x phi z, lambdify e x phi z = phi + lambdify W x phi z)).
  - exists (Num 0). split; [constructor|]. intros. cbn [lambdify]. ring.
  - intros e i j a b c d (W & TW & EW). exists (Add W (V i j a b c d)). split; [apply tame_add; [exact TW|apply tame_V]|]. intros. cbn [lambdify]. rewrite EW. ring.
Qed.
Lemma tame_U_hat n0 n1 A : (forall j, A 0%nat j = (0, 0, 0, 0)) -> tame (U_hat n0 n1 A).
Proof.
  intros HA. unfold U_hat. apply fold_left_ind; [|constructor]. intros e i _ He. apply fold_left_ind; [|exact He]. intros e' j _ He'.
  destruct (A i j) as [[[a b] c] d] eqn:EA. destruct (orb _ _) eqn:EO; [|exact He']. apply tame_add; [exact He'|]. apply tame_mul; [apply tame_V_hat|].
  unfold piece. destruct (Nat.eqb_spec i 0) as [->|]; [|constructor]. rewrite HA in EA. injection EA as <- <- <- <-. exfalso. revert EO.
  unfold zero. destruct (Req_EM_T 0 0); [discriminate|contradiction].
Qed.
Lemma tame_subs_R e c : tame e -> 0 < c -> tame (subs e SR (Mul (Sym SR) (Num c))).
Proof.
  assert (HM : forall a, multiple a -> 0 < c -> multiple (subs a SR (Mul (Sym SR) (Num c)))).
  { intros a (k & Hk & E) Hc. exists (k * c). split; [now apply Rmult_lt_0_compat|]. intros x phi z. rewrite subs_value, E. cbn [lambdify]. ring. }
  intros T Hc. induction T; cbn [subs same_symbol]; try (now constructor); try (apply tame_base; auto); try (apply tame_log; auto).
  apply tame_mul; constructor.
Qed.
Lemma tame_subs_Z e c : tame e -> tame (subs e SZ (Mul (Sym SZ) (Num c))).
Proof.
  assert (HM : forall a, multiple a -> multiple (subs a SZ (Mul (Sym SZ) (Num c)))).
  { intros a (k & Hk & E). exists k. split; [assumption|]. intros x phi z. rewrite subs_value, E. reflexivity. }
  intros T. induction T; cbn [subs same_symbol]; try (now constructor); try (apply tame_base; auto); try (apply tame_log; auto).
  apply tame_mul; constructor.
Qed.
Lemma tame_P n0 n1 A R_0 : 0 < R_0 -> exists W, tame W /\ forall x phi z, lambdify (P n0 n1 A R_0) x phi z = phi + lambdify W x phi z.
Proof.
  intros HR. destruct (tame_U n0 n1 A) as (W & TW & EW). exists (subs (subs W SR (Mul (Sym SR) (Num (/ R_0)))) SZ (Mul (Sym SZ) (Num (/ R_0)))).
  split; [apply tame_subs_Z, tame_subs_R; [exact TW|now apply Rinv_0_lt_compat]|]. intros. unfold P. rewrite !subs_value, EW. cbn [lambdify same_symbol coord]. reflexivity.
Qed.
Lemma tame_P_hat n0 n1 A R_0 : 0 < R_0 -> (forall j, A 0%nat j = (0, 0, 0, 0)) -> tame (P_hat n0 n1 A R_0).
Proof. intros HR HA. unfold P_hat. apply tame_subs_Z, tame_subs_R; [now apply tame_U_hat|now apply Rinv_0_lt_compat]. Qed.
