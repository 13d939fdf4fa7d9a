(** The approximate invariant of the field lines changes only in second order. *)
From Coq Require Import List Reals ZArith Lra Lia.
From Verif Require Import Prelude FieldReal CoilSpec CoilProofs DomModel DomHatModel DomProofs DomRadial DomBoundary DomSpec DomField DomHat DomTame DomHatSpec.
Import ListNotations.
Open Scope R_scope.

(** * Everything is linear in the coefficients *)
Lemma V_hat_scaled n m a b c d eps x phi z : lambdify (V_hat n m (eps * a) (eps * b) (eps * c) (eps * d)) x phi z = eps * lambdify (V_hat n m a b c d) x phi z.
Proof. unfold V_hat. cbn [lambdify]. ring. Qed.
Lemma step_value e V' (a b c d : R) x phi z : (a = 0 -> b = 0 -> c = 0 -> d = 0 -> lambdify V' x phi z = 0) ->
  lambdify (if orb (negb (zero a)) (orb (negb (zero b)) (orb (negb (zero c)) (negb (zero d)))) then Add e V' else e) x phi z = lambdify e x phi z + lambdify V' x phi z.
Proof.
  intros H. destruct (orb _ _) eqn:EO; [reflexivity|].
  apply Bool.orb_false_iff in EO. destruct EO as [Ea EO]. apply Bool.orb_false_iff in EO. destruct EO as [Eb EO]. apply Bool.orb_false_iff in EO. destruct EO as [Ec Ed].
  unfold zero in *. destruct (Req_EM_T a 0); [|discriminate]. destruct (Req_EM_T b 0); [|discriminate].
  destruct (Req_EM_T c 0); [|discriminate]. destruct (Req_EM_T d 0); [|discriminate]. rewrite H by assumption. ring.
Qed.
Lemma U_hat_scaled n0 n1 A eps x phi z : lambdify (U_hat n0 n1 (scaled eps A)) x phi z = eps * lambdify (U_hat n0 n1 A) x phi z.
Proof.
  unfold U_hat. assert (H0 : lambdify (Num 0) x phi z = eps * lambdify (Num 0) x phi z) by (cbn [lambdify]; ring).
  revert H0. generalize (Num 0) at 1 3. generalize (Num 0). generalize (seq 0 n0). intros l. induction l as [|i l IH]; intros e e' He; [exact He|].
  cbn [fold_left]. apply IH. clear IH. revert e e' He. generalize (seq 0 n1). intros l'. induction l' as [|j l' IH]; intros e e' He; [exact He|].
  cbn [fold_left]. apply IH. unfold scaled. destruct (A i j) as [[[a b] c] d]. rewrite !step_value; cbn [lambdify].
  - rewrite He, V_hat_scaled. ring.
  - intros -> -> -> ->. unfold V_hat. cbn [lambdify]. ring.
  - intros H1 H2 H3 H4. rewrite V_hat_scaled. unfold V_hat. cbn [lambdify].
    match goal with |- eps * ((a * ?p + b * ?q) * ?r + (c * _ + d * _) * ?s) * ?t = 0 =>
      replace (eps * ((a * p + b * q) * r + (c * p + d * q) * s) * t) with (((eps * a * p + eps * b * q) * r + (eps * c * p + eps * d * q) * s) * t) by ring end.
    rewrite H1, H2, H3, H4. ring.
Qed.
Lemma P_hat_scaled n0 n1 A R_0 eps x phi z : lambdify (P_hat n0 n1 (scaled eps A) R_0) x phi z = eps * lambdify (P_hat n0 n1 A R_0) x phi z.
Proof.
  transitivity (lambdify (U_hat n0 n1 (scaled eps A)) (x * / R_0) phi (z * / R_0)); [exact (scaled_value _ R_0 x phi z)|]. rewrite U_hat_scaled. f_equal. symmetry. exact (scaled_value _ R_0 x phi z).
Qed.
Lemma Sum_scal n c f : Sum n (fun i => c * f i) = c * Sum n f.
Proof. apply rsum_scale. Qed.
Lemma P_scaled n0 n1 A R_0 eps x phi z : lambdify (P n0 n1 (scaled eps A) R_0) x phi z - phi = eps * (lambdify (P n0 n1 A R_0) x phi z - phi).
Proof.
  rewrite !P_sum. ring_simplify. rewrite <- Sum_scal. apply rsum_ext. intros i _. rewrite <- Sum_scal. apply rsum_ext. intros j _.
  unfold scaled. destruct (A i j) as [[[a b] c] d]. ring.
Qed.

Lemma diff_affine e e' c0 eps s x phi z : (forall x phi z, lambdify e x phi z = c0 * phi + eps * lambdify e' x phi z) -> defined e x phi z -> defined e' x phi z ->
  lambdify (diff e s) x phi z = (if same_symbol s Sphi then c0 else 0) + eps * lambdify (diff e' s) x phi z.
Proof.
  intros E H H'. pose proof (diff_along e s x phi z H) as D1. pose proof (diff_along e' s x phi z H') as D2. destruct s; cbn [same_symbol].
  - apply (uniqueness_limite (along e SR x phi z) x); [exact D1|]. apply derivable_pt_lim_ext with (f := fun t => c0 * phi + eps * along e' SR x phi z t); [intros t; symmetry; apply E|].
    apply d_add; [apply d_const|apply d_scal; exact D2].
  - apply (uniqueness_limite (along e Sphi x phi z) phi); [exact D1|]. apply derivable_pt_lim_ext with (f := fun t => c0 * t + eps * along e' Sphi x phi z t); [intros t; symmetry; apply E|].
    apply d_add; [eapply d_eq; [|apply d_scal, d_id]; ring|apply d_scal; exact D2].
  - apply (uniqueness_limite (along e SZ x phi z) z); [exact D1|]. apply derivable_pt_lim_ext with (f := fun t => c0 * phi + eps * along e' SZ x phi z t); [intros t; symmetry; apply E|].
    apply d_add; [apply d_const|apply d_scal; exact D2].
Qed.

Lemma diff_lin a b eps s x phi z : lambdify (diff (Add a (Mul (Num eps) b)) s) x phi z = lambdify (diff a s) x phi z + eps * lambdify (diff b s) x phi z.
Proof. cbn [diff lambdify]. ring. Qed.

Section Invariant.
Variables (n0 n1 : nat) (A : nat -> nat -> R * R * R * R) (R_0 : R).
Hypothesis HR : 0 < R_0.
Hypothesis HA : forall j, A 0%nat j = (0, 0, 0, 0).
Variable W : expr.
Hypothesis TW : tame W.
Hypothesis EW : forall x phi z, lambdify (P n0 n1 A R_0) x phi z = phi + lambdify W x phi z.
Variables HR' HZ' : expr.
Hypothesis TR : tame HR'.
Hypothesis ER : forall x phi z, 0 < x -> lambdify HR' x phi z = lambdify (diff (P_hat n0 n1 A R_0) SR) x phi z.
Hypothesis TZ : tame HZ'.
Hypothesis EZ : forall x phi z, 0 < x -> lambdify HZ' x phi z = lambdify (diff (P_hat n0 n1 A R_0) SZ) x phi z.
Let r := Mul (Sym SR) (Num (/ R_0)).
Let z' := Mul (Sym SZ) (Num (/ R_0)).
Let S0 := Mul (Num (1 / 2)) (Add (Pow (Log r) 2) (Pow z' 2)).
Let T := Mul (Num (-1)) (Mul r (Add (Mul (Mul (Log r) (Num R_0)) HR') (Mul (Mul (Mul (Sym SZ) (Sym SR)) (Num (/ R_0))) HZ'))).
Let Rinv : 0 < / R_0.
Proof. now apply Rinv_0_lt_compat. Qed.
Lemma multiple_r : multiple r.
Proof. exists (/ R_0). split; [exact Rinv|]. intros. cbn [r lambdify]. ring. Qed.
Lemma tame_r : tame r.
Proof. repeat constructor. Qed.
Lemma tame_S0 : tame S0.
Proof. apply tame_mul; [constructor|]. apply tame_add; apply tame_pow; try lia; [apply tame_log; [apply tame_r|apply multiple_r]|repeat constructor]. Qed.
Lemma tame_T : tame T.
Proof.
  apply tame_mul; [constructor|]. apply tame_mul; [apply tame_r|]. apply tame_add; apply tame_mul; try assumption; [|repeat constructor].
  apply tame_mul; [apply tame_log; [apply tame_r|apply multiple_r]|constructor].
Qed.
Lemma W_diff s x phi z : 0 < x -> lambdify (diff (P n0 n1 A R_0) s) x phi z = (if same_symbol s Sphi then 1 else 0) + lambdify (diff W s) x phi z.
Proof.
  intros H. rewrite (diff_affine (P n0 n1 A R_0) W 1 1 s x phi z); [ring|intros; rewrite EW; ring|now apply P_defined|now apply tame_defined].
Qed.
Lemma Pe_diff eps s x phi z : 0 < x -> lambdify (diff (P n0 n1 (scaled eps A) R_0) s) x phi z = (if same_symbol s Sphi then 1 else 0) + eps * lambdify (diff W s) x phi z.
Proof.
  intros H. apply diff_affine; [|now apply P_defined|now apply tame_defined]. intros x' p' z''. pose proof (P_scaled n0 n1 A R_0 eps x' p' z'') as E. rewrite EW in E. lra.
Qed.
Lemma Pe_hat_diff eps s x phi z : 0 < x -> lambdify (diff (P_hat n0 n1 (scaled eps A) R_0) s) x phi z = eps * lambdify (diff (P_hat n0 n1 A R_0) s) x phi z.
Proof.
  intros H. rewrite (diff_affine (P_hat n0 n1 (scaled eps A) R_0) (P_hat n0 n1 A R_0) 0 eps s x phi z); [destruct (same_symbol s Sphi); ring|intros; rewrite P_hat_scaled; ring|now apply P_hat_defined|now apply P_hat_defined].
Qed.
Lemma S_value eps x z phi : 0 < x -> Sfunc n0 n1 (scaled eps A) R_0 x z phi = lambdify (Add S0 (Mul (Num eps) T)) x phi z.
Proof.
  intros H. unfold Sfunc, S_expr. cbv zeta. cbn [lambdify S0 T r z']. rewrite !Pe_hat_diff, ER, EZ by exact H. ring.
Qed.
Lemma HR_phi x phi z : 0 < x -> lambdify (diff HR' Sphi) x phi z = lambdify (diff W SR) x phi z.
Proof.
  intros H. apply (uniqueness_limite (fun t => lambdify HR' x t z) phi); [exact (diff_along HR' Sphi x phi z (tame_defined _ _ _ _ TR H))|].
  apply derivable_pt_lim_ext with (f := fun t => lambdify (diff (P_hat n0 n1 A R_0) SR) x t z); [intros t; symmetry; now apply ER|].
  eapply d_eq; [|apply (P_integral n0 n1 A R_0 HR HA SR x phi z); [discriminate|exact H]]. rewrite W_diff by exact H. cbn [same_symbol]. ring.
Qed.
Lemma HZ_phi x phi z : 0 < x -> lambdify (diff HZ' Sphi) x phi z = lambdify (diff W SZ) x phi z.
Proof.
  intros H. apply (uniqueness_limite (fun t => lambdify HZ' x t z) phi); [exact (diff_along HZ' Sphi x phi z (tame_defined _ _ _ _ TZ H))|].
  apply derivable_pt_lim_ext with (f := fun t => lambdify (diff (P_hat n0 n1 A R_0) SZ) x t z); [intros t; symmetry; now apply EZ|].
  eapply d_eq; [|apply (P_integral n0 n1 A R_0 HR HA SZ x phi z); [discriminate|exact H]]. rewrite W_diff by exact H. cbn [same_symbol]. ring.
Qed.
Lemma T_phi x phi z : 0 < x -> lambdify (diff T Sphi) x phi z =
  - (x ^ 2 * (lambdify (diff S0 SR) x phi z * lambdify (diff W SR) x phi z + lambdify (diff S0 SZ) x phi z * lambdify (diff W SZ) x phi z)).
Proof.
  intros H. cbn [diff lambdify T S0 r z' same_symbol]. rewrite HR_phi, HZ_phi by exact H.
  change (powerRZ ?u (-1)) with (/ (u * 1)). change (powerRZ ?u (2 - 1)) with (u * 1). field. lra.
Qed.
Lemma S0_phi x phi z : lambdify (diff S0 Sphi) x phi z = 0.
Proof. cbn [diff lambdify S0 r z' same_symbol]. ring. Qed.
(** the second-order rate of change *)
Definition rate (x phi z : R) : R :=
  x ^ 2 * (lambdify (diff T SR) x phi z * lambdify (diff W SR) x phi z + lambdify (diff T SZ) x phi z * lambdify (diff W SZ) x phi z) + lambdify (diff T Sphi) x phi z * lambdify (diff W Sphi) x phi z.
Lemma S_along eps X Z s X' Z' : 0 < X s -> derivable_pt_lim X s X' -> derivable_pt_lim Z s Z' -> 1 + eps * lambdify (diff W Sphi) (X s) s (Z s) <> 0 ->
  X' = X s ^ 2 * (eps * lambdify (diff W SR) (X s) s (Z s)) / (1 + eps * lambdify (diff W Sphi) (X s) s (Z s)) ->
  Z' = X s ^ 2 * (eps * lambdify (diff W SZ) (X s) s (Z s)) / (1 + eps * lambdify (diff W Sphi) (X s) s (Z s)) ->
  derivable_pt_lim (fun t => lambdify (Add S0 (Mul (Num eps) T)) (X t) t (Z t)) s (eps ^ 2 * (rate (X s) s (Z s) / (1 + eps * lambdify (diff W Sphi) (X s) s (Z s)))).
Proof.
  intros H HX HZ N EX EZ'. eapply d_eq; [|apply diff_curve; [exact HX|exact HZ|]].
  - rewrite !diff_lin, S0_phi, EX, EZ', (T_phi (X s) s (Z s) H). unfold rate. rewrite (T_phi (X s) s (Z s) H). field. exact N.
  - apply tame_defined; [|exact H]. apply tame_add; [apply tame_S0|]. apply tame_mul; [constructor|apply tame_T].
Qed.
Lemma rate_bounded r1 r2 zm : 0 < r1 -> bounded r1 r2 zm rate.
Proof.
  intros H1. assert (B : forall e s, tame e -> bounded r1 r2 zm (fun x phi z => lambdify (diff e s) x phi z)).
  { intros e s Te. destruct (tame_diff e s Te) as (e' & Te' & E). apply bounded_ext with (f := fun x phi z => lambdify e' x phi z); [intros x phi z [I _]; apply E; lra|]. now apply tame_bounded. }
  assert (BW := fun s => B W s TW). assert (BT := fun s => B T s tame_T).
  assert (BX : bounded r1 r2 zm (fun x _ _ => x ^ 2)) by (apply (bounded_pow r1 r2 zm (fun x _ _ => x)), (tame_bounded r1 r2 zm H1 (Sym SR)), tame_R).
  unfold rate. apply bounded_add; [|now apply bounded_mul]. apply bounded_mul; [exact BX|]. apply bounded_add; now apply bounded_mul.
Qed.
Lemma W_bounded r1 r2 zm : 0 < r1 -> bounded r1 r2 zm (fun x phi z => lambdify (diff W Sphi) x phi z).
Proof.
  intros H1. destruct (tame_diff W Sphi TW) as (e' & Te' & E). apply bounded_ext with (f := fun x phi z => lambdify e' x phi z); [intros x phi z [I _]; apply E; lra|]. now apply tame_bounded.
Qed.
Lemma drift_of_line eps B_0 X Z a b s :
  field_line (dom_Bx n0 n1 (scaled eps A) R_0 B_0) (dom_By n0 n1 (scaled eps A) R_0 B_0) (dom_Bz n0 n1 (scaled eps A) R_0 B_0) radius X Z a b ->
  a <= s <= b -> 0 < X s ->
  derivable_pt_lim (fun t => lambdify (Add S0 (Mul (Num eps) T)) (X t) t (Z t)) s (eps ^ 2 * (rate (X s) s (Z s) / (1 + eps * lambdify (diff W Sphi) (X s) s (Z s)))).
Proof.
  intros L Hs H. destruct (L s Hs) as (N & DX & DZ). unfold radius in DX, DZ. rewrite Bx_eq in DX. rewrite Bz_eq in DZ. rewrite By_eq in N, DX, DZ by exact H. rewrite (Pe_diff eps Sphi) in N, DX, DZ by exact H. rewrite (Pe_diff eps SR) in DX by exact H. rewrite (Pe_diff eps SZ) in DZ by exact H. cbn [same_symbol] in N, DX, DZ.
  set (w := R_0 / Byf n0 n1 (scaled eps A) R_0 R_0 0 0 * B_0) in *.
  assert (Nw : w <> 0) by (intros E; apply N; rewrite E; unfold Rdiv; ring).
  assert (NP : 1 + eps * lambdify (diff W Sphi) (X s) s (Z s) <> 0) by (intros E; apply N; rewrite E; unfold Rdiv; ring).
  apply (S_along eps X Z s _ _ H DX DZ NP); field; repeat split; lra.
Qed.
End Invariant.

Lemma invariant n0 n1 A R_0 r1 r2 zm : 0 < R_0 -> 0 < r1 -> (forall j, A 0%nat j = (0, 0, 0, 0)) ->
  second_order n0 n1 A R_0 r1 r2 zm.
Proof.
  intros HR H1 HA. destruct (tame_P n0 n1 A R_0 HR) as (W & TW & EW). pose proof (tame_P_hat n0 n1 A R_0 HR HA) as TH.
  destruct (tame_diff _ SR TH) as (HR' & TR & ER). destruct (tame_diff _ SZ TH) as (HZ' & TZ & EZ).
  destruct (rate_bounded R_0 HR W TW HR' HZ' TR TZ r1 r2 zm H1) as (K & K0 & HK).
  destruct (W_bounded W TW r1 r2 zm H1) as (M & M0 & HM).
  exists (/ (2 * (M + 1))), (2 * K). split; [apply Rinv_0_lt_compat; lra|]. intros eps B_0 X Z a b He Hab L I.
  assert (HX : forall s, a <= s <= b -> 0 < X s) by (intros s Hs; destruct (I s Hs); lra).
  assert (G := fun s Hs => drift_of_line n0 n1 A R_0 HR HA W TW EW HR' HZ' TR ER TZ EZ eps B_0 X Z a b s L Hs (HX s Hs)).
  assert (B : forall s, a <= s <= b -> Rabs (rate R_0 W HR' HZ' (X s) s (Z s) / (1 + eps * lambdify (diff W Sphi) (X s) s (Z s))) <= 2 * K).
  { intros s Hs. destruct (I s Hs) as [IX IZ]. specialize (HK (X s) s (Z s) (conj IX IZ)). specialize (HM (X s) s (Z s) (conj IX IZ)).
    set (w := lambdify (diff W Sphi) (X s) s (Z s)) in *. assert (Rabs (eps * w) <= 1 / 2).
    { rewrite Rabs_mult. apply Rle_trans with (/ (2 * (M + 1)) * M); [apply Rmult_le_compat; try apply Rabs_pos; assumption|].
      apply Rmult_le_reg_l with (2 * (M + 1)); [lra|]. rewrite <- Rmult_assoc, Rinv_r by lra. lra. }
    assert (1 / 2 <= 1 + eps * w). { unfold Rabs in H. destruct (Rcase_abs _); lra. }
    unfold Rdiv. rewrite Rabs_mult. rewrite (Rabs_pos_eq (/ _)) by (left; apply Rinv_0_lt_compat; lra).
    replace (2 * K) with (K * 2) by ring. apply Rmult_le_compat; [apply Rabs_pos|left; apply Rinv_0_lt_compat; lra|exact HK|].
    replace 2 with (/ (1 / 2)) by field. apply Rinv_le_contravar; lra. }
  rewrite !(S_value n0 n1 A R_0 HR HR' HZ' ER EZ) by (apply HX; lra).
  destruct (Req_dec a b) as [->|Nab]; [rewrite !Rminus_diag_eq, Rabs_R0 by reflexivity; lra|].
  match goal with |- Rabs (lambdify ?e _ _ _ - _) <= _ => set (Se := e) in * end.
  destruct (MVT_cor2 (fun t => lambdify Se (X t) t (Z t)) (fun s => eps ^ 2 * (rate R_0 W HR' HZ' (X s) s (Z s) / (1 + eps * lambdify (diff W Sphi) (X s) s (Z s)))) a b ltac:(lra) G) as (c & E & Hc).
  cbv beta in E. rewrite E. rewrite !Rabs_mult. rewrite (Rabs_pos_eq (b - a)) by lra. rewrite (Rabs_pos_eq (eps ^ 2)) by apply pow2_ge_0.
  apply Rmult_le_compat_r; [lra|]. rewrite (Rmult_comm (2 * K)). apply Rmult_le_compat_l; [apply pow2_ge_0|]. apply B. lra.
Qed.

(** * Other facts *)
Lemma S_axis n0 n1 A R_0 phi : 0 < R_0 -> Sfunc n0 n1 A R_0 R_0 0 phi = 0.
Proof.
  intros HR. unfold Sfunc, S_expr. cbv zeta. cbn [lambdify]. rewrite Rinv_r by lra. rewrite ln_1. change (powerRZ ?u 2) with (u * (u * 1)). ring.
Qed.
Lemma U_hat_period n0 n1 A x z phi : (forall j, A 0%nat j = (0, 0, 0, 0)) -> lambdify (U_hat n0 n1 A) x (phi + 2 * PI) z = lambdify (U_hat n0 n1 A) x phi z.
Proof.
  intros HA. unfold U_hat. apply (fold_left_ind _ (fun e => lambdify e x (phi + 2 * PI) z = lambdify e x phi z)); [|reflexivity]. intros e i _ He.
  apply (fold_left_ind _ (fun e => lambdify e x (phi + 2 * PI) z = lambdify e x phi z)); [|exact He]. intros e' j _ He'.
  destruct (A i j) as [[[a b] c] d] eqn:EA. destruct (orb _ _) eqn:EO; [|exact He']. cbn [lambdify]. rewrite He'. f_equal.
  unfold piece. destruct (Nat.eqb_spec i 0) as [->|].
  - rewrite HA in EA. injection EA as <- <- <- <-. exfalso. revert EO. unfold zero. destruct (Req_EM_T 0 0); [discriminate|contradiction].
  - cbn [lambdify]. f_equal. unfold V_hat. cbn [lambdify]. rewrite !D_expr, !N_expr.
    replace (INR i * (phi + 2 * PI) + - (PI / 2)) with (INR i * phi + - (PI / 2) + 2 * INR i * PI) by ring. now rewrite cos_period, sin_period.
Qed.
Lemma P_hat_diff_period n0 n1 A R_0 s x z phi : 0 < R_0 -> (forall j, A 0%nat j = (0, 0, 0, 0)) -> s <> Sphi -> 0 < x ->
  lambdify (diff (P_hat n0 n1 A R_0) s) x (phi + 2 * PI) z = lambdify (diff (P_hat n0 n1 A R_0) s) x phi z.
Proof.
  intros HR HA Hs H. pose proof (diff_along _ s x phi z (P_hat_defined n0 n1 A R_0 x phi z HR H)) as D1. pose proof (diff_along _ s x (phi + 2 * PI) z (P_hat_defined n0 n1 A R_0 x (phi + 2 * PI) z HR H)) as D2.
  assert (E : forall x z, lambdify (P_hat n0 n1 A R_0) x (phi + 2 * PI) z = lambdify (P_hat n0 n1 A R_0) x phi z).
  { intros x' z'. transitivity (lambdify (U_hat n0 n1 A) (x' * / R_0) (phi + 2 * PI) (z' * / R_0)); [exact (scaled_value _ R_0 x' (phi + 2 * PI) z')|].
    rewrite U_hat_period by exact HA. symmetry. exact (scaled_value _ R_0 x' phi z'). }
  destruct s; [|contradiction|].
  - apply (uniqueness_limite (along (P_hat n0 n1 A R_0) SR x (phi + 2 * PI) z) x); [exact D2|]. apply derivable_pt_lim_ext with (f := along (P_hat n0 n1 A R_0) SR x phi z); [intros t; symmetry; apply E|exact D1].
  - apply (uniqueness_limite (along (P_hat n0 n1 A R_0) SZ x (phi + 2 * PI) z) z); [exact D2|]. apply derivable_pt_lim_ext with (f := along (P_hat n0 n1 A R_0) SZ x phi z); [intros t; symmetry; apply E|exact D1].
Qed.
Lemma S_period n0 n1 A R_0 x z phi : 0 < R_0 -> (forall j, A 0%nat j = (0, 0, 0, 0)) -> 0 < x -> Sfunc n0 n1 A R_0 x z (phi + 2 * PI) = Sfunc n0 n1 A R_0 x z phi.
Proof.
  intros HR HA H. unfold Sfunc, S_expr. cbv zeta. cbn [lambdify]. rewrite !P_hat_diff_period by (try assumption; discriminate). reflexivity.
Qed.
Lemma S_empty n0 n1 A R_0 x z phi : (forall i j, A i j = (0, 0, 0, 0)) -> Sfunc n0 n1 A R_0 x z phi = (ln (x / R_0) ^ 2 + (z / R_0) ^ 2) / 2.
Proof.
  intros HA. assert (E : U_hat n0 n1 A = Num 0).
  { unfold U_hat. apply (fold_left_ind _ (fun e => e = Num 0)); [|reflexivity]. intros e i _ He. apply (fold_left_ind _ (fun e => e = Num 0)); [|exact He]. intros e' j _ He'.
    rewrite HA. unfold zero. destruct (Req_EM_T 0 0); [exact He'|contradiction]. }
  unfold Sfunc, S_expr, P_hat. rewrite E. cbv zeta. cbn [subs diff lambdify]. change (powerRZ ?u 2) with (u * (u * 1)). unfold Rdiv. ring.
Qed.

(** * Axisymmetric modes *)
Lemma U_02 a b x phi z : 0 < x -> lambdify (U 1 3 (mode02 a b)) x phi z = phi + a * (z ^ 2 / 2 + 1 / 4 - x ^ 2 / 4 + ln x / 2).
Proof.
  intros H. rewrite U_sum. unfold rsum. cbn [seq map fold_right mode02]. change (Z.of_nat 2) with 2%Z. rewrite D_0_2 by exact H. change (INR 0) with 0. rewrite !Rmult_0_l, cos_0, sin_0. ring.
Qed.
Lemma U_hat_02 a b x phi z : 0 < x -> lambdify (U_hat 1 3 (mode02 a b)) x phi z = - b * (z ^ 2 / 2 + 1 / 4 - x ^ 2 / 4 + ln x / 2) * phi.
Proof.
  intros H. unfold U_hat. cbn [seq fold_left mode02]. rewrite step_value.
  - replace (orb (negb (zero 0)) (orb (negb (zero 0)) (orb (negb (zero 0)) (negb (zero 0))))) with false by (unfold zero; destruct (Req_EM_T 0 0); [reflexivity|contradiction]).
    cbn [lambdify]. unfold V_hat, piece. cbn [Nat.eqb lambdify]. change (Z.of_nat 2) with 2%Z. rewrite D_0_2 by exact H. change (INR 0) with 0. rewrite !Rmult_0_l, !Rplus_0_l, cos_neg, sin_neg, cos_PI2, sin_PI2. ring.
  - intros -> -> _ _. unfold V_hat. cbn [lambdify]. ring.
Qed.
Section Mode.
Variables a b eps : R.
Let A := scaled eps (mode02 a b).
Let Dv (x z : R) := z ^ 2 / 2 + 1 / 4 - x ^ 2 / 4 + ln x / 2.
Lemma P_02 x phi z : 0 < x -> lambdify (P 1 3 A 1) x phi z = phi + eps * a * Dv x z.
Proof.
  intros H. unfold A. pose proof (P_scaled 1 3 (mode02 a b) 1 eps x phi z) as E.
  assert (E1 : lambdify (P 1 3 (mode02 a b) 1) x phi z = phi + a * Dv x z).
  { transitivity (lambdify (U 1 3 (mode02 a b)) (x * / 1) phi (z * / 1)); [exact (scaled_value (U 1 3 (mode02 a b)) 1 x phi z)|]. rewrite Rinv_1, !Rmult_1_r. now apply U_02. }
  rewrite E1 in E. lra.
Qed.
Lemma P_hat_02 x phi z : 0 < x -> lambdify (P_hat 1 3 A 1) x phi z = - (eps * b) * Dv x z * phi.
Proof.
  intros H. unfold A. rewrite P_hat_scaled.
  assert (E1 : lambdify (P_hat 1 3 (mode02 a b) 1) x phi z = - b * Dv x z * phi).
  { transitivity (lambdify (U_hat 1 3 (mode02 a b)) (x * / 1) phi (z * / 1)); [exact (scaled_value (U_hat 1 3 (mode02 a b)) 1 x phi z)|]. rewrite Rinv_1, !Rmult_1_r. now apply U_hat_02. }
  rewrite E1. ring.
Qed.
Lemma Dv_x x z : 0 < x -> derivable_pt_lim (fun t => Dv t z) x ((/ x - x) / 2).
Proof.
  intros H. unfold Dv. apply derivable_pt_lim_ext with (f := fun t => z ^ 2 / 2 + 1 / 4 + - (1 / 4) * (t * t) + 1 / 2 * ln t); [intros; field|].
  eapply d_eq; [|apply d_add; [apply d_add; [apply d_const|apply d_scal, d_mul; apply d_id]|apply d_scal, d_ln; [exact H|apply d_id]]]. cbv beta. field. lra.
Qed.
Lemma Dv_z x z : derivable_pt_lim (fun t => Dv x t) z z.
Proof.
  unfold Dv. apply derivable_pt_lim_ext with (f := fun t => 1 / 2 * (t * t) + (1 / 4 - x ^ 2 / 4 + ln x / 2)); [intros; field|].
  eapply d_eq; [|apply d_add; [apply d_scal, d_mul; apply d_id|apply d_const]]. cbv beta. field.
Qed.
Lemma P_02_R x phi z : 0 < x -> lambdify (diff (P 1 3 A 1) SR) x phi z = eps * a * ((/ x - x) / 2).
Proof.
  intros H. apply (uniqueness_limite (along (P 1 3 A 1) SR x phi z) x); [exact (diff_along _ SR x phi z (P_defined 1 3 A 1 Rlt_0_1 x phi z H))|].
  apply d_local with (f := fun t => phi + eps * a * Dv t z) (a := 0) (b := x + 1); [lra| |eapply d_eq; [|apply d_add; [apply d_const|apply d_scal, Dv_x, H]]; ring].
  intros t Ht. symmetry. apply P_02. lra.
Qed.
Lemma P_02_Z x phi z : 0 < x -> lambdify (diff (P 1 3 A 1) SZ) x phi z = eps * a * z.
Proof.
  intros H. apply (uniqueness_limite (along (P 1 3 A 1) SZ x phi z) z); [exact (diff_along _ SZ x phi z (P_defined 1 3 A 1 Rlt_0_1 x phi z H))|].
  apply derivable_pt_lim_ext with (f := fun t => phi + eps * a * Dv x t); [intros t; symmetry; now apply P_02|]. eapply d_eq; [|apply d_add; [apply d_const|apply d_scal, Dv_z]]. ring.
Qed.
Lemma P_hat_02_Z x phi z : 0 < x -> lambdify (diff (P_hat 1 3 A 1) SZ) x phi z = - (eps * b) * z * phi.
Proof.
  intros H. apply (uniqueness_limite (along (P_hat 1 3 A 1) SZ x phi z) z); [exact (diff_along _ SZ x phi z (P_hat_defined 1 3 A 1 x phi z Rlt_0_1 H))|].
  apply derivable_pt_lim_ext with (f := fun t => - (eps * b) * phi * Dv x t); [intros t; symmetry; transitivity (- (eps * b) * Dv x t * phi); [now apply P_hat_02|ring]|]. eapply d_eq; [|apply d_scal, Dv_z]. ring.
Qed.
Lemma S_02 z phi : Sfunc 1 3 A 1 1 z phi = z ^ 2 / 2 + eps * b * z ^ 2 * phi.
Proof.
  unfold Sfunc, S_expr. cbv zeta. cbn [lambdify]. rewrite P_hat_02_Z by lra. rewrite Rinv_1, Rmult_1_r, ln_1. change (powerRZ ?u 2) with (u * (u * 1)). field.
Qed.
Lemma B_02 B_0 x z phi : 0 < x -> dom_Bx 1 3 A 1 B_0 x z phi = B_0 * (eps * a * ((/ x - x) / 2)) /\ dom_By 1 3 A 1 B_0 x z phi = B_0 / x /\ dom_Bz 1 3 A 1 B_0 x z phi = B_0 * (eps * a * z).
Proof.
  intros H. rewrite Bx_eq, Bz_eq, P_02_R, P_02_Z by exact H. rewrite (axisymmetric_By 1 3 A 1 B_0 Rlt_0_1 x z phi (le_n 1) H). rewrite (axisymmetric_axis 1 3 A 1 Rlt_0_1 (le_n 1)). repeat split; field; lra.
Qed.
End Mode.
Lemma not_second_order : ~ second_order 1 3 (mode02 1 0) 1 (1 / 2) 2 3.
Proof.
  intros (e0 & C & H0 & H). pose proof (Rabs_pos C) as HC.
  set (eps := Rmin (Rmin e0 1) (/ (2 * (Rabs C + 1)))).
  assert (Hp : 0 < eps) by (repeat apply Rmin_glb_lt; try lra; apply Rinv_0_lt_compat; lra).
  assert (He : eps <= e0) by (eapply Rle_trans; [apply Rmin_l|apply Rmin_l]).
  assert (H1 : eps <= 1) by (eapply Rle_trans; [apply Rmin_l|apply Rmin_r]).
  assert (H2 : eps <= / (2 * (Rabs C + 1))) by apply Rmin_r.
  specialize (H eps 1 (fun _ => 1) (fun s => exp (eps * s)) 0 1). rewrite (Rabs_pos_eq eps) in H by lra. specialize (H He ltac:(lra)).
  assert (L : field_line (dom_Bx 1 3 (scaled eps (mode02 1 0)) 1 1) (dom_By 1 3 (scaled eps (mode02 1 0)) 1 1) (dom_Bz 1 3 (scaled eps (mode02 1 0)) 1 1) radius (fun _ => 1) (fun s => exp (eps * s)) 0 1).
  { intros s Hs. destruct (B_02 1 0 eps 1 1 (exp (eps * s)) s Rlt_0_1) as (-> & -> & ->). unfold radius. split; [lra|]. split.
    - eapply d_eq; [|apply d_const]. field.
    - eapply d_eq; [|apply (derivable_pt_lim_comp (fun s => eps * s) exp); [apply d_scal, d_id|apply derivable_pt_lim_exp]]. field. }
  specialize (H L). assert (I : forall s, 0 <= s <= 1 -> 1 / 2 <= 1 <= 2 /\ Rabs (exp (eps * s)) <= 3).
  { intros s Hs. split; [lra|]. rewrite Rabs_pos_eq by (left; apply exp_pos). apply Rle_trans with (exp 1); [|apply exp_le_3].
    assert (eps * s <= 1) by (replace 1 with (1 * 1) by ring; apply Rmult_le_compat; lra). destruct (Req_dec (eps * s) 1) as [->|]; [lra|]. left. apply exp_increasing. lra. }
  specialize (H I). rewrite !S_02 in H. rewrite Rmult_0_r, exp_0, !Rmult_1_r in H.
  assert (E : exp eps ^ 2 = exp (2 * eps)) by (replace (2 * eps) with (eps + eps) by ring; rewrite exp_plus; ring).
  pose proof (exp_ineq1 (2 * eps) ltac:(lra)) as EI. pose proof (Rle_abs (exp eps ^ 2 / 2 + eps * 0 * exp eps ^ 2 - (1 ^ 2 / 2 + eps * 0 * 1 ^ 2 * 0))) as RA.
  assert (HE : eps < C * eps ^ 2 * (1 - 0)). { eapply Rlt_le_trans; [|eapply Rle_trans; [exact RA|]]. - rewrite E. lra. - refine (Rle_trans _ _ _ _ H). right. f_equal. ring. }
  assert (C * eps <= 1 / 2).
  { apply Rle_trans with (Rabs C * / (2 * (Rabs C + 1))); [apply Rle_trans with (Rabs C * eps); [apply Rmult_le_compat_r; [lra|apply Rle_abs]|apply Rmult_le_compat_l; assumption]|].
    apply Rmult_le_reg_r with (2 * (Rabs C + 1)); [lra|]. rewrite Rmult_assoc, Rinv_l by lra. lra. }
  assert (C * eps ^ 2 * (1 - 0) <= 1 / 2 * eps) by (replace (C * eps ^ 2 * (1 - 0)) with (C * eps * eps) by ring; apply Rmult_le_compat_r; lra). lra.
Qed.
Lemma b_mode_field B_0 x z phi : 0 < x -> dom_Bx 1 3 (scaled 1 (mode02 0 1)) 1 B_0 x z phi = 0 /\ dom_By 1 3 (scaled 1 (mode02 0 1)) 1 B_0 x z phi = B_0 / x /\ dom_Bz 1 3 (scaled 1 (mode02 0 1)) 1 B_0 x z phi = 0.
Proof. intros H. destruct (B_02 0 1 1 B_0 x z phi H) as (-> & -> & ->). repeat split; ring. Qed.

(** the axis is a field line of the table with the mode n = 5, m = 2 *)
Definition mode52 (i j : nat) : R * R * R * R := match i, j with 5%nat, 2%nat => (1, 0, 0, 0) | _, _ => (0, 0, 0, 0) end.
Lemma axis_line eps B_0 : B_0 <> 0 ->
  field_line (dom_Bx 6 3 (scaled eps mode52) 1 B_0) (dom_By 6 3 (scaled eps mode52) 1 B_0) (dom_Bz 6 3 (scaled eps mode52) 1 B_0) radius (fun _ => 1) (fun _ => 0) 0 (2 * PI).
Proof.
  intros HB s Hs. set (A := scaled eps mode52).
  assert (E : forall x phi z, lambdify (P 6 3 A 1) x phi z = phi + eps * cos (5 * phi) * lambdify (D 5 2) x phi z).
  { intros x phi z. rewrite P_sum. unfold rsum, A, scaled. cbn [seq map fold_right mode52]. change (INR 5) with (1 + 1 + 1 + 1 + 1). replace (1 + 1 + 1 + 1 + 1) with 5 by ring. change (Z.of_nat 2) with 2%Z. unfold Rdiv. rewrite Rinv_1, !Rmult_1_r. ring. }
  destruct (D_boundary 5 2 0 s) as [Dv Dx]. change (Z.of_nat 2) with 2%Z in Dv, Dx. unfold d_x in Dx.
  assert (DV : forall phi z, lambdify (D 5 2) 1 phi z = z ^ 2 / 2). { intros phi z. destruct (D_boundary 5 2 z phi) as [V' _]. change (Z.of_nat 2) with 2%Z in V'. rewrite V'. unfold zpower. cbn. field. }
  assert (PR : lambdify (diff (P 6 3 A 1) SR) 1 s 0 = 0).
  { apply (uniqueness_limite (along (P 6 3 A 1) SR 1 s 0) 1); [exact (diff_along _ SR 1 s 0 (P_defined 6 3 A 1 Rlt_0_1 1 s 0 Rlt_0_1))|].
    apply derivable_pt_lim_ext with (f := fun t => s + eps * cos (5 * s) * lambdify (D 5 2) t s 0); [intros t; symmetry; apply E|].
    eapply d_eq; [|apply d_add; [apply d_const|apply d_scal; exact Dx]]. ring. }
  assert (PZ : lambdify (diff (P 6 3 A 1) SZ) 1 s 0 = 0).
  { apply (uniqueness_limite (along (P 6 3 A 1) SZ 1 s 0) 0); [exact (diff_along _ SZ 1 s 0 (P_defined 6 3 A 1 Rlt_0_1 1 s 0 Rlt_0_1))|].
    apply derivable_pt_lim_ext with (f := fun t => s + eps * cos (5 * s) / 2 * (t * t)); [intros t; symmetry; transitivity (s + eps * cos (5 * s) * lambdify (D 5 2) 1 s t); [apply E|rewrite DV; field]|].
    eapply d_eq; [|apply d_add; [apply d_const|apply d_scal, d_mul; apply d_id]]. cbv beta. ring. }
  assert (PP : forall t, lambdify (diff (P 6 3 A 1) Sphi) 1 t 0 = 1).
  { intros t. apply (uniqueness_limite (along (P 6 3 A 1) Sphi 1 t 0) t); [exact (diff_along _ Sphi 1 t 0 (P_defined 6 3 A 1 Rlt_0_1 1 t 0 Rlt_0_1))|].
    apply derivable_pt_lim_ext with (f := fun t => t); [intros t'; symmetry; transitivity (t' + eps * cos (5 * t') * lambdify (D 5 2) 1 t' 0); [apply E|rewrite DV; field]|apply d_id]. }
  assert (EB : Byf 6 3 A 1 1 0 0 = 1). { unfold Byf. cbn [lambdify]. rewrite PP. change (powerRZ ?u (-1)) with (/ (u * 1)). field. }
  rewrite Bx_eq, Bz_eq. rewrite By_eq by lra. rewrite PR, PZ, PP, EB. unfold radius.
  split; [intros K; apply HB; lra|]. split; (eapply d_eq; [|apply d_const]); field; exact HB.
Qed.
(** * The value of the invariant *)
Lemma U_hat_sum n0 n1 A x phi z : lambdify (U_hat n0 n1 A) x phi z = integrated n0 n1 A 1 x z phi.
Proof.
  unfold U_hat, integrated. transitivity (lambdify (Num 0) x phi z + Sum n0 (fun i => Sum n1 (fun j => let '(a, b, c, d) := A i j in
    if Nat.eqb i 0 then - (b * lambdify (D i (Z.of_nat j)) (x / 1) phi (z / 1) + d * lambdify (N i (Z.of_nat j - 1)) (x / 1) phi (z / 1)) * phi
    else ((a * sin (INR i * phi) - b * cos (INR i * phi)) * lambdify (D i (Z.of_nat j)) (x / 1) phi (z / 1) +
          (c * sin (INR i * phi) - d * cos (INR i * phi)) * lambdify (N i (Z.of_nat j - 1)) (x / 1) phi (z / 1)) / INR i))); [|cbn [lambdify]; apply Rplus_0_l].
  unfold Rdiv. rewrite Rinv_1, !Rmult_1_r.
  generalize (Num 0). generalize (seq 0 n0). intros l.
  induction l as [|i l IH]; intros e; [cbn [fold_left map]; unfold rsum; cbn [fold_right]; ring|].
  cbn [fold_left map]. rewrite IH. clear IH.
  match goal with |- _ = _ + rsum (?a :: ?r) => change (rsum (a :: r)) with (a + rsum r) end. rewrite <- Rplus_assoc. f_equal.
  revert e. generalize (seq 0 n1). intros l'. induction l' as [|j l' IH]; intros e; [cbn [fold_left map]; unfold rsum; cbn [fold_right]; ring|].
  cbn [fold_left map]. rewrite IH.
  match goal with |- _ = _ + rsum (?a :: ?r) => change (rsum (a :: r)) with (a + rsum r) end. rewrite <- Rplus_assoc. f_equal.
  destruct (A i j) as [[[a b] c] d]. rewrite step_value.
  - f_equal. cbn [lambdify]. unfold V_hat, piece. cbn [lambdify]. replace (INR i * phi + - (PI / 2)) with (- (PI / 2 - INR i * phi)) by ring.
    rewrite cos_neg, sin_antisym, cos_shift, sin_shift. destruct (Nat.eqb_spec i 0) as [->|]; cbn [lambdify]; [|ring].
    change (INR 0) with 0. rewrite Rmult_0_l, cos_0, sin_0. ring.
  - intros -> -> -> ->. cbn [lambdify]. unfold V_hat. cbn [lambdify]. ring.
Qed.
Lemma P_hat_sum n0 n1 A R_0 x phi z : lambdify (P_hat n0 n1 A R_0) x phi z = integrated n0 n1 A R_0 x z phi.
Proof.
  transitivity (lambdify (U_hat n0 n1 A) (x * / R_0) phi (z * / R_0)); [exact (scaled_value _ R_0 x phi z)|]. rewrite U_hat_sum. unfold integrated, Rdiv. rewrite Rinv_1, !Rmult_1_r. reflexivity.
Qed.
Lemma S_formula n0 n1 A R_0 x z phi hx hz : 0 < R_0 -> 0 < x -> d_x (integrated n0 n1 A R_0) x z phi hx -> d_z (integrated n0 n1 A R_0) x z phi hz ->
  Sfunc n0 n1 A R_0 x z phi = (ln (x / R_0) ^ 2 + (z / R_0) ^ 2) / 2 - (x * ln (x / R_0) * hx + (x / R_0) ^ 2 * z * hz).
Proof.
  intros HR H Hx Hz. assert (Ex : lambdify (diff (P_hat n0 n1 A R_0) SR) x phi z = hx).
  { apply (uniqueness_limite (along (P_hat n0 n1 A R_0) SR x phi z) x); [exact (diff_along _ SR x phi z (P_hat_defined n0 n1 A R_0 x phi z HR H))|].
    apply derivable_pt_lim_ext with (f := fun t => integrated n0 n1 A R_0 t z phi); [intros t; symmetry; apply P_hat_sum|exact Hx]. }
  assert (Ez : lambdify (diff (P_hat n0 n1 A R_0) SZ) x phi z = hz).
  { apply (uniqueness_limite (along (P_hat n0 n1 A R_0) SZ x phi z) z); [exact (diff_along _ SZ x phi z (P_hat_defined n0 n1 A R_0 x phi z HR H))|].
    apply derivable_pt_lim_ext with (f := fun t => integrated n0 n1 A R_0 x t phi); [intros t; symmetry; apply P_hat_sum|exact Hz]. }
  unfold Sfunc, S_expr. cbv zeta. cbn [lambdify]. rewrite Ex, Ez. change (powerRZ ?u 2) with (u * (u * 1)). unfold Rdiv. field. lra.
Qed.
Lemma integrated_diff n0 n1 A R_0 x z phi : 0 < R_0 -> 0 < x -> exists hx hz, d_x (integrated n0 n1 A R_0) x z phi hx /\ d_z (integrated n0 n1 A R_0) x z phi hz.
Proof.
  intros HR H. exists (lambdify (diff (P_hat n0 n1 A R_0) SR) x phi z), (lambdify (diff (P_hat n0 n1 A R_0) SZ) x phi z).
  split.
  - apply derivable_pt_lim_ext with (f := along (P_hat n0 n1 A R_0) SR x phi z); [intros t; apply P_hat_sum|]. exact (diff_along _ SR x phi z (P_hat_defined n0 n1 A R_0 x phi z HR H)).
  - apply derivable_pt_lim_ext with (f := along (P_hat n0 n1 A R_0) SZ x phi z); [intros t; apply P_hat_sum|]. exact (diff_along _ SZ x phi z (P_hat_defined n0 n1 A R_0 x phi z HR H)).
Qed.
