(** Slices of the examples. *)
From Coq Require Import List ZArith QArith Qabs Qround Lia Lqa Bool.
From Verif Require Import Prelude PreludeFacts GridModel GridSpec GridProofs SlicesModel.
Import ListNotations.
Open Scope Q_scope.

Lemma nth_slices (f : nat -> Q) n i : (i < n)%nat -> nth i (map f (seq 0 n)) 0 = f i.
Proof. intros H. rewrite (nth_indep _ 0 (f 0%nat)) by (rewrite map_length, seq_length; lia). now rewrite (map_nth f), seq_nth by lia. Qed.
Lemma nz n : (0 < n)%nat -> ~ inject_Z (Z.of_nat n) == 0.
Proof. intros H C. change 0 with (inject_Z 0) in C. rewrite inject_Z_injective in C. lia. Qed.

Lemma built {G} (pols : list G) ys L g : Grid_init pols ys L true = Ok g ->
  well_formed g /\ ycoords g = ys /\ poloidal_grids g = pols /\ Ly g = L /\ yperiodic g = true.
Proof.
  unfold Grid_init. destruct (Nat.eqb_spec (length ys) (length pols)) as [E|E]; [|discriminate]. destruct pols as [|p pols]; [discriminate|].
  intros [= <-]. cbn. repeat split; cbn in *; lia.
Qed.

Lemma y_at {G} (g : grid G) i : well_formed g -> yperiodic g = true ->
  exists p, nth_error (poloidal_grids g) (Z.to_nat (i mod ny g)) = Some p /\ returns (getPoloidalGrid g (inject_Z i)) (Some p) (periodic_y g i).
Proof.
  intros W P. destruct (periodic_lookup g i W P) as (p & y & E1 & E2 & R). exists p. split; [exact E1|].
  unfold periodic_y. apply nth_error_nth with (d := 0) in E2. now rewrite E2.
Qed.

Lemma open_uniform {G} (pols : list G) L n g : Grid_init pols (open_slices L n) L true = Ok g -> uniform g.
Proof.
  intros E. destruct (built _ _ _ _ E) as (W & Y & _ & EL & _). split; [exact W|]. exists 0. intros i Hi. unfold ny. rewrite Y in *. rewrite EL. unfold open_slices in *.
  rewrite map_length, seq_length in *. rewrite nth_slices by exact Hi. ring.
Qed.
Lemma open_all {G} (pols : list G) L n g : Grid_init pols (open_slices L n) L true = Ok g ->
  (forall i, exists p, nth_error pols (Z.to_nat (i mod Z.of_nat n)) = Some p /\
     returns (getPoloidalGrid g (inject_Z i)) (Some p) (inject_Z i * (L / inject_Z (Z.of_nat n)))) /\
  exists dy, metric_dy g = Ok dy /\ length dy = n /\ (forall k, (k < n)%nat -> nth k dy 0 == L / inject_Z (Z.of_nat n)) /\ qsum dy == L.
Proof.
  intros E. assert (U := open_uniform _ _ _ _ E). destruct (built _ _ _ _ E) as (W & Y & P & EL & Per).
  assert (N : ny g = Z.of_nat n) by (unfold ny; rewrite Y; unfold open_slices; now rewrite map_length, seq_length).
  assert (N0 : (0 < n)%nat) by (assert (X := ny_pos g W); lia).
  split.
  - intros i. destruct (y_at g i W Per) as (p & E1 & R). rewrite N, P in E1. exists p. split; [exact E1|].
    destruct R as (y & E2 & Ey). exists y. split; [exact E2|]. rewrite Ey. unfold periodic_y. rewrite Y, N, EL.
    pose proof (Z.mod_pos_bound i (Z.of_nat n)) as B. unfold open_slices. rewrite nth_slices by lia. rewrite Z2Nat.id by lia.
    assert (D : inject_Z i == inject_Z (Z.of_nat n) * inject_Z (i / Z.of_nat n) + inject_Z (i mod Z.of_nat n)).
    { rewrite <- inject_Z_mult, <- inject_Z_plus. rewrite <- Z_div_mod_eq_full. reflexivity. }
    rewrite D. field. now apply nz.
  - destruct (metric_dy_ok g W) as (dy & Ed & Ld). exists dy. split; [exact Ed|].
    split; [rewrite Ld, Y; unfold open_slices; now rewrite map_length, seq_length|]. split.
    + intros k Hk. rewrite <- (Nat2Z.id k). rewrite (uniform_dy g dy (Z.of_nat k) U Ed) by lia. now rewrite N, EL.
    + rewrite (uniform_dy_sum g dy U Ed). now rewrite EL.
Qed.
Lemma open_single {G} (pol : G) L n g : screwpinch_grid pol L n = Ok g ->
  (forall i, returns (getPoloidalGrid g (inject_Z i)) (Some pol) (inject_Z i * (L / inject_Z (Z.of_nat n)))) /\
  exists dy, metric_dy g = Ok dy /\ length dy = n /\ (forall k, (k < n)%nat -> nth k dy 0 == L / inject_Z (Z.of_nat n)) /\ qsum dy == L.
Proof.
  intros E. destruct (open_all _ _ _ _ E) as (A & B). split; [|exact B]. intros i. destruct (A i) as (p & E1 & R).
  apply nth_error_In in E1. apply in_map_iff in E1. destruct E1 as (? & <- & _). exact R.
Qed.

Lemma closed_all {G} (pols : list G) L n g : (2 <= n)%nat -> script_grid pols L n = Ok g ->
  (forall i, exists p, nth_error pols (Z.to_nat (i mod Z.of_nat n)) = Some p /\
     returns (getPoloidalGrid g (inject_Z i)) (Some p) (inject_Z (i - i / Z.of_nat n) * (L / inject_Z (Z.of_nat (n - 1))))) /\
  exists dy, metric_dy g = Ok dy /\ length dy = n /\ (forall k, (k < n)%nat -> nth k dy 0 == L / inject_Z (Z.of_nat (n - 1))) /\
    qsum dy == L + L / inject_Z (Z.of_nat (n - 1)).
Proof.
  intros H2 E. destruct (built _ _ _ _ E) as (W & Y & P & EL & Per).
  assert (N : ny g = Z.of_nat n) by (unfold ny; rewrite Y; unfold closed_slices; now rewrite map_length, seq_length).
  assert (NL : length (ycoords g) = n) by (unfold ny in N; lia).
  assert (NN : inject_Z (Z.of_nat n) == inject_Z (Z.of_nat (n - 1)) + 1).
  { change 1 with (inject_Z 1). rewrite <- inject_Z_plus. rewrite inject_Z_injective. lia. }
  assert (N1 : ~ inject_Z (Z.of_nat (n - 1)) == 0) by (apply nz; lia).
  split.
  - intros i. destruct (y_at g i W Per) as (p & E1 & R). rewrite N, P in E1. exists p. split; [exact E1|].
    destruct R as (y & E2 & Ey). exists y. split; [exact E2|]. rewrite Ey. unfold periodic_y. rewrite Y, N, EL.
    pose proof (Z.mod_pos_bound i (Z.of_nat n)) as B. unfold closed_slices. rewrite nth_slices by lia. rewrite Z2Nat.id by lia.
    assert (D : inject_Z i == inject_Z (Z.of_nat n) * inject_Z (i / Z.of_nat n) + inject_Z (i mod Z.of_nat n)).
    { rewrite <- inject_Z_mult, <- inject_Z_plus. rewrite <- Z_div_mod_eq_full. reflexivity. }
    unfold Z.sub. rewrite inject_Z_plus, inject_Z_opp, D, NN. field. exact N1.
  - destruct (metric_dy_ok g W) as (dy & Ed & Ld). exists dy. split; [exact Ed|]. rewrite NL in Ld. split; [exact Ld|].
    assert (K : forall k, (k < n)%nat -> nth k dy 0 == L / inject_Z (Z.of_nat (n - 1))).
    { intros k Hk. rewrite (metric_dy_nth g dy k Ed) by lia. rewrite NL, Y. unfold closed_slices. set (h := L / inject_Z (Z.of_nat (n - 1))).
      destruct (Nat.eqb_spec k 0); [rewrite !nth_slices by lia; change (inject_Z (Z.of_nat 1)) with 1; change (inject_Z (Z.of_nat 0)) with 0; ring|].
      destruct (Nat.eqb_spec k (n - 1)); rewrite !nth_slices by lia.
      - replace (Z.of_nat (n - 1)) with (Z.of_nat (n - 2) + 1)%Z by lia. rewrite inject_Z_plus. change (inject_Z 1) with 1. ring.
      - replace (Z.of_nat (k + 1)) with (Z.of_nat (k - 1) + 2)%Z by lia. rewrite inject_Z_plus. change (inject_Z 2) with 2. field. }
    split; [exact K|]. rewrite (qsum_const dy (L / inject_Z (Z.of_nat (n - 1)))); [|intros i Hi; apply K; lia]. rewrite Ld, NN. field. exact N1.
Qed.

Lemma mms_all {G} (pol : G) P L n g : mms_grid pol P L n = Ok g ->
  forall i, returns (getPoloidalGrid g (inject_Z i)) (Some pol) (inject_Z (i mod Z.of_nat n) * (P / inject_Z (Z.of_nat n)) + inject_Z (i / Z.of_nat n) * L).
Proof.
  intros E i. destruct (built _ _ _ _ E) as (W & Y & Pg & EL & Per).
  assert (N : ny g = Z.of_nat n) by (unfold ny; rewrite Y; unfold open_slices; now rewrite map_length, seq_length).
  assert (N0 : (0 < n)%nat) by (assert (X := ny_pos g W); lia).
  destruct (y_at g i W Per) as (p & E1 & y & E2 & Ey). rewrite Pg in E1. apply nth_error_In, in_map_iff in E1. destruct E1 as (? & <- & _).
  exists y. split; [exact E2|]. rewrite Ey. unfold periodic_y. rewrite Y, N, EL.
  pose proof (Z.mod_pos_bound i (Z.of_nat n)) as B. unfold open_slices. rewrite nth_slices by lia. rewrite Z2Nat.id by lia. reflexivity.
Qed.
(** Evenly only if the angle is the period *)
Lemma mms_even {G} (pol : G) P L n g : (2 <= n)%nat -> mms_grid pol P L n = Ok g ->
  (forall i p p' y y', getPoloidalGrid g (inject_Z i) = Ok (p, y) -> getPoloidalGrid g (inject_Z (i + 1)) = Ok (p', y') -> y' - y == L / inject_Z (Z.of_nat n)) <-> P == L.
Proof.
  intros H2 E. assert (A := mms_all pol P L n g E). destruct (built _ _ _ _ E) as (W & Y & Pg & EL & Per).
  assert (NZ := nz n ltac:(lia)). split.
  - intros H. destruct (A (Z.of_nat n - 1)%Z) as (y & E1 & Y1). destruct (A (Z.of_nat n - 1 + 1)%Z) as (y' & E2 & Y2).
    specialize (H _ _ _ _ _ E1 E2). rewrite Y1, Y2 in H. replace (Z.of_nat n - 1 + 1)%Z with (Z.of_nat n) in H by lia.
    rewrite Z_mod_same_full, Z_div_same_full, Z.mod_small, Z.div_small in H by lia. change (inject_Z 0) with 0 in H. change (inject_Z 1) with 1 in H.
    unfold Z.sub in H. rewrite inject_Z_plus, inject_Z_opp in H. change (inject_Z 1) with 1 in H.
    assert (M2 : 2 <= inject_Z (Z.of_nat n)) by (change 2 with (inject_Z 2); rewrite <- Zle_Qle; lia).
    set (m := inject_Z (Z.of_nat n)) in *.
    assert (K : (P - L) * (1 - m) == 0).
    { assert (K0 : (0 * (P / m) + 1 * L - ((m + - (1)) * (P / m) + 0 * L)) * m == L / m * m) by (rewrite H; reflexivity).
      setoid_replace ((0 * (P / m) + 1 * L - ((m + - (1)) * (P / m) + 0 * L)) * m) with (L * m - (m - 1) * P) in K0 by (field; exact NZ).
      setoid_replace (L / m * m) with L in K0 by (field; exact NZ). lra. }
    apply Qmult_integral in K. destruct K; lra.
  - intros EP i p p' y y' E1 E2. destruct (A i) as (y1 & F1 & Y1). destruct (A (i + 1)%Z) as (y2 & F2 & Y2).
    rewrite E1 in F1. rewrite E2 in F2. injection F1 as -> ->. injection F2 as -> ->. rewrite Y1, Y2, EP.
    assert (D : forall j, inject_Z j == inject_Z (Z.of_nat n) * inject_Z (j / Z.of_nat n) + inject_Z (j mod Z.of_nat n)).
    { intros j. rewrite <- inject_Z_mult, <- inject_Z_plus. rewrite <- Z_div_mod_eq_full. reflexivity. }
    assert (D1 := D i). assert (D2 := D (i + 1)%Z). rewrite inject_Z_plus in D2. change (inject_Z 1) with 1 in D2. set (m := inject_Z (Z.of_nat n)) in *.
    assert (EM : inject_Z ((i + 1) mod Z.of_nat n) == inject_Z i + 1 - m * inject_Z ((i + 1) / Z.of_nat n)) by lra.
    assert (EM' : inject_Z (i mod Z.of_nat n) == inject_Z i - m * inject_Z (i / Z.of_nat n)) by lra.
    rewrite EM, EM'. field. exact NZ.
Qed.
