(** Proofs about the Dommaschk potentials: derivatives of expressions, recurrences of
    the coefficients. *)
From Coq Require Import List Reals ZArith Lra Lia.
From Verif Require Import Prelude FieldReal CoilSpec CoilProofs DomModel.
Import ListNotations.
Open Scope R_scope.

(** * Derivatives *)
Fixpoint defined (e : expr) (x phi z : R) : Prop :=
  match e with
  | Num _ | Sym _ => True
  | Add a b | Mul a b => defined a x phi z /\ defined b x phi z
  | Pow a n => defined a x phi z /\ ((0 <= n)%Z \/ lambdify a x phi z <> 0)
  | Log a => defined a x phi z /\ 0 < lambdify a x phi z
  | Cos a | Sin a => defined a x phi z
  end.
Definition along (e : expr) (s : symbol) (x phi z t : R) : R :=
  match s with SR => lambdify e t phi z | Sphi => lambdify e x t z | SZ => lambdify e x phi t end.
Definition coord (s : symbol) (x phi z : R) : R := match s with SR => x | Sphi => phi | SZ => z end.

Lemma d_pow (f : R -> R) x d (n : nat) : derivable_pt_lim f x d -> derivable_pt_lim (fun t => f t ^ n) x (INR n * f x ^ pred n * d).
Proof. intros H. apply (derivable_pt_lim_comp f (fun y => y ^ n)); [exact H|]. apply derivable_pt_lim_pow. Qed.
Lemma d_powerRZ (f : R -> R) x d n : derivable_pt_lim f x d -> (0 <= n)%Z \/ f x <> 0 ->
  derivable_pt_lim (fun t => powerRZ (f t) n) x (IZR n * powerRZ (f x) (n - 1) * d).
Proof.
  intros H V. destruct n as [|p|p].
  - eapply d_eq; [|exact (d_const 1 x)]. ring.
  - eapply d_eq; [|apply (d_pow f x d (Pos.to_nat p) H)].
    rewrite INR_IPR. change (IPR p) with (IZR (Zpos p)). f_equal. f_equal.
    destruct (Z.eq_dec (Zpos p) 1) as [E|Ne].
    + injection E as ->. reflexivity.
    + replace (Zpos p - 1)%Z with (Z.of_nat (pred (Pos.to_nat p))) by lia. now rewrite <- pow_powerRZ.
  - destruct V as [V|V]; [lia|].
    assert (NZ : f x ^ Pos.to_nat p <> 0) by now apply pow_nonzero.
    apply derivable_pt_lim_ext with (f := fun t => 1 / f t ^ Pos.to_nat p); [intros t; cbn; unfold Rdiv; ring|].
    eapply d_eq; [|apply d_div; [apply d_const|apply (d_pow f x d (Pos.to_nat p) H)|exact NZ]].
    replace (Zneg p - 1)%Z with (- Z.of_nat (Pos.to_nat p + 1))%Z by lia. rewrite powerRZ_neg', <- pow_powerRZ.
    rewrite INR_IPR. change (IPR p) with (IZR (Zpos p)). change (Zneg p) with (- Zpos p)%Z. rewrite opp_IZR.
    destruct (Pos.to_nat p) as [|q] eqn:E; [lia|]. cbn [pred]. rewrite Nat.add_1_r. cbn [pow] in *. unfold Rsqr.
    assert (f x ^ q <> 0) by now apply pow_nonzero. field. tauto.
Qed.

Lemma diff_along e s x phi z : defined e x phi z -> derivable_pt_lim (along e s x phi z) (coord s x phi z) (lambdify (diff e s) x phi z).
Proof.
  assert (E : forall a, along a s x phi z (coord s x phi z) = lambdify a x phi z) by (intros a; destruct s; reflexivity).
  induction e as [c|t|a IHa b IHb|a IHa b IHb|a IHa n|a IHa|a IHa|a IHa]; cbn [defined diff lambdify].
  - intros _. destruct s; exact (d_const c _).
  - intros _. destruct s, t; cbn [same_symbol along coord lambdify]; first [exact (d_const _ _) | exact (d_id _)].
  - intros [Da Db]. apply derivable_pt_lim_ext with (f := fun t => along a s x phi z t + along b s x phi z t); [intros t; destruct s; reflexivity|].
    apply d_add; auto.
  - intros [Da Db]. apply derivable_pt_lim_ext with (f := fun t => along a s x phi z t * along b s x phi z t); [intros t; destruct s; reflexivity|].
    rewrite <- !(E a), <- !(E b). apply d_mul; auto.
  - intros [Da V]. apply derivable_pt_lim_ext with (f := fun t => powerRZ (along a s x phi z t) n); [intros t; destruct s; reflexivity|].
    rewrite <- (E a) in V |- *. apply d_powerRZ; auto.
  - intros [Da V]. apply derivable_pt_lim_ext with (f := fun t => ln (along a s x phi z t)); [intros t; destruct s; reflexivity|].
    rewrite <- (E a) in V |- *. eapply d_eq; [|apply d_ln; auto]. cbn [powerRZ]. replace (Pos.to_nat 1) with 1%nat by reflexivity. cbn [pow]. field. lra.
  - intros Da. apply derivable_pt_lim_ext with (f := fun t => cos (along a s x phi z t)); [intros t; destruct s; reflexivity|].
    rewrite <- (E a). eapply d_eq; [|apply d_cos; auto]. ring.
  - intros Da. apply derivable_pt_lim_ext with (f := fun t => sin (along a s x phi z t)); [intros t; destruct s; reflexivity|].
    rewrite <- (E a). apply d_sin; auto.
Qed.

Lemma subs_value e s v x phi z : lambdify (subs e s v) x phi z =
  match s with SR => lambdify e (lambdify v x phi z) phi z | Sphi => lambdify e x (lambdify v x phi z) z | SZ => lambdify e x phi (lambdify v x phi z) end.
Proof.
  induction e as [c|t|a IHa b IHb|a IHa b IHb|a IHa n|a IHa|a IHa|a IHa]; cbn [subs lambdify]; try rewrite IHa; try rewrite IHb; try (destruct s; reflexivity).
  destruct s, t; reflexivity.
Qed.
Lemma subs_defined e s v x phi z : defined v x phi z ->
  match s with SR => defined e (lambdify v x phi z) phi z | Sphi => defined e x (lambdify v x phi z) z | SZ => defined e x phi (lambdify v x phi z) end ->
  defined (subs e s v) x phi z.
Proof.
  intros Dv. induction e as [c|t|a IHa b IHb|a IHa b IHb|a IHa n|a IHa|a IHa|a IHa]; cbn [subs defined].
  - auto.
  - intros _. destruct (same_symbol s t); [exact Dv|exact I].
  - destruct s; intuition.
  - destruct s; intuition.
  - rewrite subs_value. destruct s; intuition.
  - rewrite subs_value. destruct s; intuition.
  - destruct s; auto.
  - destruct s; auto.
Qed.

(** * Coefficients *)
Lemma fact_pos n : 0 < INR (fact n).
Proof. apply lt_0_INR, lt_O_fact. Qed.
Lemma INR_fact_S n : INR (fact (S n)) = (INR n + 1) * INR (fact n).
Proof. change (fact (S n)) with (S n * fact n)%nat. now rewrite mult_INR, S_INR. Qed.

Lemma alpha_nat k m : alpha (Z.of_nat k) m = (-1) ^ k / (INR (fact (m + k)) * INR (fact k) * 2 ^ (2 * k + m)).
Proof.
  unfold alpha, gamma. destruct (Z.leb_spec 0 (Z.of_nat k)); [|lia].
  replace (Z.to_nat (Z.of_nat m + Z.of_nat k + 1 - 1)) with (m + k)%nat by lia.
  replace (Z.to_nat (Z.of_nat k + 1 - 1)) with k by lia.
  replace (2 * Z.of_nat k + Z.of_nat m)%Z with (Z.of_nat (2 * k + m)) by lia. now rewrite <- !pow_powerRZ.
Qed.
Lemma alpha_neg n m : (n < 0)%Z -> alpha n m = 0.
Proof. intros H. unfold alpha. destruct (Z.leb_spec 0 n); [lia|reflexivity]. Qed.
Lemma alpha_rec n m : (0 <= n)%Z -> 4 * IZR n * (IZR n + INR m) * alpha n m = - alpha (n - 1) m.
Proof.
  intros H. destruct (Z.eq_dec n 0) as [->|Hn]; [rewrite (alpha_neg (0 - 1)) by lia; ring|].
  replace n with (Z.of_nat (S (Z.to_nat (n - 1)))) by lia. set (k := Z.to_nat (n - 1)).
  replace (Z.of_nat (S k) - 1)%Z with (Z.of_nat k) by lia. rewrite !alpha_nat, <- INR_IZR_INZ.
  replace (m + S k)%nat with (S (m + k)) by lia. replace (2 * S k + m)%nat with (S (S (2 * k + m))) by lia.
  rewrite !INR_fact_S, plus_INR, S_INR. cbn [pow].
  assert (0 < INR (fact k)) by apply fact_pos. assert (0 < INR (fact (m + k))) by apply fact_pos.
  assert (0 < 2 ^ (2 * k + m)) by (apply pow_lt; lra).
  assert (0 <= INR m) by apply pos_INR. assert (0 <= INR k) by apply pos_INR.
  field. repeat split; lra.
Qed.

Lemma beta_nat i m : (i < m)%nat -> beta (Z.of_nat i) m = INR (fact (m - i - 1)) / (INR (fact i) * powerRZ 2 (2 * Z.of_nat i - Z.of_nat m + 1)).
Proof.
  intros H. unfold beta, gamma. destruct (Z.leb_spec 0 (Z.of_nat i)); [|lia]. destruct (Z.ltb_spec (Z.of_nat i) (Z.of_nat m)); [|lia]. cbn [andb].
  replace (Z.to_nat (Z.of_nat m - Z.of_nat i - 1)) with (m - i - 1)%nat by lia.
  now replace (Z.to_nat (Z.of_nat i + 1 - 1)) with i by lia.
Qed.
Lemma beta_out n m : (n < 0)%Z \/ (Z.of_nat m <= n)%Z -> beta n m = 0.
Proof. intros H. unfold beta. destruct (Z.leb_spec 0 n); destruct (Z.ltb_spec n (Z.of_nat m)); cbn [andb]; try reflexivity; lia. Qed.
Lemma beta_rec n m : (0 <= n)%Z -> 4 * IZR n * (IZR n - INR m) * beta n m = - beta (n - 1) m + (if (n =? Z.of_nat m)%Z then beta (n - 1) m else 0).
Proof.
  intros H. destruct (Z.eqb_spec n (Z.of_nat m)) as [->|Hm].
  - rewrite <- INR_IZR_INZ. ring.
  - destruct (Z.eq_dec n 0) as [->|Hn]; [rewrite (beta_out (0 - 1)) by lia; ring|].
    destruct (Z_lt_le_dec n (Z.of_nat m)) as [L|L]; [|rewrite !beta_out by lia; ring].
    replace n with (Z.of_nat (S (Z.to_nat (n - 1)))) by lia. set (k := Z.to_nat (n - 1)).
    replace (Z.of_nat (S k) - 1)%Z with (Z.of_nat k) by lia. assert (Hk : (S k < m)%nat) by lia.
    rewrite !beta_nat by lia. rewrite <- INR_IZR_INZ.
    replace (2 * Z.of_nat (S k) - Z.of_nat m + 1)%Z with ((2 * Z.of_nat k - Z.of_nat m + 1) + 2)%Z by lia.
    rewrite powerRZ_add by lra. change (powerRZ 2 2) with (2 * (2 * 1)).
    replace (m - k - 1)%nat with (S (m - S k - 1)) by lia. rewrite !INR_fact_S, S_INR.
    replace (INR m) with (INR (m - S k - 1) + INR k + 2) by (rewrite !minus_INR, S_INR by lia; cbn [INR]; ring).
    assert (0 < INR (fact k)) by apply fact_pos. assert (0 <= INR k) by apply pos_INR.
    assert (0 < powerRZ 2 (2 * Z.of_nat k - Z.of_nat m + 1)) by (apply powerRZ_lt; lra).
    field. repeat split; lra.
Qed.
Lemma beta_last m : (1 <= m)%nat -> beta (Z.of_nat m - 1) m = 2 * INR m * alpha 0 m.
Proof.
  intros H. replace (Z.of_nat m - 1)%Z with (Z.of_nat (m - 1)) by lia. rewrite beta_nat by lia.
  change 0%Z with (Z.of_nat 0). rewrite alpha_nat. destruct m as [|m]; [lia|].
  replace (S m - (S m - 1) - 1)%nat with 0%nat by lia. replace (S m - 1)%nat with m by lia.
  replace (2 * Z.of_nat m - Z.of_nat (S m) + 1)%Z with (Z.of_nat m) by lia. rewrite <- pow_powerRZ.
  rewrite Nat.add_0_r, INR_fact_S, S_INR. cbn [fact pow INR Nat.mul Nat.add].
  assert (0 < INR (fact m)) by apply fact_pos. assert (0 <= INR m) by apply pos_INR. assert (0 < 2 ^ m) by (apply pow_lt; lra).
  field. repeat split; lra.
Qed.

Lemma delta_low n m : (n <= 0)%Z -> delta n m = 0.
Proof. intros H. unfold delta. destruct (Z.ltb_spec 0 n); [lia|reflexivity]. Qed.
Lemma rsum_app l l' : rsum (l ++ l') = rsum l + rsum l'.
Proof. unfold rsum. induction l as [|a l IH]; cbn [app fold_right]; [ring|]. rewrite IH. ring. Qed.
Lemma delta_rec n m : (0 <= n)%Z -> 4 * IZR n * (IZR n + INR m) * delta n m = - delta (n - 1) m + (if (n =? 0)%Z then 0 else 2 * alpha_st n m).
Proof.
  intros H. destruct (Z.eqb_spec n 0) as [->|Hn]; [rewrite !delta_low by lia; ring|].
  assert (A := alpha_rec n m H). unfold alpha_st. rewrite plus_IZR, mult_IZR, <- INR_IZR_INZ.
  assert (Pn : 0 < IZR n) by (apply IZR_lt; lia). assert (0 <= INR m) by apply pos_INR.
  assert (E : delta n m = alpha n m * (rsum (map (fun i => 1 / INR i + 1 / (INR m + INR i)) (seq 1 (Z.to_nat (n - 1)))) + (1 / IZR n + 1 / (INR m + IZR n))) / 2).
  { unfold delta. destruct (Z.ltb_spec 0 n); [|lia]. replace (Z.to_nat n) with (Z.to_nat (n - 1) + 1)%nat by lia.
    rewrite seq_app, map_app, rsum_app. cbn [seq map rsum fold_right].
    replace (INR (1 + Z.to_nat (n - 1))) with (IZR n) by (rewrite INR_IZR_INZ; f_equal; lia). f_equal. f_equal. ring. }
  assert (F : delta (n - 1) m = alpha (n - 1) m * rsum (map (fun i => 1 / INR i + 1 / (INR m + INR i)) (seq 1 (Z.to_nat (n - 1)))) / 2).
  { unfold delta. destruct (Z.ltb_spec 0 (n - 1)); [reflexivity|]. replace (Z.to_nat (n - 1)) with 0%nat by lia. cbn. field. }
  rewrite E, F. set (h := rsum _). replace (alpha (n - 1) m) with (- (4 * IZR n * (IZR n + INR m) * alpha n m)) by (rewrite A; ring).
  field. lra.
Qed.
