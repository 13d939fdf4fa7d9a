(** Proofs about the coil fields of FieldReal.v. *)
From Coq Require Import List Reals Lra Lia.
From Verif Require Import Prelude FieldReal CoilSpec.
Import ListNotations.
Open Scope R_scope.

(** * atan2 *)
Lemma sqrt_scale x y : x <> 0 -> sqrt (x ^ 2 + y ^ 2) = Rabs x * sqrt (1 + (y / x) ^ 2).
Proof.
  intros H. rewrite <- (sqrt_pow2 (Rabs x)) by apply Rabs_pos. rewrite pow2_abs.
  rewrite <- sqrt_mult; [f_equal; field; exact H|apply pow2_ge_0|].
  assert (0 <= (y / x) ^ 2) by apply pow2_ge_0. lra.
Qed.
Lemma sqrt_one_plus t : 0 < sqrt (1 + t ^ 2).
Proof. apply sqrt_lt_R0. assert (0 <= t ^ 2) by apply pow2_ge_0. lra. Qed.

Lemma cos_atan_div x y : x <> 0 -> cos (atan (y / x)) = Rabs x / sqrt (x ^ 2 + y ^ 2).
Proof.
  intros H. rewrite cos_atan, (sqrt_scale x y H). unfold Rsqr. replace (y / x * (y / x)) with ((y / x) ^ 2) by ring.
  assert (P := sqrt_one_plus (y / x)). assert (Rabs x <> 0) by now apply Rabs_no_R0. field. split; lra.
Qed.
Lemma sin_atan_div x y : x <> 0 -> sin (atan (y / x)) = Rabs x / x * y / sqrt (x ^ 2 + y ^ 2).
Proof.
  intros H. rewrite sin_atan, (sqrt_scale x y H). unfold Rsqr. replace (y / x * (y / x)) with ((y / x) ^ 2) by ring.
  assert (P := sqrt_one_plus (y / x)). assert (Rabs x <> 0) by now apply Rabs_no_R0. field. repeat split; try lra.
Qed.

Lemma atan2_cos x y : x <> 0 \/ y <> 0 -> cos (atan2 y x) = x / sqrt (x ^ 2 + y ^ 2).
Proof.
  intros H. unfold atan2. destruct (Rlt_dec 0 x) as [P|P].
  - rewrite cos_atan_div, Rabs_right by lra. reflexivity.
  - destruct (Rlt_dec x 0) as [N|N].
    + assert (S : sqrt (x ^ 2 + y ^ 2) <> 0).
      { rewrite sqrt_scale by lra. assert (T := sqrt_one_plus (y / x)). assert (0 < Rabs x) by (apply Rabs_pos_lt; lra).
        apply Rgt_not_eq. now apply Rmult_lt_0_compat. }
      destruct (Rle_dec 0 y); [rewrite neg_cos|rewrite cos_minus, cos_PI, sin_PI]; rewrite cos_atan_div, Rabs_left by lra; field; exact S.
    + assert (x = 0) by lra. subst x. unfold Rdiv. rewrite Rmult_0_l. destruct (Rlt_dec 0 y) as [A|A].
      * apply cos_PI2.
      * destruct (Rlt_dec y 0) as [A'|A']; [rewrite cos_neg; apply cos_PI2|]. lra.
Qed.
Lemma atan2_sin x y : x <> 0 \/ y <> 0 -> sin (atan2 y x) = y / sqrt (x ^ 2 + y ^ 2).
Proof.
  intros H. unfold atan2. destruct (Rlt_dec 0 x) as [P|P].
  - rewrite sin_atan_div, Rabs_right by lra. unfold Rdiv. rewrite Rinv_r by lra. now rewrite Rmult_1_l.
  - destruct (Rlt_dec x 0) as [N|N].
    + assert (S : sqrt (x ^ 2 + y ^ 2) <> 0).
      { rewrite sqrt_scale by lra. assert (T := sqrt_one_plus (y / x)). assert (0 < Rabs x) by (apply Rabs_pos_lt; lra).
        apply Rgt_not_eq. now apply Rmult_lt_0_compat. }
      destruct (Rle_dec 0 y); [rewrite neg_sin|rewrite sin_minus, cos_PI, sin_PI]; rewrite sin_atan_div, Rabs_left by lra; field; split; try exact S; lra.
    + assert (x = 0) by lra. subst x. replace (0 ^ 2 + y ^ 2) with (y ^ 2) by ring.
      destruct (Rlt_dec 0 y) as [A|A].
      * rewrite sin_PI2, sqrt_pow2 by lra. field. lra.
      * destruct (Rlt_dec y 0) as [A'|A']; [|lra].
        rewrite sin_neg, sin_PI2. replace (y ^ 2) with ((- y) ^ 2) by ring. rewrite sqrt_pow2 by lra. field. lra.
Qed.

(** * One coil *)
Lemma r2_pos c x z : x <> fst (fst c) \/ z <> snd (fst c) -> 0 < r2 c x z.
Proof.
  intros H. unfold r2. destruct (Req_dec x (fst (fst c))) as [E|N].
  - destruct H as [H|H]; [contradiction|]. assert (0 <= (x - fst (fst c)) ^ 2) by apply pow2_ge_0.
    assert (0 < (z - snd (fst c)) ^ 2); [|lra]. rewrite <- Rsqr_pow2. apply Rsqr_pos_lt. lra.
  - assert (0 <= (z - snd (fst c)) ^ 2) by apply pow2_ge_0.
    assert (0 < (x - fst (fst c)) ^ 2); [|lra]. rewrite <- Rsqr_pow2. apply Rsqr_pos_lt. lra.
Qed.
Lemma B_sin c x z : x <> fst (fst c) \/ z <> snd (fst c) -> B c x z * sin (theta c x z) = snd c * (2 / 10) * (z - snd (fst c)) / r2 c x z.
Proof.
  intros H. assert (P := r2_pos c x z H). unfold B, theta. rewrite atan2_sin by lra. fold (r2 c x z).
  assert (S : 0 < sqrt (r2 c x z)) by now apply sqrt_lt_R0.
  rewrite <- (sqrt_sqrt (r2 c x z)) at 3 by lra. field. lra.
Qed.
Lemma B_cos c x z : x <> fst (fst c) \/ z <> snd (fst c) -> B c x z * cos (theta c x z) = snd c * (2 / 10) * (x - fst (fst c)) / r2 c x z.
Proof.
  intros H. assert (P := r2_pos c x z H). unfold B, theta. rewrite atan2_cos by lra. fold (r2 c x z).
  assert (S : 0 < sqrt (r2 c x z)) by now apply sqrt_lt_R0.
  rewrite <- (sqrt_sqrt (r2 c x z)) at 3 by lra. field. lra.
Qed.

(** * Sums over coils *)
Lemma fold_sum {A} (g : A -> R) l : forall a, fold_left (fun s c => s + g c) l a = a + rsum (map g l).
Proof. induction l as [|c l IH]; intros a; cbn [fold_left map rsum fold_right]; [ring|]. rewrite IH. unfold rsum. ring. Qed.
Lemma fold_minus {A} (g : A -> R) l : forall a, fold_left (fun s c => s - g c) l a = a - rsum (map g l).
Proof. induction l as [|c l IH]; intros a; cbn [fold_left map rsum fold_right]; [ring|]. rewrite IH. unfold rsum. ring. Qed.
Lemma rsum_ext {A} (f g : A -> R) l : (forall c, In c l -> f c = g c) -> rsum (map f l) = rsum (map g l).
Proof. intros H. f_equal. apply map_ext_in. exact H. Qed.
Lemma rsum_plus {A} (f g : A -> R) l : rsum (map (fun c => f c + g c) l) = rsum (map f l) + rsum (map g l).
Proof. induction l; cbn; [ring|]. unfold rsum in IHl. rewrite IHl. ring. Qed.
Lemma rsum_scale {A} k (f : A -> R) l : rsum (map (fun c => k * f c) l) = k * rsum (map f l).
Proof. induction l; cbn; [ring|]. unfold rsum in IHl. rewrite IHl. ring. Qed.
Lemma rsum_zero {A} (f : A -> R) l : (forall c, In c l -> f c = 0) -> rsum (map f l) = 0.
Proof. induction l as [|a l IH]; intros H; [reflexivity|]. cbn. rewrite (H a) by now left. unfold rsum in IH. rewrite IH; [ring|]. intros c Hc. apply H. now right. Qed.

Lemma A_coils_eq cs x z : A_coils cs x z = rsum (map (fun c => - (snd c * (1 / 10) * ln (r2 c x z))) cs).
Proof.
  unfold A_coils. rewrite (fold_minus (fun c => snd c * (1 / 10) * ln (r2 c x z))).
  rewrite (rsum_ext (fun c => - (snd c * (1 / 10) * ln (r2 c x z))) (fun c => -1 * (snd c * (1 / 10) * ln (r2 c x z)))) by (intros; ring).
  rewrite rsum_scale. ring.
Qed.
Lemma Bx_coils_eq cs x z : away cs x z -> Bx_coils cs x z = rsum (map (fun c => snd c * (2 / 10) * (z - snd (fst c)) / r2 c x z) cs).
Proof.
  intros H. unfold Bx_coils. rewrite (fold_sum (fun c => B c x z * sin (theta c x z))), Rplus_0_l.
  apply rsum_ext. intros c Hc. apply B_sin. now apply H.
Qed.
Lemma Bz_coils_eq cs x z : away cs x z -> Bz_coils cs x z = rsum (map (fun c => - (snd c * (2 / 10) * (x - fst (fst c)) / r2 c x z)) cs).
Proof.
  intros H. unfold Bz_coils. rewrite (fold_minus (fun c => B c x z * cos (theta c x z))).
  rewrite (rsum_ext (fun c => - (snd c * (2 / 10) * (x - fst (fst c)) / r2 c x z)) (fun c => -1 * (B c x z * cos (theta c x z)))).
  - rewrite rsum_scale. ring.
  - intros c Hc. rewrite B_cos by now apply H. field. apply Rgt_not_eq, r2_pos. now apply H.
Qed.

(** derivative of a finite sum *)
Lemma d_rsum {A} (f : A -> R -> R) (g : A -> R) l x : (forall c, In c l -> derivable_pt_lim (f c) x (g c)) ->
  derivable_pt_lim (fun x' => rsum (map (fun c => f c x') l)) x (rsum (map g l)).
Proof.
  induction l as [|a l IH]; intros H.
  - apply derivable_pt_lim_const.
  - cbn [map rsum fold_right]. apply (derivable_pt_lim_plus (f a) (fun x' => rsum (map (fun c => f c x') l))).
    + apply H. now left.
    + apply IH. intros c Hc. apply H. now right.
Qed.

(** derivative of the logarithm of the squared distance along a curve *)
Lemma d_sq (f : R -> R) x d : derivable_pt_lim f x d -> derivable_pt_lim (fun x' => f x' ^ 2) x (2 * f x * d).
Proof.
  intros H. apply derivable_pt_lim_ext with (f := fun x' => f x' * f x'); [intros; ring|].
  replace (2 * f x * d) with (d * f x + f x * d) by ring. now apply (derivable_pt_lim_mult f f).
Qed.
Lemma d_sub (f g : R -> R) x df dg : derivable_pt_lim f x df -> derivable_pt_lim g x dg -> derivable_pt_lim (fun x' => f x' - g x') x (df - dg).
Proof. exact (derivable_pt_lim_minus f g x df dg). Qed.
Lemma d_add (f g : R -> R) x df dg : derivable_pt_lim f x df -> derivable_pt_lim g x dg -> derivable_pt_lim (fun x' => f x' + g x') x (df + dg).
Proof. exact (derivable_pt_lim_plus f g x df dg). Qed.
Lemma d_mul (f g : R -> R) x df dg : derivable_pt_lim f x df -> derivable_pt_lim g x dg -> derivable_pt_lim (fun x' => f x' * g x') x (df * g x + f x * dg).
Proof. exact (derivable_pt_lim_mult f g x df dg). Qed.
Lemma d_const c x : derivable_pt_lim (fun _ => c) x 0.
Proof. exact (derivable_pt_lim_const c x). Qed.
Lemma d_id x : derivable_pt_lim (fun t => t) x 1.
Proof. exact (derivable_pt_lim_id x). Qed.
Lemma d_scal c (f : R -> R) x d : derivable_pt_lim f x d -> derivable_pt_lim (fun t => c * f t) x (c * d).
Proof. exact (derivable_pt_lim_scal f c x d). Qed.
Lemma d_opp (f : R -> R) x d : derivable_pt_lim f x d -> derivable_pt_lim (fun t => - f t) x (- d).
Proof. exact (derivable_pt_lim_opp f x d). Qed.
Lemma d_div (f g : R -> R) x df dg : derivable_pt_lim f x df -> derivable_pt_lim g x dg -> g x <> 0 ->
  derivable_pt_lim (fun x' => f x' / g x') x ((df * g x - dg * f x) / Rsqr (g x)).
Proof. exact (derivable_pt_lim_div f g x df dg). Qed.
Lemma d_ln (f : R -> R) x d : 0 < f x -> derivable_pt_lim f x d -> derivable_pt_lim (fun t => ln (f t)) x (d / f x).
Proof.
  intros P H. replace (d / f x) with (/ f x * d) by (unfold Rdiv; ring).
  apply (derivable_pt_lim_comp f ln); [exact H|]. now apply derivable_pt_lim_ln.
Qed.
Lemma d_cos (f : R -> R) x d : derivable_pt_lim f x d -> derivable_pt_lim (fun t => cos (f t)) x (- sin (f x) * d).
Proof. intros H. apply (derivable_pt_lim_comp f cos); [exact H|]. apply derivable_pt_lim_cos. Qed.
Lemma d_sin (f : R -> R) x d : derivable_pt_lim f x d -> derivable_pt_lim (fun t => sin (f t)) x (cos (f x) * d).
Proof. intros H. apply (derivable_pt_lim_comp f sin); [exact H|]. apply derivable_pt_lim_sin. Qed.
Lemma d_eq (f : R -> R) x d d' : d = d' -> derivable_pt_lim f x d -> derivable_pt_lim f x d'.
Proof. intros ->. auto. Qed.

(** The coils and the point may all move: derivative of A along s. *)
Lemma d_A_coils {I} (coil : I -> R -> R * R * R) (ix : list I) (X Z : R -> R) s X' Z' (C' : I -> R * R) :
  derivable_pt_lim X s X' -> derivable_pt_lim Z s Z' ->
  (forall i, In i ix -> derivable_pt_lim (fun t => fst (fst (coil i t))) s (fst (C' i)) /\ derivable_pt_lim (fun t => snd (fst (coil i t))) s (snd (C' i)) /\
                        forall t, snd (coil i t) = snd (coil i s)) ->
  away (map (fun i => coil i s) ix) (X s) (Z s) ->
  derivable_pt_lim (fun t => A_coils (map (fun i => coil i t) ix) (X t) (Z t)) s
    (rsum (map (fun i => - (snd (coil i s) * (2 / 10) * ((X s - fst (fst (coil i s))) * (X' - fst (C' i)) + (Z s - snd (fst (coil i s))) * (Z' - snd (C' i))) / r2 (coil i s) (X s) (Z s))) ix)).
Proof.
  intros HX HZ HC HA.
  apply derivable_pt_lim_ext with (f := fun t => rsum (map (fun i => - (snd (coil i s) * (1 / 10) * ln (r2 (coil i t) (X t) (Z t)))) ix)).
  { intros t. rewrite A_coils_eq, map_map. apply rsum_ext. intros i Hi. destruct (HC i Hi) as [_ [_ E]]. now rewrite (E t). }
  apply (d_rsum (fun i t => - (snd (coil i s) * (1 / 10) * ln (r2 (coil i t) (X t) (Z t))))).
  intros i Hi. destruct (HC i Hi) as [H1 [H2 _]].
  assert (P : 0 < r2 (coil i s) (X s) (Z s)) by (apply r2_pos, HA, (in_map (fun i => coil i s)), Hi).
  eapply d_eq; [|apply d_opp, d_scal, d_ln; [exact P|]].
  2: { unfold r2. apply d_add; apply d_sq; apply d_sub; eassumption. }
  cbv beta. field. lra.
Qed.

(** * The field of coils at rest *)
Lemma d_A_fixed cs (X Z : R -> R) s X' Z' : derivable_pt_lim X s X' -> derivable_pt_lim Z s Z' -> away cs (X s) (Z s) ->
  derivable_pt_lim (fun t => A_coils cs (X t) (Z t)) s (Bz_coils cs (X s) (Z s) * X' - Bx_coils cs (X s) (Z s) * Z').
Proof.
  intros HX HZ HA.
  assert (D := d_A_coils (fun c _ => c) cs X Z s X' Z' (fun _ => (0, 0)) HX HZ).
  cbv beta in D. rewrite map_id in D.
  eapply d_eq; [|apply D].
  - rewrite Bz_coils_eq, Bx_coils_eq by exact HA.
    replace (rsum (map (fun c => - (snd c * (2 / 10) * (X s - fst (fst c)) / r2 c (X s) (Z s))) cs) * X' - rsum (map (fun c => snd c * (2 / 10) * (Z s - snd (fst c)) / r2 c (X s) (Z s)) cs) * Z')
      with (X' * rsum (map (fun c => - (snd c * (2 / 10) * (X s - fst (fst c)) / r2 c (X s) (Z s))) cs) + (- Z') * rsum (map (fun c => snd c * (2 / 10) * (Z s - snd (fst c)) / r2 c (X s) (Z s)) cs)) by ring.
    rewrite <- !rsum_scale, <- rsum_plus. apply rsum_ext. intros c Hc. cbn [fst snd]. field. apply Rgt_not_eq, r2_pos. now apply HA.
  - intros c Hc. split; [|split]; [apply d_const|apply d_const|reflexivity].
  - exact HA.
Qed.

Lemma flux_function cs x z : away cs x z ->
  derivable_pt_lim (fun z' => A_coils cs x z') z (- Bx_coils cs x z) /\ derivable_pt_lim (fun x' => A_coils cs x' z) x (Bz_coils cs x z).
Proof.
  intros H. split.
  - eapply d_eq; [|apply (d_A_fixed cs (fun _ => x) (fun t => t) z 0 1); [apply d_const|apply d_id|exact H]]. ring.
  - eapply d_eq; [|apply (d_A_fixed cs (fun t => t) (fun _ => z) x 1 0); [apply d_id|apply d_const|exact H]]. ring.
Qed.

(** points near a point away from the coils are away from the coils *)
Lemma away_near_x cs x z : away cs x z -> exists a b, a < x < b /\ forall t, a < t < b -> away cs t z.
Proof.
  induction cs as [|c cs IH]; intros H.
  - exists (x - 1), (x + 1). split; [lra|]. intros t _ c [].
  - destruct IH as (a & b & I & N). { intros c' Hc. apply H. now right. }
    destruct (Req_dec z (snd (fst c))) as [E|E].
    + assert (D : x <> fst (fst c)) by (destruct (H c (or_introl eq_refl)); [assumption|contradiction]).
      exists (Rmax a (if Rlt_dec (fst (fst c)) x then fst (fst c) else a)), (Rmin b (if Rlt_dec (fst (fst c)) x then b else fst (fst c))).
      destruct (Rlt_dec (fst (fst c)) x) as [L|L].
      * split; [split; [apply Rmax_lub_lt; lra|apply Rmin_glb_lt; lra]|].
        intros t [T1 T2] c' [<-|Hc]; [|apply N; [|exact Hc]].
        -- left. assert (fst (fst c) <= Rmax a (fst (fst c))) by apply Rmax_r. lra.
        -- assert (a <= Rmax a (fst (fst c))) by apply Rmax_l. assert (Rmin b b <= b) by apply Rmin_l. lra.
      * split; [split; [apply Rmax_lub_lt; lra|apply Rmin_glb_lt; lra]|].
        intros t [T1 T2] c' [<-|Hc]; [|apply N; [|exact Hc]].
        -- left. assert (Rmin b (fst (fst c)) <= fst (fst c)) by apply Rmin_r. lra.
        -- assert (a <= Rmax a a) by apply Rmax_l. assert (Rmin b (fst (fst c)) <= b) by apply Rmin_l. lra.
    + exists a, b. split; [exact I|]. intros t T c' [<-|Hc]; [now right|now apply N].
Qed.
Lemma away_near_z cs x z : away cs x z -> exists a b, a < z < b /\ forall t, a < t < b -> away cs x t.
Proof.
  intros H. destruct (away_near_x (map (fun c => (snd (fst c), fst (fst c), snd c)) cs) z x) as (a & b & I & N).
  { intros c Hc. apply in_map_iff in Hc as [c' [<- Hc]]. cbn [fst snd]. destruct (H c' Hc); tauto. }
  exists a, b. split; [exact I|]. intros t T c Hc.
  destruct (N t T (snd (fst c), fst (fst c), snd c)) as [D|D].
  - apply in_map_iff. now exists c.
  - now right.
  - now left.
Qed.

Lemma d_local (f g : R -> R) x d a b : a < x < b -> (forall t, a < t < b -> f t = g t) -> derivable_pt_lim f x d -> derivable_pt_lim g x d.
Proof. intros I E. now apply derivable_pt_lim_locally_ext with (a := a) (b := b). Qed.

(** no sources in the plane *)
Definition div_term (c : R * R * R) (x z : R) : R := snd c * (2 / 10) * (-2 * (x - fst (fst c)) * (z - snd (fst c))) / (r2 c x z) ^ 2.
Lemma no_sources cs x z : away cs x z -> exists d, derivable_pt_lim (fun x' => Bx_coils cs x' z) x d /\ derivable_pt_lim (fun z' => Bz_coils cs x z') z (- d).
Proof.
  intros H. exists (rsum (map (fun c => div_term c x z) cs)). split.
  - destruct (away_near_x cs x z H) as (a & b & I & N).
    apply (d_local (fun x' => rsum (map (fun c => snd c * (2 / 10) * (z - snd (fst c)) / r2 c x' z) cs)) _ _ _ a b I).
    { intros t T. symmetry. apply Bx_coils_eq. now apply N. }
    apply (d_rsum (fun c x' => snd c * (2 / 10) * (z - snd (fst c)) / r2 c x' z)). intros c Hc.
    assert (P : 0 < r2 c x z) by now apply r2_pos, H.
    eapply d_eq; [|apply d_div; [apply d_const| |apply Rgt_not_eq, P]].
    2: { unfold r2. apply d_add; [apply d_sq, d_sub; [apply d_id|apply d_const]|apply d_const]. }
    unfold div_term, Rsqr. field. lra.
  - destruct (away_near_z cs x z H) as (a & b & I & N).
    apply (d_local (fun z' => rsum (map (fun c => - (snd c * (2 / 10) * (x - fst (fst c)) / r2 c x z')) cs)) _ _ _ a b I).
    { intros t T. symmetry. apply Bz_coils_eq. now apply N. }
    eapply d_eq; [|apply (d_rsum (fun c z' => - (snd c * (2 / 10) * (x - fst (fst c)) / r2 c x z')) (fun c => -1 * div_term c x z))].
    { rewrite rsum_scale. ring. }
    intros c Hc. assert (P : 0 < r2 c x z) by now apply r2_pos, H.
    eapply d_eq; [|apply d_opp, d_div; [apply d_const| |apply Rgt_not_eq, P]].
    2: { unfold r2. apply d_add; [apply d_const|apply d_sq, d_sub; [apply d_id|apply d_const]]. }
    unfold div_term, Rsqr. field. lra.
Qed.

(** * Constants of motion *)
Lemma constant_on (f : R -> R) a b : a <= b -> (forall s, a <= s <= b -> derivable_pt_lim f s 0) -> f b = f a.
Proof.
  intros L D.
  destruct (Req_dec a b) as [->|N]; [reflexivity|].
  assert (pr : forall x, a < x < b -> derivable_pt f x) by (intros x Hx; exists 0; apply D; lra).
  assert (ct : forall x, a <= x <= b -> continuity_pt f x).
  { intros x Hx. apply derivable_continuous_pt. exists 0. now apply D. }
  assert (E := null_derivative_loc f a b pr ct).
  symmetry. symmetry. apply E.
  - intros x P. apply derive_pt_eq_0. apply D. lra.
  - lra.
Qed.
