(** The vertices of a line at their own angles, in double precision. *)
From Coq Require Import List ZArith QArith Qabs Qround Qpower Qreduction Bool Lia Lqa Morphisms.
From Verif Require Import Prelude PreludeFacts ProgressModel ProgressProofs PolModel RzModel FloatModel FloatRound FloatProofs FloatMore.
Import ListNotations.
Open Scope Q_scope.

Lemma prod_bound' a b A B : - A <= a <= A -> - B <= b <= B -> - (A * B) <= a * b <= A * B.
Proof. intros HA HB. split; nra. Qed.

Section Rounding.
Variable rnd : Q -> Q.
Hypothesis HR : rounding rnd.
Local Instance rnd_proper : Proper (Qeq ==> Qeq) rnd := r_comp rnd HR.
Variable n : Z.
Hypothesis Hn : (1 <= n <= 2 ^ 40)%Z.

Definition vd : Q := fdiv rnd (2 * np_pi) (inject_Z n).
Definition vth (k : Z) : Q := fmul rnd (inject_Z k) vd.

Lemma vd_bounds : 1 # (2 ^ 40) <= vd <= 7.
Proof.
  assert (A : 1 <= inject_Z n <= inject_Z (2 ^ 40)) by (split; [change 1 with (inject_Z 1)|]; rewrite <- Zle_Qle; lia).
  change (inject_Z (2 ^ 40)) with (1099511627776 # 1) in A.
  assert (B : 1 # (2 ^ 39) <= 2 * np_pi / inject_Z n).
  { apply Qle_shift_div_l; [lra|]. change (1 # (2 ^ 39)) with (1 # 549755813888). unfold np_pi. lra. }
  assert (C : 2 * np_pi / inject_Z n <= 63 # 10).
  { apply Qle_shift_div_r; [lra|]. unfold np_pi. lra. }
  change (1 # (2 ^ 39)) with (1 # 549755813888) in B.
  assert (D := near _ HR (2 * np_pi / inject_Z n) 7 (8 * ulp_u) ltac:(apply Qabs_Qle_condition; lra) ltac:(apply Qle_bool_iff; vm_compute; reflexivity)).
  unfold vd, fdiv. unfold ulp_u in D. set (r := rnd _) in *. change (1 # (2 ^ 40)) with (1 # 1099511627776). lra.
Qed.
Lemma vth_near k : (0 <= k < n)%Z -> Qabs (vth k - inject_Z k * vd) <= ulp_u * (inject_Z k * vd).
Proof.
  intros Hk. assert (B := vd_bounds). change (1 # (2 ^ 40)) with (1 # 1099511627776) in B. destruct (Z.eq_dec k 0) as [E|E].
  - subst k. unfold vth, fmul. setoid_replace (inject_Z 0 * vd) with 0 by ring. rewrite (rnd_0 _ HR). discriminate.
  - assert (K : 1 <= inject_Z k) by (change 1 with (inject_Z 1); rewrite <- Zle_Qle; lia).
    assert (N := r_normal _ HR (inject_Z k * vd)). unfold vth, fmul. rewrite (Qabs_pos (inject_Z k * vd)) in N by nra. apply N.
    apply Qle_trans with (pow2 (-40)); [apply pow2_le; lia|]. change (pow2 (-40)) with (1 # 1099511627776). nra.
Qed.
Lemma quotient_near k : (0 <= k < n)%Z -> Qabs (vth k / vd - inject_Z k) <= ulp_u * inject_Z k.
Proof.
  intros Hk. assert (B := vd_bounds). change (1 # (2 ^ 40)) with (1 # 1099511627776) in B. assert (A := vth_near k Hk).
  assert (PV : 0 < vd) by lra.
  apply Qmult_le_r with vd; [exact PV|].
  assert (E : Qabs (vth k / vd - inject_Z k) * vd == Qabs (vth k - inject_Z k * vd)).
  { rewrite <- (Qabs_pos vd) at 2 by lra. rewrite <- Qabs_Qmult. apply Qabs_wd. field. intros C. lra. }
  rewrite E. setoid_replace (ulp_u * inject_Z k * vd) with (ulp_u * (inject_Z k * vd)) by ring. exact A.
Qed.
Lemma small_k k : (0 <= k < n)%Z -> 0 <= inject_Z k <= 1099511627776 # 1.
Proof. intros Hk. split; [change 0 with (inject_Z 0)|change (1099511627776 # 1) with (inject_Z (2 ^ 40))]; rewrite <- Zle_Qle; lia. Qed.

(** The angle was not rounded down: the vertex's own index, and a remainder that is a rounding error. *)
Lemma good k : (0 <= k < n)%Z -> inject_Z k * vd <= vth k ->
  polygon_ind rnd n (vth k) = k /\ 0 <= polygon_rem rnd n (vth k) <= 8 * ulp_u.
Proof.
  intros Hk G. assert (B := vd_bounds). change (1 # (2 ^ 40)) with (1 # 1099511627776) in B. assert (PV : 0 < vd) by lra.
  assert (SK := small_k k Hk). assert (Q1 := quotient_near k Hk). apply Qabs_Qle_condition in Q1.
  assert (Q2 : inject_Z k <= vth k / vd) by (apply Qle_shift_div_l; [exact PV|exact G]).
  split.
  - unfold polygon_ind. fold vd. unfold fdiv.
    assert (L : inject_Z k <= rnd (vth k / vd)).
    { assert (X := r_mono _ HR _ _ Q2). rewrite (rnd_int _ HR k ltac:(lia)) in X. exact X. }
    assert (U : rnd (vth k / vd) < inject_Z k + 1).
    { assert (X := near _ HR (vth k / vd) (1099511627777 # 1) (1 # 4) ltac:(apply Qabs_Qle_condition; unfold ulp_u in *; split; lra) ltac:(apply Qle_bool_iff; vm_compute; reflexivity)). unfold ulp_u in *. lra. }
    rewrite trunc_nonneg by lra. rewrite (floor_unique _ k L U). apply Z.mod_small. lia.
  - unfold polygon_rem. fold vd. assert (T0 : 0 <= vth k) by (apply Qle_trans with (2 := G); nra).
    rewrite (fremainder_nonneg rnd (vth k) vd PV T0). unfold qrem.
    rewrite (floor_unique (vth k / vd) k Q2) by (unfold ulp_u in *; lra).
    assert (A := vth_near k Hk). apply Qabs_Qle_condition in A.
    assert (KN : inject_Z k + 1 <= inject_Z n) by (change 1 with (inject_Z 1); rewrite <- inject_Z_plus, <- Zle_Qle; lia).
    assert (KD : inject_Z k * vd <= 8).
    { assert (ND : inject_Z n * vd <= 8).
      { unfold vd, fdiv. assert (C : 2 * np_pi / inject_Z n <= 7). { apply Qle_shift_div_r; [lra|]. unfold np_pi. lra. }
        assert (D : 0 <= 2 * np_pi / inject_Z n). { apply Qle_shift_div_l; [lra|]. unfold np_pi. lra. }
        assert (X := r_normal _ HR (2 * np_pi / inject_Z n)). rewrite (Qabs_pos (2 * np_pi / inject_Z n)) in X by exact D.
        assert (NB : inject_Z n <= 1099511627776 # 1) by (change (1099511627776 # 1) with (inject_Z (2 ^ 40)); rewrite <- Zle_Qle; lia).
        assert (PB : pow2 (-1022) <= 2 * np_pi / inject_Z n).
        { apply Qle_trans with (pow2 (-40)); [apply pow2_le; lia|]. apply Qle_shift_div_l; [lra|]. change (pow2 (-40)) with (1 # 1099511627776). unfold np_pi. lra. }
        specialize (X PB). apply Qabs_Qle_condition in X. assert (E : inject_Z n * (2 * np_pi / inject_Z n) == 2 * np_pi) by (field; intros C0; lra).
        set (q := 2 * np_pi / inject_Z n) in *. unfold ulp_u, np_pi in *. nra. }
      nra. }
    unfold ulp_u in *. split; lra.
Qed.
(** It was rounded down: one of the two neighbouring indices, and nearly a whole segment. *)
Lemma wrong k : (0 <= k < n)%Z -> vth k < inject_Z k * vd ->
  (polygon_ind rnd n (vth k) = k \/ polygon_ind rnd n (vth k) = (k - 1)%Z) /\
  (1 - (1 # 1000)) * vd <= polygon_rem rnd n (vth k) <= vd.
Proof.
  intros Hk G. assert (B := vd_bounds). change (1 # (2 ^ 40)) with (1 # 1099511627776) in B. assert (PV : 0 < vd) by lra.
  assert (SK := small_k k Hk). assert (Q1 := quotient_near k Hk). apply Qabs_Qle_condition in Q1.
  assert (Q2 : vth k / vd < inject_Z k) by (apply Qlt_shift_div_r; [exact PV|exact G]).
  assert (K1 : (1 <= k)%Z).
  { destruct (Z.eq_dec k 0) as [E|]; [|lia]. exfalso. subst k. unfold vth, fmul in G. assert (E0 : inject_Z 0 * vd == 0) by ring. rewrite E0 in G. rewrite (rnd_0 _ HR) in G. lra. }
  assert (K1Q : 1 <= inject_Z k) by (change 1 with (inject_Z 1); rewrite <- Zle_Qle; lia).
  assert (KM : inject_Z (k - 1) == inject_Z k - 1) by (unfold Z.sub; rewrite inject_Z_plus; reflexivity).
  split.
  - unfold polygon_ind. fold vd. unfold fdiv.
    assert (X := near _ HR (vth k / vd) (1099511627777 # 1) (1 # 4) ltac:(apply Qabs_Qle_condition; unfold ulp_u in *; split; lra) ltac:(apply Qle_bool_iff; vm_compute; reflexivity)).
    assert (U : rnd (vth k / vd) <= inject_Z k).
    { assert (Y := r_mono _ HR (vth k / vd) (inject_Z k) ltac:(lra)). rewrite (rnd_int _ HR k ltac:(lia)) in Y. exact Y. }
    set (r := rnd (vth k / vd)) in *. unfold ulp_u in *. rewrite trunc_nonneg by lra.
    destruct (Qlt_le_dec r (inject_Z k)) as [L|L].
    + right. rewrite (floor_unique r (k - 1)) by lra. apply Z.mod_small. lia.
    + left. rewrite (floor_unique r k) by lra. apply Z.mod_small. lia.
  - unfold polygon_rem. fold vd. assert (A := vth_near k Hk). apply Qabs_Qle_condition in A.
    assert (KD : 0 <= inject_Z k * vd) by nra. assert (KD2 : inject_Z k * vd <= (1099511627776 # 1) * vd) by nra.
    assert (T0 : 0 <= vth k) by (unfold ulp_u in *; lra).
    rewrite (fremainder_nonneg rnd (vth k) vd PV T0). unfold qrem.
    rewrite (floor_unique (vth k / vd) (k - 1)) by (unfold ulp_u in *; lra).
    rewrite KM. unfold ulp_u in *. split; lra.
Qed.

(** The point for a remainder of a rounding error *)
Lemma mix_near rem a b B : 0 <= rem <= 8 * ulp_u -> 1 # (2 ^ 100) <= B -> Qabs a <= B -> Qabs b <= B ->
  Qabs (fadd rnd (fmul rnd rem b) (fmul rnd (fsub rnd 1 rem) a) - a) <= 32 * ulp_u * B.
Proof.
  intros R HB HA Hb. unfold fadd, fmul, fsub. assert (S0 := eta_small).
  assert (EB : ulp_eta <= ulp_u * B).
  { apply Qle_trans with (1 := S0). apply Qle_trans with (ulp_u * (1 # (2 ^ 100))); [apply Qle_bool_iff; vm_compute; reflexivity|]. unfold ulp_u. lra. }
  assert (PB : 0 < B) by (apply Qlt_le_trans with (2 := HB); reflexivity).
  apply Qabs_Qle_condition in HA, Hb.
  assert (A1 := r_err _ HR (rem * b)).
  assert (B1 : Qabs (rem * b) <= 8 * ulp_u * B).
  { apply Qabs_Qle_condition. unfold ulp_u in *. split; nra. }
  apply Qabs_Qle_condition in A1. set (p := rnd (rem * b)) in *.
  assert (A2 := near _ HR (1 - rem) 1 (2 * ulp_u) ltac:(apply Qabs_Qle_condition; unfold ulp_u in *; lra) ltac:(apply Qle_bool_iff; vm_compute; reflexivity)).
  set (o := rnd (1 - rem)) in *.
  assert (O1 : - (10 * ulp_u) <= o - 1 <= 10 * ulp_u) by (unfold ulp_u in *; lra).
  assert (B3 : - (10 * ulp_u * B) <= o * a - a <= 10 * ulp_u * B).
  { assert (X := prod_bound' (o - 1) a (10 * ulp_u) B O1 HA). setoid_replace (o * a - a) with ((o - 1) * a) by ring. exact X. }
  assert (A3 := r_err _ HR (o * a)).
  assert (B4 : Qabs (o * a) <= 2 * B) by (apply Qabs_Qle_condition; unfold ulp_u in *; lra).
  apply Qabs_Qle_condition in A3. set (q := rnd (o * a)) in *.
  assert (A4 := r_err _ HR (p + q)).
  apply Qabs_Qle_condition in B1.
  assert (B5 : Qabs (p + q) <= 3 * B).
  { apply Qabs_Qle_condition. assert (Qabs (rem * b) <= 8 * ulp_u * B) by (apply Qabs_Qle_condition; lra). unfold ulp_u in *. split; lra. }
  assert (B6 : Qabs (rem * b) <= 8 * ulp_u * B) by (apply Qabs_Qle_condition; lra).
  apply Qabs_Qle_condition in A4. apply Qabs_Qle_condition. unfold ulp_u in *. split; lra.
Qed.
End Rounding.
