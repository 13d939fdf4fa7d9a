(** The index search converges on curved grids. *)
From Coq Require Import List ZArith QArith Qabs Qminmax Qround Lia Lqa Bool.
From Verif Require Import Prelude PreludeFacts PolModel PolSpec PolFind PolNewton KantorSpec.
Import ListNotations.
Open Scope Q_scope.

Lemma Qsq_le a b : 0 <= a -> a <= b -> a * a <= b * b.
Proof. intros; nra. Qed.
Lemma abs_sq a : Qabs a * Qabs a == a * a.
Proof. destruct (Qlt_le_dec a 0); [rewrite Qabs_neg by lra|rewrite Qabs_pos by lra]; ring. Qed.

(** The solution of the linear equations is bounded by the inverse *)
Lemma solve_bound a b c d u v p q beta r : ~ a * d - b * c == 0 -> a * u + b * v == p -> c * u + d * v == q ->
  Qabs d + Qabs b <= beta * Qabs (a * d - b * c) -> Qabs a + Qabs c <= beta * Qabs (a * d - b * c) -> Qabs p <= r -> Qabs q <= r ->
  Qabs u <= beta * r /\ Qabs v <= beta * r.
Proof.
  intros D E1 E2 B1 B2 P Q0.
  assert (PD : 0 < Qabs (a * d - b * c)).
  { destruct (Qlt_le_dec 0 (Qabs (a * d - b * c))) as [L|L]; [exact L|]. exfalso. apply D. assert (N := Qabs_nonneg (a * d - b * c)).
     assert (X := Qle_Qabs (a * d - b * c)). assert (Y := Qle_Qabs (- (a * d - b * c))). rewrite Qabs_opp in Y. lra. }
  assert (U : (a * d - b * c) * u == d * p - b * q) by (rewrite <- E1, <- E2; ring).
  assert (V : (a * d - b * c) * v == a * q - c * p) by (rewrite <- E1, <- E2; ring).
  set (D0 := a * d - b * c) in *.
  assert (R0 : 0 <= r) by (apply Qle_trans with (2 := P); apply Qabs_nonneg).
  assert (TU : Qabs D0 * Qabs u <= (Qabs d + Qabs b) * r).
  { rewrite <- Qabs_Qmult. setoid_replace (Qabs (D0 * u)) with (Qabs (d * p - b * q)) by (rewrite U; reflexivity).
    apply Qle_trans with (1 := Qabs_triangle (d * p) (- (b * q))). rewrite Qabs_opp, !Qabs_Qmult.
    assert (X := Qabs_nonneg d). assert (Y := Qabs_nonneg b). nra. }
  assert (TV : Qabs D0 * Qabs v <= (Qabs a + Qabs c) * r).
  { rewrite <- Qabs_Qmult. setoid_replace (Qabs (D0 * v)) with (Qabs (a * q - c * p)) by (rewrite V; reflexivity).
    apply Qle_trans with (1 := Qabs_triangle (a * q) (- (c * p))). rewrite Qabs_opp, !Qabs_Qmult.
    assert (X := Qabs_nonneg a). assert (Y := Qabs_nonneg c). nra. }
  assert (CU : (Qabs d + Qabs b) * r <= beta * Qabs D0 * r) by (apply Qmult_le_compat_r; assumption).
  assert (CV : (Qabs a + Qabs c) * r <= beta * Qabs D0 * r) by (apply Qmult_le_compat_r; assumption).
  split; (apply Qmult_le_l with (z := Qabs D0); [exact PD|]); lra.
Qed.

Section K.
Variable nx nz : Z.
Variable splR splZ : nat -> nat -> Q -> Q -> Q.
Variable nearest : Q * Q -> Z.
Variable zneg : fl -> fl -> bool.
Hypothesis Hnx : (2 <= nx)%Z.
Hypothesis Hnz : (0 < nz)%Z.
Hypothesis Hnear : forall t, (0 <= nearest t < nx * nz)%Z.
Lemma Hnx1 : (0 < nx)%Z.
Proof. lia. Qed.

Notation res := (residual nz splR splZ).
Notation R0 := (r0 nz splR splZ nearest).
Notation nextp := (next nx nz splR splZ zneg).
Notation misp := (mis nz splR splZ).

(** The state of a point that converges, with a bound for its residual *)
Definition going (t : Q * Q) (beta : Q) (p : pt) (s : Q) : Prop :=
  exists x z, p = {| px := Fin x; pz := Fin z; pmask := true |} /\
    Qabs (x - near_x nz nearest t) <= 2 * beta * (R0 t - res t x z) /\ Qabs (z - near_z nz nearest t) <= 2 * beta * (R0 t - res t x z) /\
    res t x z <= s * R0 t /\ res t x z <= R0 t.
Definition resting (t : Q * Q) (p : pt) : Prop :=
  exists x z, p = {| px := Fin x; pz := Fin z; pmask := false |} /\ x == near_x nz nearest t /\ z == near_z nz nearest t.

Lemma res_nonneg t x z : 0 <= res t x z.
Proof. unfold residual. apply Qle_trans with (2 := Q.le_max_l _ _). apply Qabs_nonneg. Qed.
Lemma res_le t x z b : Qabs (at_index nz splR 0 0 x z - fst t) <= b -> Qabs (at_index nz splZ 0 0 x z - snd t) <= b -> res t x z <= b.
Proof. intros. unfold residual. apply Q.max_lub; assumption. Qed.
Lemma res_R t x z : Qabs (at_index nz splR 0 0 x z - fst t) <= res t x z.
Proof. apply Q.le_max_l. Qed.
Lemma res_Z t x z : Qabs (at_index nz splZ 0 0 x z - snd t) <= res t x z.
Proof. apply Q.le_max_r. Qed.
Definition val2 (t : Q * Q) (x z : Q) : Q :=
  (at_index nz splR 0 0 x z - fst t) * (at_index nz splR 0 0 x z - fst t) + (at_index nz splZ 0 0 x z - snd t) * (at_index nz splZ 0 0 x z - snd t).
Lemma val2_ge t x z : res t x z * res t x z <= val2 t x z.
Proof.
  unfold val2, residual. set (a := at_index nz splR 0 0 x z - fst t). set (b := at_index nz splZ 0 0 x z - snd t).
  assert (A := abs_sq a). assert (B := abs_sq b).
  assert (A0 : 0 <= a * a) by (rewrite <- A; assert (0 <= Qabs a) by apply Qabs_nonneg; nra).
  assert (B0 : 0 <= b * b) by (rewrite <- B; assert (0 <= Qabs b) by apply Qabs_nonneg; nra).
  destruct (Q.max_spec (Qabs a) (Qabs b)) as [[_ E]|[_ E]]; rewrite E; lra.
Qed.
Lemma val2_le t x z : val2 t x z <= 2 * (res t x z * res t x z).
Proof.
  unfold val2. assert (A := res_R t x z). assert (B := res_Z t x z). set (r := res t x z) in *.
  assert (A' := Qsq_le _ _ (Qabs_nonneg _) A). assert (B' := Qsq_le _ _ (Qabs_nonneg _) B). rewrite abs_sq in A', B'. lra.
Qed.

(** One step *)
Lemma step t beta L ur p s : regular nx nz splR splZ nearest t beta L -> (ur == 1 \/ ur == 3 # 2) -> going t beta p s ->
  exists x z x' z', p = {| px := Fin x; pz := Fin z; pmask := true |} /\
    nextp ur (p, t) = {| px := Fin x'; pz := Fin z'; pmask := true |} /\
    Qabs (x' - near_x nz nearest t) <= 2 * beta * (R0 t - res t x' z') /\ Qabs (z' - near_z nz nearest t) <= 2 * beta * (R0 t - res t x' z') /\
    res t x' z' <= (5 # 9) * res t x z /\ (ur == 1 -> res t x' z' <= L / 2 * ((beta * res t x z) * (beta * res t x z))) /\
    res t x z <= s * R0 t.
Proof.
  intros [KB KL KK KR KI KT] Hur (x & z & -> & BX & BZ & BS & BR).
  set (r := res t x z) in *. assert (r_nn : 0 <= r) by apply res_nonneg.
  assert (R0_nn : 0 <= R0 t) by lra.
  assert (U0 : ~ ur == 0) by (destruct Hur as [E|E]; rewrite E; discriminate).
  assert (UB : 1 <= ur <= 3 # 2) by (destruct Hur; lra).
  assert (IN : around nz nearest t (2 * beta * R0 t) x z) by (split; nra).
  destruct (KI x z IN) as (D & I1 & I2). cbv zeta in D, I1, I2.
  exists x, z.
  unfold next, pos_of. cbn [fst snd px pz eval]. 
  change (splR 0%nat 0%nat x (qrem z (inject_Z nz) + inject_Z nz)) with (at_index nz splR 0 0 x z).
  change (splZ 0%nat 0%nat x (qrem z (inject_Z nz) + inject_Z nz)) with (at_index nz splZ 0 0 x z).
  change (splR 1%nat 0%nat x (qrem z (inject_Z nz) + inject_Z nz)) with (at_index nz splR 1 0 x z).
  change (splZ 1%nat 0%nat x (qrem z (inject_Z nz) + inject_Z nz)) with (at_index nz splZ 1 0 x z).
  change (splR 0%nat 1%nat x (qrem z (inject_Z nz) + inject_Z nz)) with (at_index nz splR 0 1 x z).
  change (splZ 0%nat 1%nat x (qrem z (inject_Z nz) + inject_Z nz)) with (at_index nz splZ 0 1 x z).
  destruct (newton_solves nx zneg Hnx ur x z t (at_index nz splR 0 0 x z) (at_index nz splZ 0 0 x z) _ _ _ _ U0 D) as (x' & z' & S1 & S2 & E3 & H).
  set (p' := newton _ _ _ _ _ _ _ _) in *.
  assert (RR := res_R t x z). assert (RZ := res_Z t x z). fold r in RR, RZ.
  set (FR := at_index nz splR 0 0 x z) in *. set (FZ := at_index nz splZ 0 0 x z) in *.
  set (h := beta * (r / ur)).
  assert (RU : forall f g, Qabs (f - g) <= r -> Qabs ((g - f) / ur) <= r / ur).
  { intros f g Hf. apply Qabs_Qle_condition in Hf. apply Qabs_Qle_condition. split; [apply Qle_shift_div_l; [lra|]|apply Qle_shift_div_r; [lra|]].
    - setoid_replace (- (r / ur) * ur) with (- r) by (field; exact U0). lra.
    - setoid_replace (r / ur * ur) with r by (field; exact U0). lra. }
  destruct (solve_bound _ _ _ _ (x' - x) (z' - z) _ _ beta (r / ur) D S1 S2 I1 I2 (RU _ _ RR) (RU _ _ RZ)) as (HX & HZ). fold h in HX, HZ.
  assert (RUR : 0 <= r / ur /\ r / ur <= r /\ (r / ur) * ur == r).
  { split; [apply Qle_shift_div_l; lra|]. split; [apply Qle_shift_div_r; nra|]. field. exact U0. }
  destruct RUR as (Q0 & Q1 & Q2).
  assert (KK' : L * beta * beta * r <= 1).
  { apply Qle_trans with (2 := KK). rewrite (Qmult_comm _ r), (Qmult_comm _ (R0 t)). apply Qmult_le_compat_r; [exact BR|]. assert (0 <= L * beta) by nra. nra. }
  (* the next point is inside of the square *)
  set (rn := r / ur) in *.
  assert (HB : h <= 2 * beta * r) by (unfold h; nra).
  assert (IN' : around nz nearest t (2 * beta * R0 t) x' z').
  { assert (G1 : Qabs (x' - near_x nz nearest t) <= Qabs (x' - x) + Qabs (x - near_x nz nearest t)).
    { setoid_replace (x' - near_x nz nearest t) with ((x' - x) + (x - near_x nz nearest t)) by ring. apply Qabs_triangle. }
    assert (G2 : Qabs (z' - near_z nz nearest t) <= Qabs (z' - z) + Qabs (z - near_z nz nearest t)).
    { setoid_replace (z' - near_z nz nearest t) with ((z' - z) + (z - near_z nz nearest t)) by ring. apply Qabs_triangle. }
    split; lra. }
  destruct (KT x z x' z' h IN IN' HX HZ) as (T1 & T2). fold FR FZ in T1, T2.
  rewrite S1 in T1. rewrite S2 in T2.
  set (FR' := at_index nz splR 0 0 x' z') in *. set (FZ' := at_index nz splZ 0 0 x' z') in *.
  (* its residual *)
  assert (HH : L / 2 * (h * h) == (1 # 2) * (L * beta * beta * (rn * rn))) by (unfold h; field).
  assert (BND : forall f f' g, Qabs (f - g) <= r -> Qabs (f' - f - (g - f) / ur) <= L / 2 * (h * h) -> Qabs (f' - g) <= (r - rn) + L / 2 * (h * h)).
  { intros f f' g Hf Ht. setoid_replace (f' - g) with ((f' - f - (g - f) / ur) + (f - g) * (1 - 1 / ur)) by (field; exact U0).
    apply Qle_trans with (1 := Qabs_triangle _ _). rewrite Qabs_Qmult.
    assert (W : 0 <= 1 - 1 / ur). { assert (1 / ur <= 1) by (apply Qle_shift_div_r; lra). lra. }
    rewrite (Qabs_pos (1 - 1 / ur) W). assert (W2 : Qabs (f - g) * (1 - 1 / ur) <= r * (1 - 1 / ur)) by (apply Qmult_le_compat_r; assumption).
    setoid_replace (r * (1 - 1 / ur)) with (r - rn) in W2 by (unfold rn; field; exact U0). lra. }
  assert (RES : res t x' z' <= (r - rn) + L / 2 * (h * h)).
  { apply res_le; [apply (BND FR)|apply (BND FZ)]; assumption. }
  assert (LBR : L * beta * beta * (rn * rn) <= rn / ur).
  { setoid_replace (L * beta * beta * (rn * rn)) with ((L * beta * beta * r) * (rn / ur)) by (unfold rn; field; exact U0).
    assert (0 <= rn / ur) by (apply Qle_shift_div_l; nra). nra. }
  assert (RES2 : res t x' z' <= (5 # 9) * r).
  { rewrite HH in RES. destruct Hur as [E|E].
    - assert (rn == r) by (unfold rn; rewrite E; field). assert (rn / ur == r) by (rewrite E, H0; field). lra.
    - assert (rn == (2 # 3) * r) by (unfold rn; rewrite E; field). assert (rn / ur == (4 # 9) * r) by (rewrite E, H0; field). lra. }
  assert (RES3 : ur == 1 -> res t x' z' <= L / 2 * ((beta * r) * (beta * r))).
  { intros E. assert (rn == r) by (unfold rn; rewrite E; field). unfold h in RES. rewrite H0 in RES. lra. }
  exists x', z'. split; [reflexivity|].
  assert (ROW : 1 # 2 <= x' /\ x' <= inject_Z nx - (3 # 2)).
  { destruct IN' as (N1 & _). apply Qabs_Qle_condition in N1. lra. }
  assert (DH : h <= 2 * beta * (r - res t x' z')).
  { destruct Hur as [E|E].
    - assert (rn == r) by (unfold rn; rewrite E; field). assert (2 * res t x' z' <= r).
      { rewrite HH in RES. assert (rn / ur == r) by (rewrite E, H0; field). lra. }
      unfold h. rewrite H0. nra.
    - assert (rn == (2 # 3) * r) by (unfold rn; rewrite E; field). unfold h. rewrite H0. nra. }
  split; [|split; [|split; [|split; [exact RES2|split; [exact RES3|exact BS]]]]].
  - destruct H as [(C & _)|[(C & _)|(C & E1 & E2)]]; [lra|lra|]. destruct p' as [a b m]. cbn [px pz pmask] in *. congruence.
  - assert (G1 : Qabs (x' - near_x nz nearest t) <= Qabs (x' - x) + Qabs (x - near_x nz nearest t)).
    { setoid_replace (x' - near_x nz nearest t) with ((x' - x) + (x - near_x nz nearest t)) by ring. apply Qabs_triangle. }
    lra.
  - assert (G2 : Qabs (z' - near_z nz nearest t) <= Qabs (z' - z) + Qabs (z - near_z nz nearest t)).
    { setoid_replace (z' - near_z nz nearest t) with ((z' - z) + (z - near_z nz nearest t)) by ring. apply Qabs_triangle. }
    lra.
Qed.

Lemma going_next t beta L ur p s : regular nx nz splR splZ nearest t beta L -> (ur == 1 \/ ur == 3 # 2) -> 0 <= s -> going t beta p s ->
  going t beta (nextp ur (p, t)) ((5 # 9) * s) /\ (ur == 1 -> going t beta (nextp ur (p, t)) (s * s / 2)) /\
  exists x z x' z', p = {| px := Fin x; pz := Fin z; pmask := true |} /\ nextp ur (p, t) = {| px := Fin x'; pz := Fin z'; pmask := true |} /\
    val2 t x' z' <= val2 t x z.
Proof.
  intros K Hur Hs G. destruct (step t beta L ur p s K Hur G) as (x & z & x' & z' & -> & E & A & B & C & D & F).
  destruct G as (x1 & z1 & E1 & _ & _ & _ & G). injection E1 as <- <-.
  destruct K as [KB KL KK KR KI KT]. assert (N := res_nonneg t x z). assert (N' := res_nonneg t x' z').
  split; [|split].
  - exists x', z'. split; [exact E|]. split; [exact A|]. split; [exact B|]. split; [lra|lra].
  - intros U. specialize (D U). exists x', z'. split; [exact E|]. split; [exact A|]. split; [exact B|]. split; [|lra].
    apply Qle_trans with (1 := D). set (r := res t x z) in *. set (b := R0 t) in *.
    assert (Q1 : r * r <= (s * b) * (s * b)) by (apply Qsq_le; assumption).
    setoid_replace (L / 2 * (beta * r * (beta * r))) with (L * beta * beta * (r * r) / 2) by field.
    assert (Q2 : L * beta * beta * (r * r) <= L * beta * beta * (s * b * (s * b))).
    { assert (0 <= L * beta * beta) by (assert (0 <= L * beta) by nra; nra). rewrite !(Qmult_comm (L * beta * beta)). apply Qmult_le_compat_r; assumption. }
    assert (Q3 : L * beta * beta * (s * b * (s * b)) <= s * s * b).
    { setoid_replace (L * beta * beta * (s * b * (s * b))) with ((L * beta * beta * b) * (s * s * b)) by ring. assert (0 <= b) by lra. assert (0 <= s * s) by nra. assert (0 <= s * s * b) by nra. nra. }
    apply Qmult_le_r with (z := 2); [reflexivity|].
    setoid_replace (L * beta * beta * (r * r) / 2 * 2) with (L * beta * beta * (r * r)) by field. setoid_replace (s * s / 2 * b * 2) with (s * s * b) by field. lra.
  - exists x, z, x', z'. split; [reflexivity|]. split; [exact E|]. assert (V := val2_le t x' z'). assert (V' := val2_ge t x z).
    assert (Q1 := Qsq_le _ _ N' C). nra.
Qed.

Lemma mis_going t x z : exists q, misp ({| px := Fin x; pz := Fin z; pmask := true |}, t) = Fin q /\ q == val2 t x z.
Proof. unfold mis, mismatch, pos_of. cbn [fst snd px pz pmask eval fsub fopp fadd fmul mval]. eexists. split; [reflexivity|]. unfold val2, at_index. ring. Qed.
Lemma mis_resting t p : resting t p -> exists q, misp (p, t) = Fin q /\ q == 0.
Proof. intros (x & z & -> & _). unfold mis, mismatch, pos_of. cbn [fst snd px pz pmask eval fsub fopp fadd fmul mval]. eexists. split; [reflexivity|]. ring. Qed.

Lemma row_q t : (nearest t / nz = 0 \/ nearest t / nz = nx - 1)%Z -> near_x nz nearest t == 0 \/ near_x nz nearest t == inject_Z nx - 1.
Proof. unfold near_x. intros [E|E]; rewrite E; [left; reflexivity|right]. unfold Z.sub. rewrite inject_Z_plus, inject_Z_opp. reflexivity. Qed.

Lemma resting_next t ur p : at_boundary nx nz splR splZ nearest t -> ~ ur == 0 -> resting t p -> resting t (nextp ur (p, t)).
Proof.
  intros (B & D) U (x & z & -> & X & Z0). specialize (D x z X Z0). unfold next, pos_of. cbn [fst snd px pz eval].
  assert (X' : x == 0 \/ x == inject_Z nx - 1) by (destruct (row_q t B) as [E|E]; rewrite X; auto).
  destruct (newton_masked nx zneg Hnx ur x z t (at_index nz splR 0 0 x z) (at_index nz splZ 0 0 x z) _ _ _ _ U D X') as (x' & z' & E1 & E2 & E3 & E4 & E5).
  unfold at_index in *. match goal with |- resting _ ?q => set (p' := q) in * end. exists x', z'. split; [|split; [rewrite E2; exact X|rewrite E4; exact Z0]].
  clearbody p'. destruct p' as [a b m]. cbn [px pz pmask] in *. congruence.
Qed.

Lemma famax_lt l m tol : Forall (fun v => exists q, v = Fin q /\ q < tol) l -> famax l = Ok m -> exists q, m = Fin q /\ q < tol.
Proof.
  destruct l as [|a l]; [discriminate|]. intros H [= <-]. inversion H as [|? ? Ha Hl]; subst. clear H. revert a Ha.
  induction l as [|b l IH]; intros a Ha; [exact Ha|]. cbn [fold_left]. inversion Hl as [|? ? Hb Hl']; subst. apply IH; [exact Hl'|].
  destruct Ha as (p & -> & Ep), Hb as (q & -> & Eq'). cbn [fmax2 flt]. destruct (Qlt_bool p q); eauto.
Qed.

Variable tol : Q.
Hypothesis Htol : 0 < tol.
Variable ts : list (Q * Q).
Variable beta LL : Q * Q -> Q.
Hypothesis Hne : ts <> [].

Definition inv (s : Q) (p : pt) (t : Q * Q) : Prop :=
  (regular nx nz splR splZ nearest t (beta t) (LL t) /\ R0 t * R0 t < inject_Z (2 ^ 1021) * tol /\ going t (beta t) p s) \/
  (at_boundary nx nz splR splZ nearest t /\ resting t p).
Definition under (p : pt) (t : Q * Q) : Prop := exists q, misp (p, t) = Fin q /\ q < tol.

Lemma inv_next s ur p t : (ur == 1 \/ ur == 3 # 2) -> 0 <= s -> inv s p t ->
  inv ((5 # 9) * s) (nextp ur (p, t)) t /\ (ur == 1 -> inv (s * s / 2) (nextp ur (p, t)) t) /\ (under p t -> under (nextp ur (p, t)) t).
Proof.
  intros Hur Hs [(K & T & G)|(B & G)].
  - destruct (going_next t (beta t) (LL t) ur p s K Hur Hs G) as (G1 & G2 & x & z & x' & z' & -> & E & V).
    split; [left; auto|]. split; [intros U; left; auto|]. intros (q & Q1 & Q2).
    destruct (mis_going t x z) as (q1 & E1 & V1). rewrite E1 in Q1. injection Q1 as <-.
    destruct (mis_going t x' z') as (q2 & E2 & V2). exists q2. rewrite E. split; [exact E2|]. lra.
  - assert (U : ~ ur == 0) by (destruct Hur as [E|E]; rewrite E; discriminate). assert (G' := resting_next t ur p B U G).
    split; [right; auto|]. split; [right; auto|]. intros _. destruct (mis_resting t _ G') as (q & E & V). exists q. split; [exact E|lra].
Qed.

Definition all_inv (s : Q) (pts : list pt) : Prop := Forall2 (inv s) pts ts.
Definition all_under (pts : list pt) : Prop := Forall2 under pts ts.

Lemma all_next_lin s ur pts : (ur == 1 \/ ur == 3 # 2) -> 0 <= s -> all_inv s pts -> all_inv ((5 # 9) * s) (map (nextp ur) (combine pts ts)).
Proof.
  intros U Hs H. unfold all_inv in *. clear Hne. induction H as [|p t pts' l Hp Hl IH]; cbn; constructor; [|exact IH].
  now destruct (inv_next s ur p t U Hs Hp).
Qed.
Lemma all_next_sq s pts : 0 <= s -> all_inv s pts -> all_inv (s * s / 2) (map (nextp 1) (combine pts ts)).
Proof.
  intros Hs H. unfold all_inv in *. clear Hne. induction H as [|p t pts' l Hp Hl IH]; cbn; constructor; [|exact IH].
  destruct (inv_next s 1 p t (or_introl (Qeq_refl 1)) Hs Hp) as (_ & A & _). now apply A.
Qed.
Lemma all_next_under s ur pts : (ur == 1 \/ ur == 3 # 2) -> 0 <= s -> all_inv s pts -> all_under pts -> all_under (map (nextp ur) (combine pts ts)).
Proof.
  intros U Hs H. unfold all_inv, all_under in *. clear Hne. induction H as [|p t pts' l Hp Hl IH]; cbn; intros A; constructor.
  - inversion A; subst. destruct (inv_next s ur p t U Hs Hp) as (_ & _ & B). now apply B.
  - apply IH. now inversion A.
Qed.
Lemma inv_len s pts : all_inv s pts -> length pts = length ts.
Proof. intros A. unfold all_inv in A. clear Hne. induction A; cbn; congruence. Qed.
Lemma inv_fin s p t : inv s p t -> exists q, misp (p, t) = Fin q.
Proof.
  intros [(_ & _ & x & z & -> & _)|(_ & G)].
  - destruct (mis_going t x z) as (q & E & _). eauto.
  - destruct (mis_resting t p G) as (q & E & _). eauto.
Qed.
Lemma all_under_of s pts v : all_inv s pts -> famax (map misp (combine pts ts)) = Ok v -> flt v (Fin tol) = true -> all_under pts.
Proof.
  intros A Ev C. assert (K := famax_all _ _ _ Ev C). apply Forall_map in K. clear Ev C. unfold all_inv, all_under in *. clear Hne.
  induction A as [|p t pts' l Hp Hl IH]; constructor; cbn [combine] in K; inversion K as [|? ? K1 K2]; subst.
  - destruct (inv_fin s p t Hp) as (q & E). exists q. split; [exact E|]. cbv beta in K1. rewrite E in K1. cbn in K1. now apply Qlt_bool_iff in K1.
  - now apply IH.
Qed.
Lemma flt_of pts v : all_under pts -> famax (map misp (combine pts ts)) = Ok v -> flt v (Fin tol) = true.
Proof.
  intros A Ev. destruct (famax_lt (map misp (combine pts ts)) v tol) as (q & -> & Q0); [|exact Ev|].
  - apply Forall_map. unfold all_under in A. clear Hne Ev. induction A as [|p t pts' l Hp Hl IH]; cbn; constructor; assumption.
  - cbn. now apply Qlt_bool_iff.
Qed.

Notation srch := (search nx nz splR splZ zneg).
Notation good := (good nx).
Definition pos1 : (0 < nx)%Z := Hnx1.

Lemma relax_cases cnt ur : (ur == 1 \/ ur == 3 # 2) -> (0 <= cnt < 100)%Z -> relax cnt ur == 1 \/ relax cnt ur == 3 # 2.
Proof.
  intros U C. unfold relax. destruct (Z.eqb_spec cnt 10); [right; reflexivity|].
  destruct (Z.eqb_spec cnt 100), (Z.eqb_spec cnt 300), (Z.eqb_spec cnt 700); try lia; exact U.
Qed.

(** Once all points are within the tolerance the search ends *)
Lemma settle k : forall fuel cnt ur s extra pts, all_inv s pts -> 0 <= s -> all_under pts -> Forall good pts -> (ur == 1 \/ ur == 3 # 2) ->
  (Z.of_nat k = 3 - extra)%Z -> (0 <= extra)%Z -> (k < fuel)%nat -> (0 <= cnt)%Z -> (cnt + Z.of_nat k < 99)%Z ->
  exists out s', srch fuel tol ts cnt ur extra pts = Some (Ok out) /\ all_inv s' out /\ all_under out.
Proof.
  induction k as [|k IH]; intros fuel cnt ur s extra pts A Hs Un G U He H0 Hf Hc Hk; (destruct fuel as [|fuel]; [lia|]).
  all: assert (L := inv_len _ _ A).
  all: assert (N : pts <> []) by (intros ->; destruct ts; [easy|discriminate]).
  all: destruct (search_step nx nz splR splZ zneg pos1 fuel tol ts cnt ur extra pts G N L) as (val & Ev & ->).
  all: cbv zeta; rewrite (flt_of pts val Un Ev); cbn [andb negb].
  - destruct (Z.ltb_spec 3 (extra + 1)); [|lia]. eauto.
  - destruct (Z.ltb_spec 3 (extra + 1)); [lia|]. destruct (Z.eqb_spec (cnt + 1) 1000); [lia|].
    assert (U' : relax (cnt + 1) ur == 1 \/ relax (cnt + 1) ur == 3 # 2) by (apply relax_cases; [exact U|lia]).
    apply (IH fuel (cnt + 1)%Z _ ((5 # 9) * s)); [now apply all_next_lin|lra|now apply (all_next_under s)| |exact U'|lia|lia|lia|lia|lia].
    apply next_good; exact G || exact pos1.
Qed.

(** The bound of the residuals after k steps *)
Fixpoint shrink (k : nat) : Q := match k with O => 1 | S k => shrink k * shrink k / 2 end.
Lemma shrink_nonneg k : 0 <= shrink k.
Proof. induction k as [|k IH]; cbn [shrink]; [discriminate|]. apply Qle_shift_div_l; [reflexivity|]. nra. Qed.
Lemma shrink_pow k : shrink k * inject_Z (2 ^ (2 ^ Z.of_nat k - 1)) == 1.
Proof.
  induction k as [|k IH]; [reflexivity|]. cbn [shrink].
  assert (P := Z.pow_pos_nonneg 2 (Z.of_nat k) eq_refl (Nat2Z.is_nonneg k)).
  replace (2 ^ (2 ^ Z.of_nat (S k) - 1))%Z with (2 * (2 ^ (2 ^ Z.of_nat k - 1) * 2 ^ (2 ^ Z.of_nat k - 1)))%Z.
  - rewrite !inject_Z_mult. set (w := inject_Z (2 ^ (2 ^ Z.of_nat k - 1))) in *. change (inject_Z 2) with 2.
    setoid_replace (shrink k * shrink k / 2 * (2 * (w * w))) with ((shrink k * w) * (shrink k * w)) by field. rewrite IH. reflexivity.
  - rewrite <- Z.pow_add_r by lia. rewrite <- Z.pow_succ_r by lia. f_equal. rewrite Nat2Z.inj_succ, Z.pow_succ_r by lia. lia.
Qed.
Lemma small_under s p t : 0 <= s -> s * inject_Z (2 ^ 511) == 1 -> inv s p t -> under p t.
Proof.
  intros Hs E [(K & T & x & z & -> & _ & _ & G & _)|(B & G)].
  - destruct (mis_going t x z) as (q & E1 & V1). exists q. split; [exact E1|]. rewrite V1.
    assert (V := val2_le t x z). assert (N := res_nonneg t x z). set (r := res t x z) in *. set (b := R0 t) in *.
    assert (Q1 := Qsq_le _ _ N G). apply Qle_lt_trans with (1 := V). apply Qle_lt_trans with (2 * (s * b * (s * b))); [lra|].
    replace (2 ^ 1021)%Z with (2 ^ 510 * 2 ^ 511)%Z in T by reflexivity. rewrite inject_Z_mult in T.
    assert (E' : 2 * (s * inject_Z (2 ^ 510)) == 1).
    { rewrite <- E. replace (2 ^ 511)%Z with (2 * 2 ^ 510)%Z by reflexivity. rewrite inject_Z_mult. change (inject_Z 2) with 2. ring. }
    set (u := inject_Z (2 ^ 510)) in *. set (v := inject_Z (2 ^ 511)) in *.
    assert (W : 2 * (s * s) * (b * b) < 2 * (s * s) * (u * v * tol)).
    { assert (0 < s). { destruct (Qlt_le_dec 0 s) as [C|C]; [exact C|]. assert (s == 0) by lra. rewrite H in E. lra. }
      assert (0 < s * s) by nra. assert (SS : 0 < 2 * (s * s)) by lra. apply Qmult_lt_l; assumption. }
    setoid_replace (2 * (s * b * (s * b))) with (2 * (s * s) * (b * b)) by ring.
    setoid_replace (2 * (s * s) * (u * v * tol)) with (2 * (s * u) * (s * v) * tol) in W by ring. rewrite E, E' in W. lra.
  - destruct (mis_resting t _ G) as (q & E1 & V). exists q. split; [exact E1|lra].
Qed.

Lemma approach d : forall fuel k pts, (k + d = 9)%nat -> all_inv (shrink k) pts -> Forall good pts -> (d + 4 <= fuel)%nat ->
  exists out s', srch fuel tol ts (Z.of_nat k) 1 0 pts = Some (Ok out) /\ all_inv s' out /\ all_under out.
Proof.
  induction d as [|d IH]; intros fuel k pts Hk A G Hf.
  - assert (Ek : k = 9%nat) by lia. apply (settle 3 fuel (Z.of_nat k) 1 (shrink k)); [exact A|apply shrink_nonneg| |exact G|left; reflexivity|lia|lia|lia|lia|lia].
    unfold all_under, all_inv in *. clear Hne Hf G. induction A as [|p t pts' l Hp Hl IH]; constructor; [|exact IH].
    apply (small_under (shrink k)); [apply shrink_nonneg| |exact Hp]. rewrite Ek. exact (shrink_pow 9).
  - assert (L := inv_len _ _ A). assert (N : pts <> []) by (intros ->; destruct ts; [easy|discriminate]).
    destruct fuel as [|fuel]; [lia|].
    destruct (famax_ok (map misp (combine pts ts))) as [v Ev].
    { destruct pts; [easy|]. destruct ts; [discriminate|]. discriminate. }
    destruct (flt v (Fin tol)) eqn:C.
    { apply (settle 3 (S fuel) (Z.of_nat k) 1 (shrink k)); [exact A|apply shrink_nonneg|now apply (all_under_of (shrink k) pts v)|exact G|left; reflexivity|lia|lia|lia|lia|lia]. }
    destruct (search_step nx nz splR splZ zneg pos1 fuel tol ts (Z.of_nat k) 1 0 pts G N L) as (val & Ev' & ->).
    rewrite Ev in Ev'. injection Ev' as <-. cbv zeta. rewrite C. cbn [andb negb Z.eqb].
    destruct (Z.eqb_spec (Z.of_nat k + 1) 1000); [lia|].
    assert (relax (Z.of_nat k + 1) 1 = 1) as ->.
    { unfold relax. destruct (Z.eqb_spec (Z.of_nat k + 1) 10), (Z.eqb_spec (Z.of_nat k + 1) 100), (Z.eqb_spec (Z.of_nat k + 1) 300), (Z.eqb_spec (Z.of_nat k + 1) 700); try lia; reflexivity. }
    replace (Z.of_nat k + 1)%Z with (Z.of_nat (S k)) by lia.
    apply IH; [lia| | |lia].
    + apply all_next_sq; [apply shrink_nonneg|exact A].
    + apply next_good; exact G || exact pos1.
Qed.

Lemma start_inv t : (regular nx nz splR splZ nearest t (beta t) (LL t) /\ R0 t * R0 t < inject_Z (2 ^ 1021) * tol) \/ at_boundary nx nz splR splZ nearest t ->
  inv 1 (start nx nz nearest t) t.
Proof.
  assert (EZ : (nearest t - nearest t / nz * nz = nearest t mod nz)%Z) by (rewrite Z.mod_eq by lia; lia).
  assert (RN : 0 <= R0 t) by apply res_nonneg.
  intros [(K & T)|B].
  - left. split; [exact K|]. split; [exact T|]. exists (near_x nz nearest t), (near_z nz nearest t).
    split; [|assert (Z1 : forall a, Qabs (a - a) <= 2 * beta t * (R0 t - res t (near_x nz nearest t) (near_z nz nearest t))); [intros a; fold (R0 t)|]].
    + unfold start. rewrite EZ. fold (near_x nz nearest t). fold (near_z nz nearest t). f_equal.
      destruct K as [KB KL KK KR KI KT]. unfold low_x, high_x. cbn [flt].
      assert (0 <= beta t * R0 t) by (apply Qmult_le_0_compat; assumption).
      assert (Qlt_bool (near_x nz nearest t) (1#2) = false) as -> by (apply Qlt_bool_false_iff; lra).
      assert (Qlt_bool (inject_Z nx - (3#2)) (near_x nz nearest t) = false) as -> by (apply Qlt_bool_false_iff; lra). reflexivity.
    + setoid_replace (a - a) with 0 by ring. setoid_replace (R0 t - R0 t) with 0 by ring. rewrite Qmult_0_r. apply Qle_refl.
    + split; [apply Z1|]. split; [apply Z1|]. fold (R0 t). split; lra.
  - right. split; [exact B|]. destruct B as [B _]. exists (near_x nz nearest t), (near_z nz nearest t). split; [|split; reflexivity].
    unfold start. rewrite EZ. fold (near_x nz nearest t). fold (near_z nz nearest t). f_equal. unfold low_x, high_x. cbn [flt].
    assert (N2 := two_le nx Hnx). destruct (row_q t B) as [E|E].
    + assert (Qlt_bool (near_x nz nearest t) (1#2) = true) as -> by (apply Qlt_bool_iff; rewrite E; reflexivity). reflexivity.
    + assert (Qlt_bool (inject_Z nx - (3#2)) (near_x nz nearest t) = true) as -> by (apply Qlt_bool_iff; lra). now rewrite orb_true_r.
Qed.

Lemma final s p t : inv s p t -> under p t ->
  (regular nx nz splR splZ nearest t (beta t) (LL t) -> found nz splR splZ nearest tol t (beta t) (mark nx p)) /\
  (at_boundary nx nz splR splZ nearest t -> marked nx nz nearest t (mark nx p)).
Proof.
  assert (N2 := two_le nx Hnx). assert (RN : 0 <= R0 t) by apply res_nonneg.
  assert (EX : regular nx nz splR splZ nearest t (beta t) (LL t) -> at_boundary nx nz splR splZ nearest t -> False).
  { intros [KB _ _ KR _ _] [B _]. assert (0 <= beta t * R0 t) by (apply Qmult_le_0_compat; assumption). destruct (row_q t B) as [E|E]; rewrite E in KR; lra. }
  intros [(K & T & x & z & -> & GX & GZ & GS & GR)|(B & x & z & -> & X & Z0)] (q & E & V).
  - split; [intros _|intros B; destruct (EX K B)].
    destruct (mis_going t x z) as (q1 & E1 & V1). rewrite E1 in E. injection E as ->.
    destruct K as [KB KL KK KR KI KT]. assert (N := res_nonneg t x z).
    assert (IN : around nz nearest t (2 * beta t * R0 t) x z) by (split; nra).
    exists x, z. split; [|split; [exact IN|]].
    + unfold mark. cbn [px pz]. unfold low_x, high_x. cbn [flt]. destruct IN as (I1 & _). apply Qabs_Qle_condition in I1.
      assert (Qlt_bool x (1#2) = false) as -> by (apply Qlt_bool_false_iff; lra). cbn [flt].
      assert (Qlt_bool (inject_Z nx - (3#2)) x = false) as -> by (apply Qlt_bool_false_iff; lra). reflexivity.
    + unfold val2 in V1. lra.
  - split; [intros K; destruct (EX K B)|intros _]. destruct B as (B & _). exists z. split; [|exact Z0].
    unfold mark. cbn [px pz]. f_equal. unfold low_x, high_x. cbn [flt].
    unfold near_x in X. destruct (Z.eqb_spec (nearest t / nz) 0) as [E0|E0].
    + rewrite E0 in X. assert (Qlt_bool x (1#2) = true) as -> by (apply Qlt_bool_iff; rewrite X; reflexivity). cbn [flt].
      assert (Qlt_bool (inject_Z nx - (3#2)) (-(1)) = false) as -> by (apply Qlt_bool_false_iff; lra). reflexivity.
    + destruct B as [B|B]; [contradiction|]. assert (X' : x == inject_Z nx - 1) by (rewrite X, B; unfold Z.sub; rewrite inject_Z_plus, inject_Z_opp; reflexivity).
      destruct (Qlt_bool x (1#2)) eqn:C; [apply Qlt_bool_iff in C; lra|]. cbn [flt].
      assert (Qlt_bool (inject_Z nx - (3#2)) x = true) as -> by (apply Qlt_bool_iff; lra). reflexivity.
Qed.

Lemma kantorovich fuel : (13 <= fuel)%nat ->
  Forall (fun t => (regular nx nz splR splZ nearest t (beta t) (LL t) /\ R0 t * R0 t < inject_Z (2 ^ 1021) * tol) \/ at_boundary nx nz splR splZ nearest t) ts ->
  exists l, findIndex nx nz splR splZ nearest zneg fuel ts tol = Some (Ok l) /\
  Forall2 (fun t p => (regular nx nz splR splZ nearest t (beta t) (LL t) -> found nz splR splZ nearest tol t (beta t) p) /\
    (at_boundary nx nz splR splZ nearest t -> marked nx nz nearest t p)) ts l.
Proof.
  intros Hf H. unfold findIndex.
  assert (A : all_inv (shrink 0) (map (start nx nz nearest) ts)).
  { unfold all_inv. clear Hne. induction H as [|t l Ht Hl IH]; cbn; constructor; [|exact IH]. now apply start_inv. }
  assert (G : Forall good (map (start nx nz nearest) ts)) by (apply starts_good; assumption).
  destruct (approach 9 fuel 0 _ eq_refl A G Hf) as (out & s & E & I & U). change (Z.of_nat 0) with 0%Z in E. rewrite E. eexists. split; [reflexivity|].
  unfold all_inv, all_under in *. clear Hne H A G E. induction I as [|p t pts l Hp Hl IH]; cbn; constructor.
  - inversion U; subst. now apply (final s).
  - apply IH. now inversion U.
Qed.

(** Close to the true index *)
Lemma accuracy t b L xs zs x z : regular nx nz splR splZ nearest t b L -> 4 * (L * b * b * R0 t) <= 1 ->
  around nz nearest t (2 * b * R0 t) xs zs -> at_index nz splR 0 0 xs zs == fst t -> at_index nz splZ 0 0 xs zs == snd t ->
  around nz nearest t (2 * b * R0 t) x z -> val2 t x z < tol ->
  (x - xs) * (x - xs) <= 4 * (b * b) * tol /\ (z - zs) * (z - zs) <= 4 * (b * b) * tol.
Proof.
  intros [KB KL KK KR KI KT] K4 INs ER EZ IN V.
  assert (RN : 0 <= R0 t) by apply res_nonneg.
  destruct (KI xs zs INs) as (D & I1 & I2). cbv zeta in D, I1, I2.
  set (m := Qmax (Qabs (x - xs)) (Qabs (z - zs))).
  assert (M1 : Qabs (x - xs) <= m) by apply Q.le_max_l. assert (M2 : Qabs (z - zs) <= m) by apply Q.le_max_r.
  assert (M0 : 0 <= m) by (apply Qle_trans with (2 := M1); apply Qabs_nonneg).
  assert (MB : m <= 4 * (b * R0 t)).
  { destruct IN as (A1 & A2), INs as (B1 & B2). apply Q.max_lub.
    - setoid_replace (x - xs) with ((x - near_x nz nearest t) - (xs - near_x nz nearest t)) by ring. apply Qle_trans with (1 := Qabs_triangle _ _). rewrite Qabs_opp. lra.
    - setoid_replace (z - zs) with ((z - near_z nz nearest t) - (zs - near_z nz nearest t)) by ring. apply Qle_trans with (1 := Qabs_triangle _ _). rewrite Qabs_opp. lra. }
  destruct (KT xs zs x z m INs IN M1 M2) as (T1 & T2). rewrite ER in T1. rewrite EZ in T2.
  set (r := res t x z). assert (r_nn : 0 <= r) by apply res_nonneg.
  assert (RR := res_R t x z). assert (RZ := res_Z t x z). fold r in RR, RZ.
  set (a := at_index nz splR 1 0 xs zs) in *. set (bb := at_index nz splR 0 1 xs zs) in *. set (c := at_index nz splZ 1 0 xs zs) in *. set (d := at_index nz splZ 0 1 xs zs) in *.
  assert (P1 : Qabs (a * (x - xs) + bb * (z - zs)) <= r + L / 2 * (m * m)).
  { set (F := at_index nz splR 0 0 x z - fst t) in *. set (w := a * (x - xs) + bb * (z - zs)) in *.
    setoid_replace w with (F - (F - w)) by ring. apply Qle_trans with (1 := Qabs_triangle _ _). rewrite Qabs_opp. lra. }
  assert (P2 : Qabs (c * (x - xs) + d * (z - zs)) <= r + L / 2 * (m * m)).
  { set (F := at_index nz splZ 0 0 x z - snd t) in *. set (w := c * (x - xs) + d * (z - zs)) in *.
    setoid_replace w with (F - (F - w)) by ring. apply Qle_trans with (1 := Qabs_triangle _ _). rewrite Qabs_opp. lra. }
  destruct (solve_bound a bb c d (x - xs) (z - zs) _ _ b _ D (Qeq_refl _) (Qeq_refl _) I1 I2 P1 P2) as (H1 & H2).
  assert (HM : m <= b * (r + L / 2 * (m * m))) by (apply Q.max_lub; assumption).
  assert (HQ : b * (L / 2 * (m * m)) <= m / 2).
  { setoid_replace (b * (L / 2 * (m * m))) with ((L * b * m) * (m / 2)) by field.
    assert (L * b * m <= 1).
    { apply Qle_trans with (2 := K4). setoid_replace (4 * (L * b * b * R0 t)) with (L * b * (4 * (b * R0 t))) by ring. assert (0 <= L * b) by nra.
      rewrite !(Qmult_comm (L * b)). apply Qmult_le_compat_r; assumption. }
    assert (0 <= m / 2) by (apply Qle_shift_div_l; lra). nra. }
  assert (H2M : m <= 2 * (b * r)).
  { assert (m == m / 2 + m / 2) by field. lra. }
  assert (RV := val2_ge t x z). fold r in RV.
  assert (SQ : m * m <= 4 * (b * b) * tol).
  { assert (Q1 := Qsq_le _ _ M0 H2M). assert (0 <= b * b) by nra. assert (b * b * (r * r) <= b * b * tol) by nra.
    setoid_replace (2 * (b * r) * (2 * (b * r))) with (4 * (b * b * (r * r))) in Q1 by ring. lra. }
  split; [rewrite <- (abs_sq (x - xs))|rewrite <- (abs_sq (z - zs))]; (apply Qle_trans with (2 := SQ)); apply Qsq_le; auto using Qabs_nonneg.
Qed.
End K.
