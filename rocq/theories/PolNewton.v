(** The Newton step of StructuredPoloidalGrid.findIndex, and grids with affine coordinates. *)
From Coq Require Import List ZArith QArith Qround Lia Lqa Bool.
From Verif Require Import Prelude PreludeFacts PolModel PolSpec PolFind.
Import ListNotations.
Open Scope Q_scope.

Lemma rect_negative r x z dx dz : (dx < 0 \/ dz < 0)%Z -> rect_getCoordinate r x z dx dz = Err AssertionError.
Proof.
  intros H. unfold rect_getCoordinate. destruct (Z.leb_spec 0 dx) as [A|A]; [|reflexivity].
  destruct (Z.leb_spec 0 dz) as [B|B]; [lia|reflexivity].
Qed.

Lemma relax_table n : fold_left (fun ur k => relax (Z.of_nat k) ur) (seq 1 n) 1 =
  if (n <? 10)%nat then 1 else if (n <? 100)%nat then 3#2 else if (n <? 300)%nat then 2 else if (n <? 700)%nat then 5#2 else 3.
Proof.
  induction n as [|n IH]; [reflexivity|]. rewrite seq_S, fold_left_app, IH. cbn [fold_left]. unfold relax.
  replace (1 + n)%nat with (S n) by lia.
  destruct (Z.eqb_spec (Z.of_nat (S n)) 10), (Z.eqb_spec (Z.of_nat (S n)) 100), (Z.eqb_spec (Z.of_nat (S n)) 300), (Z.eqb_spec (Z.of_nat (S n)) 700);
  destruct (Nat.ltb_spec n 10), (Nat.ltb_spec n 100), (Nat.ltb_spec n 300), (Nat.ltb_spec n 700);
  destruct (Nat.ltb_spec (S n) 10), (Nat.ltb_spec (S n) 100), (Nat.ltb_spec (S n) 300), (Nat.ltb_spec (S n) 700);
  try reflexivity; exfalso; lia.
Qed.

Lemma two_le nx : (2 <= nx)%Z -> 2 <= inject_Z nx.
Proof. intros H. change 2 with (inject_Z 2). now rewrite <- Zle_Qle. Qed.

Section N.
Variable nx : Z.
Variable zneg : fl -> fl -> bool.
Hypothesis Hnx : (2 <= nx)%Z.

Lemma newton_solves ur x z t R Z Rx Zx Rz Zz : ~ ur == 0 -> ~ Rx * Zz - Rz * Zx == 0 ->
  let p' := newton nx zneg ur {| px := Fin x; pz := Fin z; pmask := true |} t (Fin R, Fin Z) (Fin Rx, Fin Zx) (Fin Rz, Fin Zz) in
  exists x' z', Rx * (x' - x) + Rz * (z' - z) == (fst t - R) / ur /\ Zx * (x' - x) + Zz * (z' - z) == (snd t - Z) / ur /\
  pz p' = Fin z' /\
  ((x' < 1#2 /\ px p' = Fin 0 /\ pmask p' = false) \/
   (inject_Z nx - (3#2) < x' /\ px p' = Fin (inject_Z nx - 1) /\ pmask p' = false) \/
   (1#2 <= x' <= inject_Z nx - (3#2) /\ px p' = Fin x' /\ pmask p' = true)).
Proof.
  intros Hu Hd. pose proof (two_le nx Hnx) as H2.
  unfold newton. cbn [px pz pmask fst snd]. unfold fsub. cbn [fopp fadd fmul fdiv mval].
  assert (Ed : qzero (Rx * Zz + - (Rz * Zx)) = false).
  { unfold qzero. apply not_true_iff_false. intros C. apply Hd. apply Qeq_bool_iff in C. rewrite <- C. ring. }
  assert (Eu : qzero ur = false).
  { unfold qzero. apply not_true_iff_false. intros C. apply Hu. now apply Qeq_bool_iff. }
  rewrite Ed. cbn [fdiv]. rewrite Eu. cbn [fmul fopp fadd]. cbv zeta.
  match goal with |- context [if low_x (Fin ?v) then _ else _] => set (x' := v) end.
  match goal with |- context [Fin (z + ?v)] => set (z' := z + v) end.
  exists x', z'. cbn [px pz pmask].
  assert (Hd' : ~ Rx * Zz + - (Rz * Zx) == 0) by (intros C; apply Hd; rewrite <- C; ring).
  split; [unfold x', z'; field; auto|]. split; [unfold x', z'; field; auto|]. split; [reflexivity|].
  clearbody x' z'. unfold low_x, high_x. cbn [flt].
  destruct (Qlt_bool x' (1#2)) eqn:L.
  - left. apply Qlt_bool_iff in L. split; [exact L|].
    assert (Qlt_bool (inject_Z nx - (3#2)) 0 = false) as -> by (apply Qlt_bool_false_iff; lra). split; reflexivity.
  - apply Qlt_bool_false_iff in L. destruct (Qlt_bool (inject_Z nx - (3#2)) x') eqn:Hh.
    + right. left. apply Qlt_bool_iff in Hh. repeat split. exact Hh.
    + right. right. apply Qlt_bool_false_iff in Hh. repeat split; assumption.
Qed.

Lemma newton_masked ur x z t R Z Rx Zx Rz Zz : ~ ur == 0 -> ~ Rx * Zz - Rz * Zx == 0 -> x == 0 \/ x == inject_Z nx - 1 ->
  let p' := newton nx zneg ur {| px := Fin x; pz := Fin z; pmask := false |} t (Fin R, Fin Z) (Fin Rx, Fin Zx) (Fin Rz, Fin Zz) in
  exists x' z', px p' = Fin x' /\ x' == x /\ pz p' = Fin z' /\ z' == z /\ pmask p' = false.
Proof.
  intros Hu Hd Hx. pose proof (two_le nx Hnx) as H2.
  unfold newton. cbn [px pz pmask fst snd]. unfold fsub. cbn [fopp fadd fmul fdiv mval].
  assert (Ed : qzero (Rx * Zz + - (Rz * Zx)) = false).
  { unfold qzero. apply not_true_iff_false. intros C. apply Hd. apply Qeq_bool_iff in C. rewrite <- C. ring. }
  assert (Eu : qzero ur = false).
  { unfold qzero. apply not_true_iff_false. intros C. apply Hu. now apply Qeq_bool_iff. }
  rewrite Ed. cbn [fdiv]. rewrite Eu. cbn [fmul fopp fadd]. cbv zeta.
  match goal with |- context [if low_x (Fin ?v) then _ else _] => set (x' := v) end.
  match goal with |- context [Fin (z + ?v)] => set (z' := z + v) end.
  assert (Ex : x' == x) by (unfold x'; ring). assert (Ez : z' == z) by (unfold z'; ring).
  clearbody x' z'. unfold low_x, high_x. cbn [flt px pz pmask].
  destruct Hx as [Hx|Hx].
  - assert (Qlt_bool x' (1#2) = true) as -> by (apply Qlt_bool_iff; lra).
    assert (Qlt_bool (inject_Z nx - (3#2)) 0 = false) as -> by (apply Qlt_bool_false_iff; lra).
    exists 0, z'. repeat split; auto. symmetry; exact Hx.
  - destruct (Qlt_bool x' (1#2)) eqn:L; [apply Qlt_bool_iff in L; lra|].
    assert (Qlt_bool (inject_Z nx - (3#2)) x' = true) as -> by (apply Qlt_bool_iff; lra).
    exists (inject_Z nx - 1), z'. repeat split; auto. symmetry; exact Hx.
Qed.
End N.

Lemma qrem_small z n : (0 < n)%Z -> 0 <= z -> z < inject_Z n -> qrem z (inject_Z n) == z.
Proof.
  intros Hn H0 H1. unfold qrem.
  assert (Hq : 0 < inject_Z n) by (change 0 with (inject_Z 0); rewrite <- Zlt_Qlt; lia).
  assert (Qfloor (z / inject_Z n) = 0%Z) as ->; [|change (inject_Z 0) with 0; ring].
  assert (A : 0 <= z / inject_Z n) by (apply Qle_shift_div_l; lra).
  assert (B : z / inject_Z n < 1) by (apply Qlt_shift_div_r; lra).
  assert (C : (0 <= Qfloor (z / inject_Z n))%Z).
  { apply Qfloor_resp_le in A. exact A. }
  pose proof (Qfloor_le (z / inject_Z n)) as D.
  assert (E : inject_Z (Qfloor (z / inject_Z n)) < inject_Z 1) by (change (inject_Z 1) with 1; lra).
  rewrite <- Zlt_Qlt in E. lia.
Qed.

Section A.
Variable nx nz : Z.
Variable splR splZ : nat -> nat -> Q -> Q -> Q.
Variable nearest : Q * Q -> Z.
Variable zneg : fl -> fl -> bool.
Hypothesis Hnx : (2 <= nx)%Z.
Hypothesis Hnz : (0 < nz)%Z.
Hypothesis Hnear : forall t, (0 <= nearest t < nx * nz)%Z.
Variable R0 Rx Rz Z0 Zx Zz : Q.
Hypothesis AR : forall x z, splR 0%nat 0%nat x z == R0 + Rx * x + Rz * z.
Hypothesis AZ : forall x z, splZ 0%nat 0%nat x z == Z0 + Zx * x + Zz * z.
Hypothesis ARx : forall x z, splR 1%nat 0%nat x z == Rx.
Hypothesis AZx : forall x z, splZ 1%nat 0%nat x z == Zx.
Hypothesis ARz : forall x z, splR 0%nat 1%nat x z == Rz.
Hypothesis AZz : forall x z, splZ 0%nat 1%nat x z == Zz.
Hypothesis Hdet : ~ Rx * Zz - Rz * Zx == 0.

Lemma Hnx0 : (0 < nx)%Z.
Proof. lia. Qed.

(** position of the index (x, z), 0 <= z < nz *)
Definition target_at (t : Q * Q) (x z : Q) : Prop :=
  fst t == R0 + Rx * x + Rz * (z + inject_Z nz) /\ snd t == Z0 + Zx * x + Zz * (z + inject_Z nz) /\ 0 <= z /\ z < inject_Z nz.

(** a point that has arrived *)
Definition arrived (x z : Q) (side : comparison) (p : pt) : Prop :=
  exists a c, px p = Fin a /\ pz p = Fin c /\
  match side with
  | Lt => pmask p = false /\ a == 0
  | Gt => pmask p = false /\ a == inject_Z nx - 1
  | Eq => pmask p = true /\ a == x /\ c == z /\ 1#2 <= x <= inject_Z nx - (3#2)
  end.

Lemma solve2 a b c d u v : ~ a * d - b * c == 0 -> a * u + b * v == 0 -> c * u + d * v == 0 -> u == 0 /\ v == 0.
Proof.
  intros Hd H1 H2. 
  assert (E1 : (a * d - b * c) * u == 0) by (transitivity (d * (a * u + b * v) - b * (c * u + d * v)); [ring|rewrite H1, H2; ring]).
  assert (E2 : (a * d - b * c) * v == 0) by (transitivity (a * (c * u + d * v) - c * (a * u + b * v)); [ring|rewrite H1, H2; ring]).
  split; [destruct (Qmult_integral _ _ E1)|destruct (Qmult_integral _ _ E2)]; auto; contradiction.
Qed.

Lemma det_here x z x' z' x'' z'' x3 z3 :
  ~ splR 1%nat 0%nat x z * splZ 0%nat 1%nat x' z' - splR 0%nat 1%nat x'' z'' * splZ 1%nat 0%nat x3 z3 == 0.
Proof. rewrite ARx, AZz, ARz, AZx. exact Hdet. Qed.

Lemma one_ne : ~ 1 == 0.
Proof. intros C. discriminate C. Qed.

(** masked points stay *)
Lemma stay ur x z side p t : ~ ur == 0 -> side <> Eq -> arrived x z side p ->
  arrived x z side (next nx nz splR splZ zneg ur (p, t)).
Proof.
  intros Hu Hs (a & c & Ea & Ec & H). destruct p as [pxp pzp m]. cbn [px pz pmask] in *. subst pxp pzp.
  unfold next, pos_of. cbn [fst snd px pz eval]. set (w := qrem c (inject_Z nz) + inject_Z nz).
  destruct side; [congruence|destruct H as [-> H]..].
  - destruct (newton_masked nx zneg Hnx ur a c t (splR 0%nat 0%nat a w) (splZ 0%nat 0%nat a w) _ _ _ _ Hu (det_here a w a w a w a w) (or_introl H)) as (x' & z' & E1 & E2 & E3 & E4 & E5).
    exists x', z'. repeat split; [exact E1|exact E3|exact E5|]. now rewrite E2.
  - destruct (newton_masked nx zneg Hnx ur a c t (splR 0%nat 0%nat a w) (splZ 0%nat 0%nat a w) _ _ _ _ Hu (det_here a w a w a w a w) (or_intror H)) as (x' & z' & E1 & E2 & E3 & E4 & E5).
    exists x', z'. repeat split; [exact E1|exact E3|exact E5|]. now rewrite E2.
Qed.

Definition side_of (x : Q) : comparison :=
  if Qlt_bool x (1#2) then Lt else if Qlt_bool (inject_Z nx - (3#2)) x then Gt else Eq.

(** a step of an interior point, 0 <= c < nz, brings it to the target *)
Lemma jump x z p t a c : target_at t x z -> pmask p = true -> px p = Fin a -> pz p = Fin c -> 0 <= c -> c < inject_Z nz ->
  arrived x z (side_of x) (next nx nz splR splZ zneg 1 (p, t)).
Proof.
  intros (T1 & T2 & _) Em Ea Ec C0 C1. destruct p as [pxp pzp m]. cbn [px pz pmask] in *. subst pxp pzp m.
  unfold next, pos_of. cbn [fst snd px pz eval]. set (w := qrem c (inject_Z nz) + inject_Z nz).
  assert (Ew : w == c + inject_Z nz) by (unfold w; rewrite qrem_small by assumption; reflexivity).
  destruct (newton_solves nx zneg Hnx 1 a c t (splR 0%nat 0%nat a w) (splZ 0%nat 0%nat a w) _ _ _ _ one_ne (det_here a w a w a w a w))
    as (x' & z' & S1 & S2 & E3 & H).
  rewrite ARx, ARz, AR, T1, Ew in S1. rewrite AZx, AZz, AZ, T2, Ew in S2.
  destruct (solve2 Rx Rz Zx Zz (x' - x) (z' - z) Hdet) as [U V].
  { setoid_replace (x' - x) with ((x' - a) - (x - a)) by ring. setoid_replace (z' - z) with ((z' - c) - (z - c)) by ring.
    setoid_replace (Rx * (x' - a - (x - a)) + Rz * (z' - c - (z - c))) with ((Rx * (x' - a) + Rz * (z' - c)) - Rx * (x - a) - Rz * (z - c)) by ring.
    rewrite S1. field. }
  { setoid_replace (x' - x) with ((x' - a) - (x - a)) by ring. setoid_replace (z' - z) with ((z' - c) - (z - c)) by ring.
    setoid_replace (Zx * (x' - a - (x - a)) + Zz * (z' - c - (z - c))) with ((Zx * (x' - a) + Zz * (z' - c)) - Zx * (x - a) - Zz * (z - c)) by ring.
    rewrite S2. field. }
  assert (Ex : x' == x) by lra. assert (Ez : z' == z) by lra. pose proof (two_le nx Hnx) as H2.
  unfold side_of. destruct H as [(B & E1 & E2)|[(B & E1 & E2)|(B & E1 & E2)]].
  - assert (Qlt_bool x (1#2) = true) as -> by (apply Qlt_bool_iff; lra).
    exists 0, z'. repeat split; [exact E1|exact E3|exact E2].
  - assert (Qlt_bool x (1#2) = false) as -> by (apply Qlt_bool_false_iff; lra).
    assert (Qlt_bool (inject_Z nx - (3#2)) x = true) as -> by (apply Qlt_bool_iff; lra).
    exists (inject_Z nx - 1), z'. repeat split; [exact E1|exact E3|exact E2].
  - assert (Qlt_bool x (1#2) = false) as -> by (apply Qlt_bool_false_iff; lra).
    assert (Qlt_bool (inject_Z nx - (3#2)) x = false) as -> by (apply Qlt_bool_false_iff; lra).
    exists x', z'. repeat split; [exact E1|exact E3|exact E2|exact Ex|exact Ez|lra|lra].
Qed.

Definition row (t : Q * Q) : Z := (nearest t / nz)%Z.
Lemma row_range t : (0 <= row t <= nx - 1)%Z.
Proof.
  unfold row. specialize (Hnear t). split; [apply Z.div_pos; lia|].
  assert (nearest t / nz < nx)%Z by (apply Z.div_lt_upper_bound; lia). lia.
Qed.
Definition side_at (t : Q * Q) (x : Q) : comparison :=
  if (row t =? 0)%Z then Lt else if (row t =? nx - 1)%Z then Gt else side_of x.

Lemma start_mask t : (0 < row t < nx - 1)%Z -> pmask (start nx nz nearest t) = true.
Proof.
  intros H. unfold start. cbn [pmask]. fold (row t). unfold low_x, high_x. cbn [flt].
  assert (A : inject_Z 1 <= inject_Z (row t)) by (rewrite <- Zle_Qle; lia).
  assert (B : inject_Z (row t) <= inject_Z (nx - 2)) by (rewrite <- Zle_Qle; lia).
  unfold Z.sub in B. rewrite inject_Z_plus, inject_Z_opp in B. change (inject_Z 1) with 1 in A. change (inject_Z 2) with 2 in B.
  assert (Qlt_bool (inject_Z (row t)) (1#2) = false) as -> by (apply Qlt_bool_false_iff; lra).
  assert (Qlt_bool (inject_Z nx - (3#2)) (inject_Z (row t)) = false) as -> by (apply Qlt_bool_false_iff; lra). reflexivity.
Qed.

Lemma start_low t x z : row t = 0%Z -> arrived x z Lt (start nx nz nearest t).
Proof.
  intros H. unfold start. fold (row t). rewrite H. do 2 eexists. cbn [px pz pmask]. repeat split.
Qed.
Lemma start_high t x z : row t = (nx - 1)%Z -> arrived x z Gt (start nx nz nearest t).
Proof.
  intros H. unfold start. fold (row t). do 2 eexists. cbn [px pz pmask]. split; [reflexivity|]. split; [reflexivity|].
  rewrite H. assert (E : inject_Z (nx - 1) == inject_Z nx - 1) by (unfold Z.sub; rewrite inject_Z_plus, inject_Z_opp; reflexivity).
  split; [|exact E]. unfold high_x. cbn [flt].
  assert (Qlt_bool (inject_Z nx - (3#2)) (inject_Z (nx - 1)) = true) as -> by (apply Qlt_bool_iff; lra).
  now rewrite orb_true_r.
Qed.

Lemma start_z t : exists c, pz (start nx nz nearest t) = Fin c /\ 0 <= c /\ c < inject_Z nz.
Proof.
  unfold start. cbn [pz]. eexists. split; [reflexivity|].
  replace (nearest t - nearest t / nz * nz)%Z with (nearest t mod nz)%Z by (rewrite Z.mod_eq by lia; lia).
  pose proof (Z.mod_pos_bound (nearest t) nz Hnz) as B. split.
  - change 0 with (inject_Z 0). rewrite <- Zle_Qle. lia.
  - rewrite <- Zlt_Qlt. lia.
Qed.

(** after the first step *)
Lemma first_step t x z : target_at t x z -> arrived x z (side_at t x) (next nx nz splR splZ zneg 1 (start nx nz nearest t, t)).
Proof.
  intros T. pose proof (row_range t) as B. unfold side_at.
  destruct (Z.eqb_spec (row t) 0) as [E|E].
  { apply stay; [exact one_ne|discriminate|]. now apply start_low. }
  destruct (Z.eqb_spec (row t) (nx - 1)) as [E'|E'].
  { apply stay; [exact one_ne|discriminate|]. now apply start_high. }
  destruct (start_z t) as (c & Ec & C0 & C1).
  apply (jump x z (start nx nz nearest t) t (inject_Z (row t)) c T); auto. apply start_mask. lia.
Qed.

(** and after the next ones *)
Lemma next_step t x z : target_at t x z -> forall p, arrived x z (side_at t x) p ->
  arrived x z (side_at t x) (next nx nz splR splZ zneg 1 (p, t)).
Proof.
  intros T p H. destruct (side_at t x) eqn:S1; [|apply stay; [exact one_ne|discriminate|exact H]..].
  destruct H as (a & c & Ea & Ec & Em & Xa & Xc & B). destruct T as (T1 & T2 & Z1 & Z2).
  assert (side_of x = Eq) as <-.
  { unfold side_at in S1. destruct (row t =? 0)%Z; [discriminate|]. destruct (row t =? nx - 1)%Z; [discriminate|]. exact S1. }
  apply (jump x z p t a c); auto; [repeat split; auto|now rewrite Xc|now rewrite Xc].
Qed.

Lemma still t x z p : target_at t x z -> arrived x z (side_at t x) p -> exists q, mis nz splR splZ (p, t) = Fin q /\ q == 0.
Proof.
  intros (T1 & T2 & Z1 & Z2) (a & c & Ea & Ec & H). unfold mis, mismatch, pos_of. cbn [fst snd].
  rewrite Ea, Ec. cbn [eval fsub fopp fadd fmul mval]. eexists. split; [reflexivity|].
  destruct (side_at t x); [|destruct H as [-> _]; ring..].
  destruct H as (Em & Xa & Xc & B). rewrite Em.
  assert (Ew : qrem c (inject_Z nz) == z) by (rewrite qrem_small; [exact Xc|exact Hnz|now rewrite Xc|now rewrite Xc]).
  rewrite AR, AZ, Ew, T1, T2, Xa. ring.
Qed.

Lemma famax_zero l m : Forall (fun v => exists q, v = Fin q /\ q == 0) l -> famax l = Ok m -> exists q, m = Fin q /\ q == 0.
Proof.
  destruct l as [|a l]; [discriminate|]. intros H [= <-]. inversion H as [|? ? Ha Hl]; subst. clear H. revert a Ha.
  induction l as [|b l IH]; intros a Ha; [exact Ha|]. cbn [fold_left]. inversion Hl as [|? ? Hb Hl']; subst. apply IH; [exact Hl'|].
  destruct Ha as (p & -> & Ep), Hb as (q & -> & Eq'). cbn [fmax2 flt]. destruct (Qlt_bool p q); eauto.
Qed.

Variable ts : list (Q * Q).
Variable xs zs : Q * Q -> Q.
Hypothesis Hts : Forall (fun t => target_at t (xs t) (zs t)) ts.
Hypothesis Hne : ts <> [].

Definition all_arrived (pts : list pt) : Prop := Forall2 (fun p t => arrived (xs t) (zs t) (side_at t (xs t)) p) pts ts.

Lemma all_first : all_arrived (map (next nx nz splR splZ zneg 1) (combine (map (start nx nz nearest) ts) ts)).
Proof.
  unfold all_arrived. clear Hne. induction ts as [|t l IH]; cbn; constructor.
  - inversion Hts; subst. now apply first_step.
  - apply IH. now inversion Hts.
Qed.
Lemma all_next pts : all_arrived pts -> all_arrived (map (next nx nz splR splZ zneg 1) (combine pts ts)).
Proof.
  unfold all_arrived. intros H. clear Hne. revert Hts. induction H as [|p t pts' l Hp Hl IH]; intros T; cbn; constructor.
  - inversion T; subst. now apply next_step.
  - apply IH. now inversion T.
Qed.
Lemma all_still pts v : all_arrived pts -> famax (map (mis nz splR splZ) (combine pts ts)) = Ok v -> exists q, v = Fin q /\ q == 0.
Proof.
  intros H. apply famax_zero. apply Forall_map. unfold all_arrived in H. clear Hne. revert Hts.
  induction H as [|p t pts' l Hp Hl IH]; intros T; cbn; constructor.
  - inversion T; subst. now apply (still t (xs t) (zs t) p).
  - apply IH. now inversion T.
Qed.

Notation srch := (search nx nz splR splZ zneg).
Notation good := (good nx).

Lemma arrive_end tol k : 0 < tol -> forall fuel cnt extra pts, all_arrived pts -> Forall good pts ->
  (Z.of_nat k = 3 - extra)%Z -> (0 <= extra)%Z -> (k < fuel)%nat -> (0 <= cnt)%Z -> (cnt + Z.of_nat k < 8)%Z ->
  exists out, srch fuel tol ts cnt 1 extra pts = Some (Ok out) /\ all_arrived out.
Proof.
  intros Ht. induction k as [|k IH]; intros fuel cnt extra pts A G He H0 Hf Hc Hk; (destruct fuel as [|fuel]; [lia|]).
  all: assert (L : length pts = length ts) by (clear -A; unfold all_arrived in A; induction A; cbn; congruence).
  all: assert (N : pts <> []) by (intros ->; destruct ts; [easy|discriminate]).
  all: destruct (search_step nx nz splR splZ zneg Hnx0 fuel tol ts cnt 1 extra pts G N L) as (val & Ev & ->).
  all: destruct (all_still pts val A Ev) as (q & -> & Eq').
  all: cbv zeta; assert (flt (Fin q) (Fin tol) = true) as -> by (cbn; apply Qlt_bool_iff; lra); cbn [andb negb].
  - destruct (Z.ltb_spec 3 (extra + 1)); [|lia]. eauto.
  - destruct (Z.ltb_spec 3 (extra + 1)); [lia|]. destruct (Z.eqb_spec (cnt + 1) 1000); [lia|].
    assert (relax (cnt + 1) 1 = 1) as ->.
    { unfold relax. destruct (Z.eqb_spec (cnt + 1) 10), (Z.eqb_spec (cnt + 1) 100), (Z.eqb_spec (cnt + 1) 300), (Z.eqb_spec (cnt + 1) 700); try lia; reflexivity. }
    apply IH; [now apply all_next| |lia|lia|lia|lia|lia]. now apply next_good.
Qed.

Lemma affine_find tol fuel : 0 < tol -> (5 <= fuel)%nat ->
  exists l, findIndex nx nz splR splZ nearest zneg fuel ts tol = Some (Ok l) /\
  Forall2 (fun t p => affine_answer nx (nearest t / nz) (xs t) (zs t) p) ts l.
Proof.
  intros Ht Hf. unfold findIndex.
  assert (G : Forall good (map (start nx nz nearest) ts)) by (now apply starts_good).
  assert (N : map (start nx nz nearest) ts <> []) by (destruct ts; [easy|discriminate]).
  destruct fuel as [|fuel]; [lia|].
  destruct (search_step nx nz splR splZ zneg Hnx0 fuel tol ts 0 1 0 _ G N (map_length _ _)) as (val & Ev & ->).
  cbv zeta. change (relax (0 + 1) 1) with 1.
  assert (K : exists out, srch fuel tol ts (0 + 1) 1 (if flt val (Fin tol) then (0 + 1)%Z else 0%Z)
     (map (next nx nz splR splZ zneg 1) (combine (map (start nx nz nearest) ts) ts)) = Some (Ok out) /\ all_arrived out).
  { destruct (flt val (Fin tol)).
    - apply (arrive_end tol 2 Ht); [apply all_first| |lia|lia|lia|lia|lia]. now apply next_good.
    - apply (arrive_end tol 3 Ht); [apply all_first| |lia|lia|lia|lia|lia]. now apply next_good. }
  destruct K as (out & Eo & A). exists (map (mark nx) out). split.
  { destruct (flt val (Fin tol)); cbn [andb negb]; (destruct (0 + 1 =? 1000)%Z eqn:C; [discriminate C|]); cbn; cbn in Eo; rewrite Eo; reflexivity. }
  clear -A Hts Hnx Hnear Hnz. unfold all_arrived in A. clear Hts.
  induction A as [|p t out' l Hp Hl IH]; cbn [map]; constructor; [|exact IH].
  pose proof (two_le nx Hnx) as H2. pose proof (row_range t) as RR. fold (row t) in *.
  destruct Hp as (a & c & Ea & Ec & H). unfold mark. rewrite Ea, Ec.
  unfold side_at in H. unfold low_x, high_x. cbn [flt].
  assert (LO : a == 0 -> Qlt_bool a (1#2) = true) by (intros; apply Qlt_bool_iff; lra).
  assert (HI : a == inject_Z nx - 1 -> Qlt_bool a (1#2) = false /\ Qlt_bool (inject_Z nx - (3#2)) a = true).
  { intros. split; [apply Qlt_bool_false_iff; lra|apply Qlt_bool_iff; lra]. }
  assert (M1 : Qlt_bool (inject_Z nx - (3#2)) (-(1)) = false) by (apply Qlt_bool_false_iff; lra).
  destruct (Z.eqb_spec (row t) 0) as [E|E].
  { destruct H as [_ H]. rewrite (LO H). cbn [flt]. rewrite M1. do 2 eexists. split; [reflexivity|].
    split; [reflexivity|]. split; [intros [C|[C _]]; exfalso; lia|intros; exfalso; lia]. }
  destruct (Z.eqb_spec (row t) (nx - 1)) as [E'|E'].
  { destruct H as [_ H]. destruct (HI H) as [-> I2]. cbn [flt]. rewrite I2. do 2 eexists. split; [reflexivity|].
    split; [intros [C|[C _]]; exfalso; lia|]. split; [reflexivity|intros; exfalso; lia]. }
  unfold side_of in H. destruct (Qlt_bool (xs t) (1#2)) eqn:X1.
  { apply Qlt_bool_iff in X1. destruct H as [_ H]. rewrite (LO H). cbn [flt]. rewrite M1. do 2 eexists. split; [reflexivity|].
    split; [reflexivity|]. split; [intros [C|[_ C]]; [exfalso; lia|lra]|intros _ [C _]; lra]. }
  apply Qlt_bool_false_iff in X1. destruct (Qlt_bool (inject_Z nx - (3#2)) (xs t)) eqn:X2.
  { apply Qlt_bool_iff in X2. destruct H as [_ H]. destruct (HI H) as [-> I2]. cbn [flt]. rewrite I2. do 2 eexists. split; [reflexivity|].
    split; [intros [C|[_ C]]; [exfalso; lia|lra]|]. split; [reflexivity|intros _ [_ C]; lra]. }
  apply Qlt_bool_false_iff in X2. destruct H as (_ & Xa & Xc & _).
  assert (Qlt_bool a (1#2) = false) as -> by (apply Qlt_bool_false_iff; lra). cbn [flt].
  assert (Qlt_bool (inject_Z nx - (3#2)) a = false) as -> by (apply Qlt_bool_false_iff; lra).
  do 2 eexists. split; [reflexivity|]. split; [intros [C|[_ C]]; [exfalso; lia|lra]|].
  split; [intros [C|[_ C]]; [exfalso; lia|lra]|]. intros _ _. split; assumption.
Qed.
End A.
