(** The assembled operator: getSame, doit, rectangular grids, write and load. *)
From Coq Require Import List ZArith QArith Bool Lia Lqa String.
From Verif Require Import Prelude PreludeFacts PolModel DagpModel DagpSpec DagpProofs DagpLinear DagpThms
  DagpVolume.
Import ListNotations.
Open Scope Q_scope.

(** ** getSame *)

Lemma fold_min_le l a : fold_left qmin l a <= a /\ (forall x, In x l -> fold_left qmin l a <= x).
Proof.
  revert a. induction l as [|b l IH]; intros a; cbn [fold_left].
  - split; [lra|]. intros x [].
  - destruct (IH (qmin a b)) as [H1 H2].
    assert (Hm : qmin a b <= a /\ qmin a b <= b).
    { unfold qmin. destruct (Qle_bool a b) eqn:E; [apply Qle_bool_iff in E|apply Qle_bool_false_iff in E]; lra. }
    split; [lra|]. intros x [<-|Hx]; [lra|]. apply H2. exact Hx.
Qed.
Lemma fold_max_ge l a : a <= fold_left qmax l a /\ (forall x, In x l -> x <= fold_left qmax l a).
Proof.
  revert a. induction l as [|b l IH]; intros a; cbn [fold_left].
  - split; [lra|]. intros x [].
  - destruct (IH (qmax a b)) as [H1 H2].
    assert (Hm : a <= qmax a b /\ b <= qmax a b).
    { unfold qmax. destruct (Qle_bool a b) eqn:E; [apply Qle_bool_iff in E|apply Qle_bool_false_iff in E]; lra. }
    split; [lra|]. intros x [<-|Hx]; [lra|]. apply H2. exact Hx.
Qed.

Lemma fold_same (op : Q -> Q -> Q) (Hop : forall a b, op a b = a \/ op a b = b) l a v :
  (forall x, In x (a :: l) -> x == v) -> fold_left op l a == v.
Proof.
  revert a. induction l as [|b l IH]; intros a H; cbn [fold_left]; [apply H; now left|].
  apply IH. intros x [<-|Hx]; [|apply H; right; now right].
  destruct (Hop a b) as [-> | ->]; apply H; [left|right; left]; reflexivity.
Qed.
Lemma qmin_or a b : qmin a b = a \/ qmin a b = b.
Proof. unfold qmin. destruct (Qle_bool a b); auto. Qed.
Lemma qmax_or a b : qmax a b = a \/ qmax a b = b.
Proof. unfold qmax. destruct (Qle_bool a b); auto. Qed.

Lemma getSame_all l v : l <> [] -> (forall x, In x l -> x == v) -> exists w, getSame l = Ok w /\ w == v.
Proof.
  intros Hne H. destruct l as [|a l]; [congruence|]. unfold getSame.
  assert (E1 := fold_same qmin qmin_or l a v H). assert (E2 := fold_same qmax qmax_or l a v H).
  exists (fold_left qmin l a). split; [|exact E1].
  cbv zeta. replace (Qeq_bool _ _) with true; [reflexivity|].
  symmetry. apply Qeq_bool_iff. rewrite E1, E2. reflexivity.
Qed.
Lemma getSame_inv l v : getSame l = Ok v -> l <> [] /\ forall x, In x l -> x == v.
Proof.
  destruct l as [|a l]; [discriminate|]. unfold getSame. cbv zeta.
  destruct (Qeq_bool _ _) eqn:E; [|discriminate]. cbn [negb]. intros H. injection H as <-.
  apply Qeq_bool_iff in E. split; [discriminate|].
  destruct (fold_min_le l a) as [H1 H2]. destruct (fold_max_ge l a) as [H3 H4].
  intros x [<-|Hx]; [lra|]. specialize (H2 x Hx). specialize (H4 x Hx). lra.
Qed.
Lemma getSame_err l e : getSame l = Err e -> e = ValueError.
Proof.
  destruct l; cbn; [congruence|]. destruct (negb _); congruence.
Qed.

(** ** doit *)

Lemma pol_of_in pols j : (0 <= j < Z.of_nat (List.length pols))%Z -> In (pol_of pols j) pols.
Proof. intros H. unfold pol_of. apply nth_In. lia. Qed.

Lemma common_Lz_inv pols Lz : common_Lz pols = Ok Lz ->
  pols <> [] /\ forall p, In p pols ->
    match Lz with Some l => exists l', p_Lz p = Some l' /\ l' == l | None => p_Lz p = None end.
Proof.
  unfold common_Lz. destruct (getSame (map is_rect pols)) as [r|e] eqn:E; [|discriminate].
  cbn [bind]. apply getSame_inv in E. destruct E as [Hne Hr].
  assert (Hp : pols <> []) by (intros ->; apply Hne; reflexivity).
  destruct (Qeq_bool r 1) eqn:E1.
  - destruct (getSame (map lz_of pols)) as [l|e] eqn:E2; [|discriminate]. cbn [bind].
    intros H. injection H as <-. apply getSame_inv in E2. destruct E2 as [_ Hl].
    split; [exact Hp|]. intros p Hin.
    assert (Hi : is_rect p == r) by (apply Hr, in_map, Hin).
    apply Qeq_bool_iff in E1. rewrite E1 in Hi. unfold is_rect in Hi.
    specialize (Hl (lz_of p) (in_map _ _ _ Hin)). unfold lz_of in Hl.
    destruct (p_Lz p) as [l'|]; [|exfalso; lra]. exists l'. split; [reflexivity|exact Hl].
  - intros H. injection H as <-. split; [exact Hp|]. intros p Hin.
    assert (Hi : is_rect p == r) by (apply Hr, in_map, Hin).
    unfold is_rect in Hi. destruct (p_Lz p) as [l'|]; [|reflexivity].
    exfalso. apply Qeq_bool_neq in E1. apply E1. symmetry. exact Hi.
Qed.

Lemma doit_inv sqrt junk pols s vol cX cZ : doit sqrt junk pols s = Ok (vol, cX, cZ) ->
  exists Lz nx nz,
    common_Lz pols = Ok Lz /\ pols <> [] /\ (4 <= nx)%Z /\
    (forall p, In p pols -> p_nx p = nx /\ p_nz p = nz) /\
    coefficients sqrt s Lz nx (Z.of_nat (List.length pols)) nz (pol_of pols) = Ok (cX, cZ) /\
    vol = volume junk s nx (pol_of pols).
Proof.
  unfold doit. destruct (common_Lz pols) as [Lz|e] eqn:E; [|discriminate]. cbn [bind].
  set (nx := p_nx (pol_of pols 0)). set (nz := p_nz (pol_of pols 0)).
  destruct (forallb _ pols) eqn:E1; [|discriminate]. cbn [negb].
  destruct (nx <? 2)%Z eqn:E2; [discriminate|].
  destruct (2 <? nx - 1)%Z eqn:E3; [|discriminate]. cbn [negb]. cbv zeta.
  destruct (coefficients _ _ _ _ _ _ _) as [[x z]|e] eqn:E4; [|discriminate]. cbn [bind fst snd].
  intros H. injection H as <- <- <-. exists Lz, nx, nz.
  split; [reflexivity|]. split; [apply (common_Lz_inv _ _ E)|].
  split; [apply Z.ltb_lt in E3; lia|]. split; [|split; [exact E4|reflexivity]].
  intros p Hp. rewrite forallb_forall in E1. specialize (E1 p Hp).
  apply andb_true_iff in E1. destruct E1 as [A B]. apply Z.eqb_eq in A, B. split; assumption.
Qed.

(** ** Rectangular grids *)

Definition is_rect_grid (nx nz : Z) (Lz : Q) (r : rect) : Prop :=
  r_nx r = nx /\ r_nz r = nz /\ r_dZ r == Lz / inject_Z nz /\ ~ r_dR r == 0.

Notation wt := major_radius.

Section Rect.
Variables (sqrt : Q -> Q) (s : bool) (r : rect) (nx nz : Z) (Lz : Q).
Hypothesis Hs : root_like sqrt.
Hypothesis Hr : is_rect_grid nx nz Lz r.
Hypothesis Hnz : (3 <= nz)%Z.
Hypothesis HL : 0 < Lz.
Let p := of_rect r Lz.

Lemma injnz : 3 <= inject_Z nz.
Proof. change 3 with (inject_Z 3). rewrite <- Zle_Qle. exact Hnz. Qed.
Lemma dZ_pos : 0 < r_dZ r.
Proof.
  destruct Hr as (_ & _ & E & _). rewrite E. assert (H := injnz).
  apply Qlt_shift_div_l; [lra|]. lra.
Qed.
Lemma dZ_L : inject_Z nz * r_dZ r == Lz.
Proof. destruct Hr as (_ & _ & E & _). rewrite E. assert (H := injnz). field. lra. Qed.

Lemma rect_faces : faces_proper p.
Proof.
  assert (Hz := dZ_pos). destruct Hr as (_ & _ & _ & Hd).
  intros i k m _ _ _. unfold p. rewrite !of_rect_coord. assert (E := eleventh_S m). split.
  - intros [_ H]. cbn [snd] in H. rewrite E in H.
    assert ((1#11) * r_dZ r == 0) by lra. lra.
  - intros _ [H _]. cbn [fst] in H. rewrite E in H. apply Hd.
    assert ((1#11) * r_dR r == 0) by lra. lra.
Qed.

Lemma line_lin_x i k : line (hR s) (fx p i k) == wt s r (inject_Z i + (1#2)) * r_dZ r
  /\ line (hZ s) (fx p i k) == 0.
Proof.
  split.
  - rewrite (line_const _ _ (wt s r (inject_Z i + (1#2)) * r_dZ r / 11)); [field|].
    intros m _. unfold hR, weight, major_radius, fx, p. rewrite !of_rect_coord. cbn [fst snd].
    assert (E := eleventh_S m). destruct s; rewrite E; field.
  - rewrite (line_const _ _ 0); [ring|].
    intros m _. unfold hZ, weight, fx, p. rewrite !of_rect_coord. cbn [fst snd]. destruct s; field.
Qed.

Lemma line_lin_z i k : line (hR s) (fz p i k) == 0
  /\ line (hZ s) (fz p i k) == - (wt s r (inject_Z i + 1) * r_dR r).
Proof.
  split.
  - rewrite (line_const _ _ 0); [ring|].
    intros m _. unfold hR, weight, fz, p. rewrite !of_rect_coord. cbn [fst snd]. destruct s; field.
  - destruct (fz_start p (of_rect_ext r Lz) i k) as [A _]. destruct (fz_end p (of_rect_ext r Lz) i k) as [B _].
    unfold corner, p in *. rewrite of_rect_coord in A, B. cbn [fst] in A, B. unfold major_radius.
    destruct s; [rewrite line_hZ_slab|rewrite line_hZ_tor]; rewrite A, B; field.
Qed.

Lemma unwrap_zero : unwrap1 (Some Lz) 0 = 0.
Proof.
  unfold unwrap1. replace (Qlt_bool 0 (- Lz / 2)) with false.
  - replace (Qlt_bool (Lz / 2) 0) with false; [reflexivity|].
    symmetry. apply Qlt_bool_false_iff. apply Qle_shift_div_l; lra.
  - symmetry. apply Qlt_bool_false_iff. apply Qle_shift_div_r; lra.
Qed.

Lemma half_div (a : Q) : a / 2 == (1#2) * a. Proof. field. Qed.
Lemma unwrap1_cases d : unwrap1 (Some Lz) d ==
  (if Qlt_le_dec d (- (1#2) * Lz) then (if Qlt_le_dec ((1#2) * Lz) (d + Lz) then d else d + Lz)
   else if Qlt_le_dec ((1#2) * Lz) d then d - Lz else d).
Proof.
  unfold unwrap1. assert (E1 : - Lz / 2 == - (1#2) * Lz) by field. assert (E2 : Lz / 2 == (1#2) * Lz) by field.
  destruct (Qlt_bool d (- Lz / 2)) eqn:A; [apply Qlt_bool_iff in A|apply Qlt_bool_false_iff in A];
    rewrite E1 in A; destruct (Qlt_le_dec d (- (1#2) * Lz)) as [A'|A']; try (exfalso; lra).
  - destruct (Qlt_bool (Lz / 2) (d + Lz)) eqn:B; [apply Qlt_bool_iff in B|apply Qlt_bool_false_iff in B];
      rewrite E2 in B; destruct (Qlt_le_dec ((1#2) * Lz) (d + Lz)); try (exfalso; lra); first [reflexivity|ring].
  - destruct (Qlt_bool (Lz / 2) d) eqn:B; [apply Qlt_bool_iff in B|apply Qlt_bool_false_iff in B];
      rewrite E2 in B; destruct (Qlt_le_dec ((1#2) * Lz) d); try (exfalso; lra); reflexivity.
Qed.

Lemma mod_up k : (0 <= k < nz)%Z -> ((k + 1) mod nz = k + 1 \/ (k = nz - 1 /\ (k + 1) mod nz = 0))%Z.
Proof.
  intros H. destruct (Z.eq_dec k (nz - 1)) as [->|N].
  - right. split; [reflexivity|]. replace (nz - 1 + 1)%Z with nz by lia. apply Z.mod_same. lia.
  - left. apply Z.mod_small. lia.
Qed.
Lemma mod_down k : (0 <= k < nz)%Z -> ((k - 1) mod nz = k - 1 \/ (k = 0 /\ (k - 1) mod nz = nz - 1))%Z.
Proof.
  intros H. destruct (Z.eq_dec k 0) as [->|N].
  - right. split; [reflexivity|].
    replace (0 - 1)%Z with ((nz - 1) + (-1) * nz)%Z by lia. rewrite Z_mod_plus_full, Z.mod_small; lia.
  - left. apply Z.mod_small. lia.
Qed.

(** The distance between the neighbours above and below, as the code sees it. *)
Lemma dz_two_nonzero k : (0 <= k < nz)%Z ->
  ~ unwrap1 (Some Lz) ((r_Zmin r + inject_Z ((k + 1) mod nz) * r_dZ r)
                     - (r_Zmin r + inject_Z ((k - 1) mod nz) * r_dZ r)) == 0.
Proof.
  intros Hk. assert (Hz := dZ_pos). assert (EL := dZ_L). assert (Hn := injnz).
  set (d := r_dZ r) in *. set (N := inject_Z nz) in *.
  assert (D : exists t, (r_Zmin r + inject_Z ((k + 1) mod nz) * d)
                     - (r_Zmin r + inject_Z ((k - 1) mod nz) * d) == t * d /\
                     (t == 2 \/ t == 2 - N)).
  { destruct (mod_up k Hk) as [-> | [Eu ->]], (mod_down k Hk) as [-> | [Ed ->]].
    - exists 2. split; [|left; reflexivity]. rewrite inj_pred, inject_Z_plus. change (inject_Z 1) with 1. ring.
    - exists (2 - N). split; [|right; reflexivity]. subst k. rewrite inj_pred. cbn [Z.add].
      change (inject_Z 1) with 1. fold N. ring.
    - exists (2 - N). split; [|right; reflexivity]. subst k. rewrite !inj_pred. fold N.
      change (inject_Z 0) with 0. ring.
    - exfalso. lia. }
  destruct D as (t & Et & Ht). 
  assert (Hu := unwrap1_cases ((r_Zmin r + inject_Z ((k + 1) mod nz) * d)
                     - (r_Zmin r + inject_Z ((k - 1) mod nz) * d))).
  set (x := (r_Zmin r + inject_Z ((k + 1) mod nz) * d) - (r_Zmin r + inject_Z ((k - 1) mod nz) * d)) in *.
  intros H0. rewrite H0 in Hu. clear H0.
  assert (X : x == 2 * d \/ x == 2 * d - Lz).
  { destruct Ht as [Ht|Ht]; [left|right]; rewrite Et, Ht; [reflexivity|]. rewrite <- EL. ring. }
  assert (L3 : 3 * d <= Lz) by (rewrite <- EL; nra).
  destruct (Qlt_le_dec x _); [destruct (Qlt_le_dec _ (x + Lz))|destruct (Qlt_le_dec _ x)];
    destruct X as [X|X]; rewrite X in *; lra.
Qed.

Lemma dz_one k : (0 <= k < nz)%Z ->
  unwrap1 (Some Lz) ((r_Zmin r + inject_Z ((k + 1) mod nz) * r_dZ r) - (r_Zmin r + inject_Z k * r_dZ r))
  == r_dZ r.
Proof.
  intros Hk. assert (Hz := dZ_pos). assert (EL := dZ_L). assert (Hn := injnz).
  rewrite unwrap1_cases. set (d := r_dZ r) in *.
  set (x := (r_Zmin r + inject_Z ((k + 1) mod nz) * d) - (r_Zmin r + inject_Z k * d)).
  assert (X : x == d \/ x == d - Lz).
  { unfold x. destruct (mod_up k Hk) as [-> | [Eu ->]].
    - left. rewrite inject_Z_plus. change (inject_Z 1) with 1. ring.
    - right. subst k. rewrite inj_pred, <- EL. change (inject_Z 0) with 0. ring. }
  assert (L3 : 3 * d <= Lz) by (rewrite <- EL; nra).
  destruct (Qlt_le_dec x _); [destruct (Qlt_le_dec _ (x + Lz))|destruct (Qlt_le_dec _ x)];
    destruct X as [X|X]; rewrite X in *; lra.
Qed.
End Rect.

Lemma solve_ok n ny nz dx dz b :
  (forall i j k, (0 <= i < n)%Z -> (0 <= j < ny)%Z -> (0 <= k < nz)%Z ->
     ~ fst (dx i j k) * snd (dz i j k) - fst (dz i j k) * snd (dx i j k) == 0) ->
  exists c, solve n ny nz dx dz b = Ok c.
Proof.
  intros H. unfold solve. replace (forallb _ _) with true; [eexists; reflexivity|].
  symmetry. apply forallb_forall. intros [[i j] k] Hin. apply in_indices in Hin.
  destruct Hin as (Hi & Hj & Hk). unfold solve2.
  destruct (Qeq_bool _ 0) eqn:E; [|reflexivity]. apply Qeq_bool_iff in E.
  exfalso. exact (H i j k Hi Hj Hk E).
Qed.

Lemma unwrap1_proper L d d' : d == d' -> unwrap1 L d == unwrap1 L d'.
Proof.
  intros E. destruct L as [L|]; [|exact E]. unfold unwrap1.
  assert (C : forall a b a' b', a == a' -> b == b' -> Qlt_bool a b = Qlt_bool a' b').
  { intros a b a' b' Ha Hb. destruct (Qlt_bool a b) eqn:X, (Qlt_bool a' b') eqn:Y; try reflexivity;
      rewrite ?Qlt_bool_iff, ?Qlt_bool_false_iff in *; lra. }
  rewrite (C d (- L / 2) d' (- L / 2)) by (first [exact E|reflexivity]).
  destruct (Qlt_bool d' (- L / 2)).
  - rewrite (C (L / 2) (d + L) (L / 2) (d' + L)) by (first [rewrite E; reflexivity|reflexivity]).
    destruct (Qlt_bool _ _); rewrite E; reflexivity.
  - rewrite (C (L / 2) d (L / 2) d') by (first [exact E|reflexivity]).
    destruct (Qlt_bool _ _); rewrite ?E; reflexivity.
Qed.

Lemma unwrap1_L L L' d : L == L' -> unwrap1 (Some L) d == unwrap1 (Some L') d.
Proof.
  intros E. unfold unwrap1.
  assert (C : forall a b a' b', a == a' -> b == b' -> Qlt_bool a b = Qlt_bool a' b').
  { intros a b a' b' Ha Hb. destruct (Qlt_bool a b) eqn:X, (Qlt_bool a' b') eqn:Y; try reflexivity;
      rewrite ?Qlt_bool_iff, ?Qlt_bool_false_iff in *; lra. }
  rewrite (C d (- L / 2) d (- L' / 2)) by (first [rewrite E; reflexivity|reflexivity]).
  destruct (Qlt_bool d (- L' / 2)).
  - rewrite (C (L / 2) (d + L) (L' / 2) (d + L')) by (rewrite E; reflexivity).
    destruct (Qlt_bool _ _); rewrite ?E; reflexivity.
  - rewrite (C (L / 2) d (L' / 2) d) by (first [rewrite E; reflexivity|reflexivity]).
    destruct (Qlt_bool _ _); rewrite ?E; reflexivity.
Qed.

Lemma rectangular_grid nx nz Lz r : (0 < nz)%Z -> rectangular nx nz Lz r -> is_rect_grid nx nz Lz r.
Proof.
  intros Hz (Lx & Rc & Zc & MXG & HL & H). unfold rect_init in H.
  destruct (nx - 2 * MXG =? 0)%Z eqn:E1; [discriminate|].
  destruct (nz =? 0)%Z eqn:E2; [discriminate|]. injection H as <-.
  unfold is_rect_grid. cbn [r_nx r_nz r_dZ r_dR].
  split; [reflexivity|]. split; [reflexivity|]. split; [reflexivity|].
  intros E. apply HL. apply Z.eqb_neq in E1.
  assert (N : ~ inject_Z (nx - 2 * MXG) == 0).
  { intros C. apply E1. unfold Qeq, inject_Z in C. cbn [Qnum Qden] in C. lia. }
  rewrite <- (Qmult_div_r Lx (inject_Z (nx - 2 * MXG)) N), E. ring.
Qed.

Lemma fold_const (op : Q -> Q -> Q) (Hop : forall a b, op a b = a \/ op a b = b) l v :
  (forall x, In x l -> x = v) -> fold_left op l v = v.
Proof.
  induction l as [|b l IH]; intros H; cbn [fold_left]; [reflexivity|].
  replace (op v b) with v; [apply IH; intros x Hx; apply H; now right|].
  rewrite (H b (or_introl eq_refl)). destruct (Hop v v) as [-> | ->]; reflexivity.
Qed.
Lemma getSame_const l v : l <> [] -> (forall x, In x l -> x = v) -> getSame l = Ok v.
Proof.
  intros Hne H. destruct l as [|a l]; [congruence|]. unfold getSame. cbv zeta.
  rewrite (H a (or_introl eq_refl)).
  assert (H' : forall x, In x l -> x = v) by (intros x Hx; apply H; now right).
  rewrite (fold_const qmin qmin_or l v H'), (fold_const qmax qmax_or l v H').
  replace (Qeq_bool v v) with true; [reflexivity|]. symmetry. apply Qeq_bool_iff. reflexivity.
Qed.

Lemma common_Lz_rect rs Lz : rs <> [] -> common_Lz (map (fun r => of_rect r Lz) rs) = Ok (Some Lz).
Proof.
  intros Hne. unfold common_Lz. rewrite (getSame_const _ 1).
  - cbn [bind]. change (Qeq_bool 1 1) with true. rewrite (getSame_const _ Lz); [reflexivity| |].
    + destruct rs; [congruence|discriminate].
    + intros x Hx. rewrite map_map in Hx. apply in_map_iff in Hx. destruct Hx as (r & <- & _). reflexivity.
  - destruct rs; [congruence|discriminate].
  - intros x Hx. rewrite map_map in Hx. apply in_map_iff in Hx. destruct Hx as (r & <- & _). reflexivity.
Qed.

Lemma pol_of_map rs Lz j : (0 <= j < Z.of_nat (List.length rs))%Z ->
  pol_of (map (fun r => of_rect r Lz) rs) j = of_rect (nth (Z.to_nat j) rs rect0) Lz.
Proof.
  intros H. unfold pol_of. rewrite (nth_indep _ default_pol (of_rect rect0 Lz)) by (rewrite map_length; lia).
  apply (map_nth (fun r => of_rect r Lz)).
Qed.

Section RectOp.
Variables (sqrt : Q -> Q) (s : bool) (rs : list rect) (nx nz : Z) (Lz : Q).
Hypothesis Hs : root_like sqrt.
Hypothesis Hrs : forall r, In r rs -> is_rect_grid nx nz Lz r.
Hypothesis Hnx : (4 <= nx)%Z.
Hypothesis Hnz : (3 <= nz)%Z.
Hypothesis HL : 0 < Lz.
Hypothesis Hne : rs <> [].
Let pols := map (fun r => of_rect r Lz) rs.
Let ny := Z.of_nat (List.length rs).
Let RZ := points (pol_of pols).
Let rj j := nth (Z.to_nat j) rs rect0.

Lemma RZ_at i j k : (0 <= j < ny)%Z ->
  RZ i j k = (r_Rmin (rj j) + inject_Z i * r_dR (rj j), r_Zmin (rj j) + inject_Z k * r_dZ (rj j)).
Proof. intros Hj. unfold RZ, points, pols. rewrite pol_of_map by exact Hj. reflexivity. Qed.
Lemma rj_grid j : (0 <= j < ny)%Z -> is_rect_grid nx nz Lz (rj j).
Proof. intros Hj. apply Hrs. unfold rj. apply nth_In. unfold ny in Hj. lia. Qed.
Lemma unwrap_same a b : a == b -> unwrap1 (Some Lz) (a - b) == 0.
Proof.
  intros E. rewrite (unwrap1_proper _ (a - b) 0) by (rewrite E; ring). now rewrite unwrap_zero.
Qed.

(** The difference vectors. *)
Lemma vec_dx_x i j k : (0 <= j < ny)%Z -> same_point (dx_at_x RZ i j k) (r_dR (rj j), 0).
Proof.
  intros Hj. unfold dx_at_x, vsub. rewrite !RZ_at by exact Hj. split; cbn [fst snd].
  - rewrite inject_Z_plus. change (inject_Z 1) with 1. ring.
  - ring.
Qed.
Lemma vec_dz_x i j k : (0 <= j < ny)%Z -> (0 <= k < nz)%Z ->
  fst (dz_at_x nz (Some Lz) RZ i j k) == 0 /\ ~ snd (dz_at_x nz (Some Lz) RZ i j k) == 0.
Proof.
  intros Hj Hk. unfold dz_at_x, vsub, vadd, vscale, roll, unwrap. cbv zeta beta.
  rewrite !RZ_at by exact Hj. cbn [fst snd]. replace (k - -1)%Z with (k + 1)%Z by lia.
  split.
  - rewrite !unwrap_same by reflexivity. ring.
  - intros E. apply (dz_two_nonzero (rj j) nx nz Lz (rj_grid j Hj) Hnz HL k Hk).
    set (u := unwrap1 _ _) in *. lra.
Qed.
Lemma vec_dx_z i j k : (0 <= j < ny)%Z -> same_point (dx_at_z nz RZ i j k) (2 * r_dR (rj j), 0).
Proof.
  intros Hj. unfold dx_at_z, vsub, vadd, vscale, roll. cbv zeta beta.
  rewrite !RZ_at by exact Hj. split; cbn [fst snd].
  - rewrite inject_Z_plus. change (inject_Z 2) with 2. ring.
  - ring.
Qed.
Lemma vec_dz_z i j k : (0 <= j < ny)%Z -> (0 <= k < nz)%Z ->
  same_point (dz_at_z nz (Some Lz) RZ i j k) (0, r_dZ (rj j)).
Proof.
  intros Hj Hk. unfold dz_at_z, vsub, roll, unwrap. cbv zeta beta.
  rewrite !RZ_at by exact Hj. cbn [fst snd]. replace (k - -1)%Z with (k + 1)%Z by lia.
  split; cbn [fst snd].
  - apply unwrap_same. reflexivity.
  - apply (dz_one (rj j) nx nz Lz (rj_grid j Hj) Hnz HL k Hk).
Qed.

Lemma rect_solves : exists cX cZ,
  coefficients sqrt s (Some Lz) nx ny nz (pol_of pols) = Ok (cX, cZ).
Proof.
  unfold coefficients. cbv zeta. fold RZ.
  destruct (solve_ok (nx - 1) ny nz (dx_at_x RZ) (dz_at_x nz (Some Lz) RZ)
     (fun i j k => normal sqrt s rot_x (face_x (pol_of pols j) i k))) as [cX EX].
  { intros i j k Hi Hj Hk. destruct (vec_dx_x i j k Hj) as [A1 A2]. destruct (vec_dz_x i j k Hj Hk) as [B1 B2].
    cbn [fst snd] in *. destruct (rj_grid j Hj) as (_ & _ & _ & Hd).
    rewrite A1, A2, B1. intros E. assert (E' : r_dR (rj j) * snd (dz_at_x nz (Some Lz) RZ i j k) == 0) by lra.
    apply Qmult_integral in E'. tauto. }
  rewrite EX. cbn [bind].
  destruct (solve_ok (nx - 2) ny nz (dx_at_z nz RZ) (dz_at_z nz (Some Lz) RZ)
     (fun i j k => normal sqrt s rot_z (face_z (pol_of pols j) i k))) as [cZ EZ].
  { intros i j k Hi Hj Hk. destruct (vec_dx_z i j k Hj) as [A1 A2]. destruct (vec_dz_z i j k Hj Hk) as [B1 B2].
    cbn [fst snd] in *. destruct (rj_grid j Hj) as (_ & _ & _ & Hd).
    assert (Hz := dZ_pos (rj j) nx nz Lz (rj_grid j Hj) Hnz HL).
    rewrite A1, A2, B1, B2. intros E. assert (E' : r_dR (rj j) * r_dZ (rj j) == 0) by lra.
    apply Qmult_integral in E'. destruct E' as [E'|E']; [tauto|lra]. }
  rewrite EZ. cbn [bind]. eexists. eexists. reflexivity.
Qed.

Lemma rect_doit junk : exists cX cZ,
  doit sqrt junk pols s = Ok (volume junk s nx (pol_of pols), cX, cZ) /\
  coefficients sqrt s (Some Lz) nx ny nz (pol_of pols) = Ok (cX, cZ).
Proof.
  destruct rect_solves as (cX & cZ & E). exists cX, cZ. split; [|exact E].
  unfold doit. unfold pols at 1. rewrite common_Lz_rect by exact Hne. cbn [bind].
  assert (Hin : forall p, In p pols -> p_nx p = nx /\ p_nz p = nz).
  { intros p Hp. unfold pols in Hp. apply in_map_iff in Hp. destruct Hp as (r & <- & Hr).
    destruct (Hrs r Hr) as (A & B & _). split; assumption. }
  assert (H0 : In (pol_of pols 0) pols).
  { apply pol_of_in. unfold pols. rewrite map_length. destruct rs; [congruence|cbn [List.length]; lia]. }
  destruct (Hin _ H0) as [-> ->].
  replace (forallb _ pols) with true.
  2:{ symmetry. apply forallb_forall. intros p Hp. destruct (Hin p Hp) as [-> ->]. now rewrite !Z.eqb_refl. }
  cbn [negb]. replace (nx <? 2)%Z with false by (symmetry; apply Z.ltb_ge; lia).
  replace (2 <? nx - 1)%Z with true by (symmetry; apply Z.ltb_lt; lia). cbn [negb]. cbv zeta.
  replace (Z.of_nat (List.length pols)) with ny by (unfold pols, ny; now rewrite map_length).
  rewrite E. reflexivity.
Qed.

Lemma rect_op cX cZ : coefficients sqrt s (Some Lz) nx ny nz (pol_of pols) = Ok (cX, cZ) ->
  forall f i j k, (1 <= i < nx - 1)%Z -> (0 <= j < ny)%Z -> (0 <= k < nz)%Z ->
  apply_op nx nz cX cZ f i j k ==
  wt s (rj j) (inject_Z i + (1#2)) * r_dZ (rj j) / r_dR (rj j) * (f (i + 1)%Z j k - f i j k)
  - wt s (rj j) (inject_Z i - (1#2)) * r_dZ (rj j) / r_dR (rj j) * (f i j k - f (i - 1)%Z j k)
  + wt s (rj j) (inject_Z i) * r_dR (rj j) / r_dZ (rj j) *
      (f i j ((k + 1) mod nz)%Z - 2 * f i j k + f i j ((k - 1) mod nz)%Z).
Proof.
  intros H f i j k Hi Hj Hk. rewrite apply_op_cell by exact Hi.
  destruct (coefficients_spec _ _ _ _ _ _ _ _ _ H) as [HX HZ]. fold RZ in HX, HZ.
  destruct (rj_grid j Hj) as (Ex & Ez & EdZ & HdR).
  assert (HdZ := dZ_pos (rj j) nx nz Lz (rj_grid j Hj) Hnz HL).
  assert (Fp := rect_faces (rj j) nx nz Lz (rj_grid j Hj) Hnz HL).
  assert (CX : forall i', (0 <= i' < nx - 1)%Z ->
     fst (cX i' j k) == wt s (rj j) (inject_Z i' + (1#2)) * r_dZ (rj j) / r_dR (rj j) /\ snd (cX i' j k) == 0).
  { intros i' Hi'. destruct (solve_spec _ _ _ _ _ _ _ HX i' j k Hi' Hj Hk) as [E1 E2].
    destruct (vec_dx_x i' j k Hj) as [A1 A2]. destruct (vec_dz_x i' j k Hj Hk) as [B1 B2].
    cbn [fst snd] in *.
    destruct (face_normal_x (of_rect (rj j) Lz) (of_rect_ext _ _) sqrt s i' k Hs Fp) as [N1 N2].
    { cbn [p_nx of_rect]. rewrite Ex. exact Hi'. } { cbn [p_nz of_rect]. rewrite Ez. exact Hk. }
    cbn [fst snd] in N1, N2. destruct (line_lin_x s (rj j) Lz i' k) as [L1 L2].
    unfold pols in E1, E2. rewrite pol_of_map in E1, E2 by exact Hj. fold (rj j) in E1, E2.
    rewrite N1, L1, A1, B1 in E1. rewrite N2, L2, A2 in E2.
    assert (Z : snd (cX i' j k) == 0).
    { assert (Z : snd (cX i' j k) * snd (dz_at_x nz (Some Lz) RZ i' j k) == 0) by lra.
      apply Qmult_integral in Z. tauto. }
    split; [|exact Z].
    assert (E3 : fst (cX i' j k) * r_dR (rj j) == wt s (rj j) (inject_Z i' + (1#2)) * r_dZ (rj j)) by lra.
    rewrite <- E3. field. exact HdR. }
  assert (CZ : forall k', (0 <= k' < nz)%Z ->
     fst (cZ (i - 1)%Z j k') == 0 /\ snd (cZ (i - 1)%Z j k') == wt s (rj j) (inject_Z i) * r_dR (rj j) / r_dZ (rj j)).
  { intros k' Hk'. destruct (solve_spec _ _ _ _ _ _ _ HZ (i - 1)%Z j k') as [E1 E2]; [lia|lia|lia|].
    destruct (vec_dx_z (i - 1) j k' Hj) as [A1 A2]. destruct (vec_dz_z (i - 1) j k' Hj Hk') as [B1 B2].
    cbn [fst snd] in *.
    destruct (face_normal_z (of_rect (rj j) Lz) (of_rect_ext _ _) sqrt s (i - 1) k' Hs Fp) as [N1 N2].
    { cbn [p_nx of_rect]. rewrite Ex. lia. } { cbn [p_nz of_rect]. rewrite Ez. exact Hk'. }
    cbn [fst snd] in N1, N2. destruct (line_lin_z s (rj j) Lz (i - 1) k') as [L1 L2].
    unfold pols in E1, E2. rewrite pol_of_map in E1, E2 by exact Hj. fold (rj j) in E1, E2.
    rewrite N1, L1, A1, B1 in E1. rewrite N2, L2, A2, B2 in E2.
    assert (Z : fst (cZ (i - 1)%Z j k') == 0).
    { assert (Z : fst (cZ (i - 1)%Z j k') * r_dR (rj j) == 0) by lra.
      apply Qmult_integral in Z. tauto. }
    split; [exact Z|].
    assert (W : wt s (rj j) (inject_Z (i - 1) + 1) == wt s (rj j) (inject_Z i)).
    { assert (E := inj_pred i). unfold major_radius. destruct s; [reflexivity|]. rewrite E. ring. }
    rewrite W in E2.
    assert (E3 : snd (cZ (i - 1)%Z j k') * r_dZ (rj j) == wt s (rj j) (inject_Z i) * r_dR (rj j)) by lra.
    rewrite <- E3. field. lra. }
  assert (Hkm : (0 <= (k - 1) mod nz < nz)%Z) by (apply Z.mod_pos_bound; lia).
  destruct (CX i) as [X1 X2]; [lia|]. destruct (CX (i - 1)%Z) as [Y1 Y2]; [lia|].
  destruct (CZ k Hk) as [Z1 Z2]. destruct (CZ _ Hkm) as [W1 W2].
  unfold flux_through_x, flux_through_z. cbv zeta.
  rewrite X1, X2, Y1, Y2, Z1, Z2, W1, W2.
  replace (i - 1 + 1)%Z with i by lia.
  assert (U : (((k - 1) mod nz + 1) mod nz = k)%Z).
  { destruct (mod_down nz Hnz k Hk) as [-> | [Ek ->]].
    - replace (k - 1 + 1)%Z with k by lia. apply Z.mod_small. lia.
    - subst k. replace (nz - 1 + 1)%Z with nz by lia. apply Z.mod_same. lia. }
  rewrite U.
  assert (W : wt s (rj j) (inject_Z (i - 1) + (1#2)) == wt s (rj j) (inject_Z i - (1#2))).
  { assert (E := inj_pred i). unfold major_radius. destruct s; [reflexivity|]. rewrite E. ring. }
  rewrite W. field. split; [lra|exact HdR].
Qed.
End RectOp.

Lemma volume_at junk s nx at_ i j k : (1 <= i < nx - 1)%Z ->
  volume junk s nx at_ i j k = cell_volume s (at_ j) i k.
Proof.
  intros H. unfold volume. replace (1 <=? i)%Z with true by (symmetry; apply Z.leb_le; lia).
  replace (i <? nx - 1)%Z with true by (symmetry; apply Z.ltb_lt; lia). reflexivity.
Qed.
Lemma volume_junk junk s nx at_ i j k : (i < 1 \/ nx - 1 <= i)%Z ->
  volume junk s nx at_ i j k = junk i j k.
Proof.
  intros H. unfold volume. destruct (Z.leb_spec 1 i); destruct (Z.ltb_spec i (nx - 1)); cbn; try reflexivity; lia.
Qed.

(** ** Storing and loading *)

Lemma roundtrip nx vol cX cZ : exists fl vol' cX' cZ',
  write nx (nx - 1) (nx - 2) vol cX cZ = Ok fl /\ load nx fl = Ok (vol', cX', cZ') /\
  (forall i j k, vol' i j k = vol i j k) /\
  (forall i j k, (0 <= i < nx - 1)%Z -> cX' i j k = cX i j k) /\
  (forall i j k, (0 <= i < nx - 2)%Z -> cZ' i j k = cZ i j k).
Proof.
  unfold write, write_step. cbn [foldM enumerate List.length seq combine fst snd bind].
  unfold fixup. replace (nx =? nx - 1 + 1)%Z with true by (symmetry; apply Z.eqb_eq; lia).
  replace (nx =? nx - 2 + 1)%Z with false by (symmetry; apply Z.eqb_neq; lia).
  rewrite Z.eqb_refl. cbn [bind append store String.eqb Ascii.eqb Bool.eqb lookup].
  do 4 eexists. split; [reflexivity|].
  unfold load. cbn [bind append store String.eqb Ascii.eqb Bool.eqb lookup fst snd].
  unfold fixup2. replace (nx =? nx - 1 + 1)%Z with true by (symmetry; apply Z.eqb_eq; lia).
  replace (nx =? nx - 2 + 1)%Z with false by (symmetry; apply Z.eqb_neq; lia).
  rewrite Z.eqb_refl. cbn [bind]. split; [reflexivity|]. cbv beta.
  split; [reflexivity|]. split.
  - intros i j k Hi. replace (i <? nx - 1)%Z with true by (symmetry; apply Z.ltb_lt; lia).
    unfold comp. cbn [Nat.eqb]. now destruct (cX i j k).
  - intros i j k Hi. replace (1 <=? i + 1)%Z with true by (symmetry; apply Z.leb_le; lia).
    replace (i + 1 <? nx - 1)%Z with true by (symmetry; apply Z.ltb_lt; lia). cbn [andb].
    replace (i + 1 - 1)%Z with i by lia. unfold comp. cbn [Nat.eqb]. now destruct (cZ i j k).
Qed.

(** ** One or two poloidal points *)

Lemma few_points sqrt junk pols s nz : (forall p, In p pols -> p_nz p = nz) -> (1 <= nz <= 2)%Z ->
  (forall p l, In p pols -> p_Lz p = Some l -> 0 < l) ->
  exists e, doit sqrt junk pols s = Err e.
Proof.
  intros Hp Hz HLz. destruct (doit sqrt junk pols s) as [[[vol cX] cZ]|e] eqn:E; [|eexists; reflexivity].
  exfalso. apply doit_inv in E. destruct E as (Lz & nx & nz' & EL & Hne & Hx & Hsz & Hc & _).
  assert (H0 : In (pol_of pols 0) pols).
  { apply pol_of_in. destruct pols; [congruence|cbn [List.length]; lia]. }
  assert (nz' = nz) by (rewrite <- (Hp _ H0); symmetry; apply (Hsz _ H0)). subst nz'.
  destruct (coefficients_spec _ _ _ _ _ _ _ _ _ Hc) as [HX _].
  unfold solve in HX. destruct (forallb _ _) eqn:F; [|discriminate].
  rewrite forallb_forall in F. specialize (F (0, 0, 0)%Z).
  rewrite in_indices in F. 
  assert (Hl : (0 < Z.of_nat (List.length pols))%Z) by (destruct pols; [congruence|cbn [List.length]; lia]).
  specialize (F ltac:(lia)). cbv beta iota in F.
  assert (Em : ((0 - -1) mod nz = (0 - 1) mod nz)%Z).
  { assert (nz = 1 \/ nz = 2)%Z as [-> | ->] by lia; reflexivity. }
  unfold solve2 in F.
  assert (D : forall i, same_point (unwrap Lz (vsub (roll nz (-1) (points (pol_of pols)) i 0%Z 0%Z)
                                        (roll nz 1 (points (pol_of pols)) i 0%Z 0%Z))) (0, 0)).
  { intros i. unfold roll. rewrite Em. unfold vsub, unwrap. cbn [fst snd].
    assert (U : forall x, unwrap1 Lz (x - x) == 0).
    { intros x. rewrite (unwrap1_proper Lz (x - x) 0) by ring.
      destruct Lz as [l|]; [|reflexivity].
      assert (0 < l).
      { destruct (common_Lz_inv _ _ EL) as [_ HA]. destruct (HA _ H0) as (l' & A & B).
        rewrite <- B. apply (HLz _ _ H0 A). }
      now rewrite unwrap_zero. }
    split; cbn [fst snd]; apply U. }
  destruct (D 0%Z) as [D1 D2]. destruct (D (0 + 1)%Z) as [D3 D4].
  destruct (Qeq_bool _ 0) eqn:Q0; [discriminate|]. apply Qeq_bool_neq in Q0. apply Q0.
  unfold dz_at_x, vscale, vadd. cbv zeta beta. cbn [fst snd] in *.
  rewrite D1, D2, D3, D4. ring.
Qed.
