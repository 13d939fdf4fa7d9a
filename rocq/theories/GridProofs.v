From Coq Require Import List ZArith QArith Qabs Qround Lia Lqa Bool.
From Verif Require Import Prelude PreludeFacts GridModel GridSpec.
Import ListNotations.
Open Scope Q_scope.

Section GridFacts.
Context {G : Type}.
Implicit Types g : grid G.

(** What the function returns at an integer index. *)
Definition int_result g (i : Z) : res (option G * Q) :=
  if ((0 <=? i) && (i <? ny g))%Z%bool then slice g i 0
  else if yperiodic g then slice g (i mod ny g) (inject_Z (i / ny g) * Ly g)
  else if (i <? 0)%Z then Ok (None, 0) else Ok (None, Ly g).

Lemma rec_int n g q i : (0 < ny g)%Z -> q == inject_Z i ->
  getPoloidalGrid_rec (S n) g q = int_result g i.
Proof.
  intros Hn E. cbn [getPoloidalGrid_rec].
  rewrite (Qtrunc_comp _ _ E), Qtrunc_Z.
  replace (Qlt_bool (1 # 1000000) (Qabs (inject_Z i - q))) with false.
  2:{ symmetry. apply Qlt_bool_false_iff. rewrite E.
      setoid_replace (inject_Z i - inject_Z i) with 0 by ring. discriminate. }
  unfold int_result.
  rewrite (Qlt_bool_Proper _ _ E _ _ (Qeq_refl (inject_Z (ny g)))).
  rewrite (Qlt_bool_Proper _ _ E _ _ (Qeq_refl 0)).
  rewrite (Qleb_comp _ _ (Qeq_refl 0) _ _ E).
  change 0 with (inject_Z 0) at 1 3. rewrite Qle_bool_Z, !Qlt_bool_Z.
  rewrite (Qfloor_comp (q / inject_Z (ny g)) (inject_Z i / inject_Z (ny g))) by (now rewrite E).
  rewrite Qfloor_div by assumption. reflexivity.
Qed.

Lemma ny_pos g : well_formed g -> (0 < ny g)%Z.
Proof. intros [_ H]. unfold ny. lia. Qed.

Lemma getPoloidalGrid_int g i : well_formed g -> getPoloidalGrid g (inject_Z i) = int_result g i.
Proof. intros W. apply rec_int; [now apply ny_pos|reflexivity]. Qed.

Lemma rec_S n g q : getPoloidalGrid_rec (S n) g q =
    if Qlt_bool (1#1000000) (Qabs (inject_Z (Qtrunc q) - q)) then
      let* up := getPoloidalGrid_rec n g (inject_Z (Qfloor q) + 1) in
      let* down := getPoloidalGrid_rec n g (inject_Z (Qfloor q)) in
      Ok (None : option G, snd down + (snd up - snd down) * (1 - (q - inject_Z (Qfloor q))))
    else if (Qle_bool 0 q && Qlt_bool q (inject_Z (ny g)))%bool then
      slice g (Qtrunc q) 0
    else if yperiodic g then
      slice g (Qtrunc q mod ny g) (inject_Z (Qfloor (q / inject_Z (ny g))) * Ly g)
    else if Qlt_bool q 0 then Ok (None, 0)
    else Ok (None, Ly g).
Proof. reflexivity. Qed.

(** Two levels of recursion are always enough. *)
Lemma getPoloidalGrid_fuel n g q : well_formed g ->
  getPoloidalGrid_rec (S (S n)) g q = getPoloidalGrid g q.
Proof.
  intros W. pose proof (ny_pos g W) as Hn. unfold getPoloidalGrid.
  rewrite !(rec_S (S _)).
  assert (E1 : inject_Z (Qfloor q) + 1 == inject_Z (Qfloor q + 1)) by (rewrite inject_Z_plus; reflexivity).
  rewrite !(rec_int _ g _ _ Hn E1), !(rec_int _ g _ _ Hn (Qeq_refl _)). reflexivity.
Qed.

Lemma slice_ok g k sh : well_formed g -> (0 <= k < ny g)%Z ->
  exists p y, nth_error (poloidal_grids g) (Z.to_nat k) = Some p /\
              nth_error (ycoords g) (Z.to_nat k) = Some y /\ slice g k sh = Ok (Some p, y + sh).
Proof.
  intros [W1 W2] Hk. unfold slice.
  destruct (nth_error (poloidal_grids g) (Z.to_nat k)) as [p|] eqn:Ep.
  2:{ apply nth_error_None in Ep. unfold ny in Hk. lia. }
  destruct (nth_error (ycoords g) (Z.to_nat k)) as [y|] eqn:Ey.
  2:{ apply nth_error_None in Ey. unfold ny in Hk. lia. }
  eauto.
Qed.

Lemma periodic_lookup g i : well_formed g -> yperiodic g = true ->
  exists p y, nth_error (poloidal_grids g) (Z.to_nat (i mod ny g)) = Some p /\
    nth_error (ycoords g) (Z.to_nat (i mod ny g)) = Some y /\
    returns (getPoloidalGrid g (inject_Z i)) (Some p) (y + inject_Z (i / ny g) * Ly g).
Proof.
  intros W P. pose proof (ny_pos g W) as Hn.
  rewrite getPoloidalGrid_int by assumption. unfold int_result. rewrite P.
  pose proof (Z.mod_pos_bound i _ Hn) as B.
  destruct (slice_ok g (i mod ny g) (inject_Z (i / ny g) * Ly g) W B) as (p & y & Ep & Ey & Es).
  exists p, y. split; [assumption|split; [assumption|]].
  destruct (Z.leb_spec 0 i), (Z.ltb_spec i (ny g)); cbn [andb].
  - rewrite Z.mod_small in * by lia. rewrite Z.div_small in * by lia.
    unfold slice. rewrite Ep, Ey. eexists; split; [reflexivity|]. cbn. ring.
  - rewrite Es. eexists; split; reflexivity.
  - rewrite Es. eexists; split; reflexivity.
  - rewrite Es. eexists; split; reflexivity.
Qed.

Lemma nonperiodic_lookup g i : well_formed g -> yperiodic g = false ->
  ((0 <= i < ny g)%Z -> exists p y, nth_error (poloidal_grids g) (Z.to_nat i) = Some p /\
    nth_error (ycoords g) (Z.to_nat i) = Some y /\ returns (getPoloidalGrid g (inject_Z i)) (Some p) y) /\
  ((i < 0)%Z -> returns (getPoloidalGrid g (inject_Z i)) None 0) /\
  ((ny g <= i)%Z -> returns (getPoloidalGrid g (inject_Z i)) None (Ly g)).
Proof.
  intros W P. pose proof (ny_pos g W) as Hn.
  rewrite getPoloidalGrid_int by assumption. unfold int_result. rewrite P.
  split; [|split]; intros H.
  - destruct (slice_ok g i 0 W H) as (p & y & Ep & Ey & Es).
    exists p, y. split; [assumption|split; [assumption|]].
    replace (0 <=? i)%Z with true by (symmetry; apply Z.leb_le; lia).
    replace (i <? ny g)%Z with true by (symmetry; apply Z.ltb_lt; lia). cbn [andb].
    rewrite Es. eexists; split; [reflexivity|ring].
  - replace (0 <=? i)%Z with false by (symmetry; apply Z.leb_gt; lia). cbn [andb].
    replace (i <? 0)%Z with true by (symmetry; apply Z.ltb_lt; lia).
    eexists; split; reflexivity.
  - replace (i <? ny g)%Z with false by (symmetry; apply Z.ltb_ge; lia). rewrite andb_false_r.
    replace (i <? 0)%Z with false by (symmetry; apply Z.ltb_ge; lia).
    eexists; split; reflexivity.
Qed.

(** ** Monotonicity *)

Lemma ycoords_mono g : admissible g -> forall i j y1 y2, (i <= j)%nat ->
  nth_error (ycoords g) i = Some y1 -> nth_error (ycoords g) j = Some y2 -> y1 <= y2.
Proof.
  intros (W & _ & M) i j. induction j as [|j IH]; intros y1 y2 H E1 E2.
  - assert (i = 0)%nat by lia. subst. rewrite E1 in E2. injection E2 as ->. lra.
  - destruct (Nat.eq_dec i (S j)) as [->|N].
    + rewrite E1 in E2. injection E2 as ->. lra.
    + destruct (nth_error (ycoords g) j) as [y|] eqn:Ej.
      2:{ apply nth_error_None in Ej. pose proof (nth_error_lt _ _ _ E2). lia. }
      specialize (IH y1 y ltac:(lia) E1 eq_refl). specialize (M j y y2 Ej E2). lra.
Qed.

Lemma int_total g i : well_formed g -> exists p y, getPoloidalGrid g (inject_Z i) = Ok (p, y).
Proof.
  intros W. destruct (yperiodic g) eqn:P.
  - destruct (periodic_lookup g i W P) as (p & y & _ & _ & y' & -> & _). eauto.
  - destruct (nonperiodic_lookup g i W P) as (A & B & C).
    destruct (Z_lt_le_dec i 0) as [H|H].
    + destruct (B H) as (y' & -> & _). eauto.
    + destruct (Z_lt_le_dec i (ny g)) as [H'|H'].
      * destruct A as (p & y & _ & _ & y' & -> & _); [lia|]. eauto.
      * destruct (C H') as (y' & -> & _). eauto.
Qed.

Lemma bracket_step g i p1 y1 p2 y2 : admissible g ->
  getPoloidalGrid g (inject_Z i) = Ok (p1, y1) ->
  getPoloidalGrid g (inject_Z (i + 1)) = Ok (p2, y2) -> y1 <= y2.
Proof.
  intros A E1 E2. pose proof A as (W & R & M). pose proof (ny_pos g W) as Hn.
  destruct (yperiodic g) eqn:P.
  - destruct (periodic_lookup g i W P) as (p & a & _ & Ea & ya & Eya & Ha).
    destruct (periodic_lookup g (i + 1) W P) as (p' & b & _ & Eb & yb & Eyb & Hb).
    rewrite E1 in Eya. injection Eya as _ <-. rewrite E2 in Eyb. injection Eyb as _ <-.
    rewrite Ha, Hb.
    pose proof (Z_div_mod_eq_full i (ny g)) as D. pose proof (Z.mod_pos_bound i _ Hn) as B.
    destruct (Z.eq_dec (i mod ny g) (ny g - 1)) as [Z1|Z1].
    + assert (D' : ((i + 1) / ny g = i / ny g + 1)%Z) by (symmetry; apply Z.div_unique with 0%Z; lia).
      rewrite D', inject_Z_plus. destruct (R _ _ Ea), (R _ _ Eb).
      setoid_replace ((inject_Z (i / ny g) + inject_Z 1) * Ly g) with (inject_Z (i / ny g) * Ly g + Ly g) by (change (inject_Z 1) with 1; ring).
      lra.
    + assert (D' : ((i + 1) / ny g = i / ny g)%Z) by (symmetry; apply Z.div_unique with (i mod ny g + 1)%Z; lia).
      assert (M' : ((i + 1) mod ny g = i mod ny g + 1)%Z) by (symmetry; apply Z.mod_unique with (i / ny g)%Z; lia).
      rewrite D'. rewrite M' in Eb.
      assert (a <= b); [|lra].
      eapply (ycoords_mono g A); [|exact Ea|exact Eb]. lia.
  - destruct (nonperiodic_lookup g i W P) as (A1 & A2 & A3).
    destruct (nonperiodic_lookup g (i + 1) W P) as (B1 & B2 & B3).
    assert (L0 : 0 <= Ly g).
    { destruct (slice_ok g 0 0 W ltac:(lia)) as (_ & y & _ & Ey & _). destruct (R _ _ Ey). lra. }
    destruct (Z_lt_le_dec i 0) as [H|H].
    + destruct (A2 H) as (y & Ey & Hy). rewrite E1 in Ey. injection Ey as _ <-. rewrite Hy.
      destruct (Z_lt_le_dec (i + 1) 0) as [H'|H'].
      * destruct (B2 H') as (z & Ez & Hz). rewrite E2 in Ez. injection Ez as _ <-. lra.
      * destruct B1 as (p & y' & _ & En & z & Ez & Hz); [lia|].
        rewrite E2 in Ez. injection Ez as _ <-. rewrite Hz. now destruct (R _ _ En).
    + destruct (Z_lt_le_dec i (ny g)) as [H'|H'].
      * destruct A1 as (p & y & _ & En & z & Ez & Hz); [lia|].
        rewrite E1 in Ez. injection Ez as _ <-. rewrite Hz.
        destruct (Z_lt_le_dec (i + 1) (ny g)) as [H''|H''].
        -- destruct B1 as (p' & y' & _ & En' & z' & Ez' & Hz'); [lia|].
           rewrite E2 in Ez'. injection Ez' as _ <-. rewrite Hz'.
           eapply (ycoords_mono g A); [|exact En|exact En']. lia.
        -- destruct (B3 H'') as (z' & Ez' & Hz'). rewrite E2 in Ez'. injection Ez' as _ <-.
           rewrite Hz'. destruct (R _ _ En). lra.
      * destruct (A3 H') as (z & Ez & Hz). rewrite E1 in Ez. injection Ez as _ <-.
        destruct B3 as (z' & Ez' & Hz'); [lia|]. rewrite E2 in Ez'. injection Ez' as _ <-.
        rewrite Hz, Hz'. lra.
Qed.

Lemma bracket g i j : admissible g -> (i <= j)%Z ->
  exists p1 y1 p2 y2, getPoloidalGrid g (inject_Z i) = Ok (p1, y1) /\
    getPoloidalGrid g (inject_Z j) = Ok (p2, y2) /\ y1 <= y2.
Proof.
  intros A H. pose proof A as (W & _ & _).
  destruct (int_total g i W) as (p1 & y1 & E1). destruct (int_total g j W) as (p2 & y2 & E2).
  exists p1, y1, p2, y2. split; [assumption|split; [assumption|]].
  revert p2 y2 E2.
  pattern j. apply Zlt_lower_bound_ind with (z := i); [|assumption].
  clear j H. intros j IH H p2 y2 E2.
  destruct (Z.eq_dec i j) as [<-|N].
  - rewrite E1 in E2. injection E2 as _ <-. lra.
  - destruct (int_total g (j - 1) W) as (p3 & y3 & E3).
    specialize (IH (j - 1)%Z ltac:(lia) p3 y3 E3).
    assert (y3 <= y2); [|lra].
    eapply bracket_step; [exact A|exact E3|]. replace (j - 1 + 1)%Z with j by lia; exact E2.
Qed.

(** ** Fractional indices *)

Lemma Qfloor_plus_frac i f : 0 <= f -> f < 1 -> Qfloor (inject_Z i + f) = i.
Proof.
  intros H1 H2. apply Qfloor_spec. rewrite inject_Z_plus. change (inject_Z 1) with 1. lra.
Qed.

(** The distance of [i + f] to the value of [int(i + f)]. *)
Lemma frac_dist i f : 0 < f -> f < 1 ->
  Qabs (inject_Z (Qtrunc (inject_Z i + f)) - (inject_Z i + f)) == if (0 <=? i)%Z then f else 1 - f.
Proof.
  intros H1 H2. destruct (Z.leb_spec 0 i) as [H|H].
  - rewrite Qtrunc_nonneg.
    2:{ assert (0 <= inject_Z i) by (change 0 with (inject_Z 0); now rewrite <- Zle_Qle). lra. }
    rewrite Qfloor_plus_frac by lra. rewrite Qabs_neg by lra. ring.
  - rewrite Qtrunc_neg.
    2:{ assert (inject_Z i <= inject_Z (-1)) by (rewrite <- Zle_Qle; lia). change (inject_Z (-1)) with (-1) in *. lra. }
    assert (C : Qceiling (inject_Z i + f) = (i + 1)%Z).
    { unfold Qceiling. assert (E : Qfloor (- (inject_Z i + f)) = (- (i + 1))%Z).
      { apply Qfloor_spec. rewrite inject_Z_plus, inject_Z_opp, inject_Z_plus. change (inject_Z 1) with 1. lra. }
      rewrite E. lia. }
    rewrite C, inject_Z_plus. change (inject_Z 1) with 1. rewrite Qabs_pos by lra. ring.
Qed.

Lemma fractional g i f : well_formed g -> (1#1000000) < f -> f < 1 - (1#1000000) ->
  exists p1 y1 p2 y2, getPoloidalGrid g (inject_Z i) = Ok (p1, y1) /\
    getPoloidalGrid g (inject_Z (i + 1)) = Ok (p2, y2) /\
    returns (getPoloidalGrid g (inject_Z i + f)) None (y1 + (1 - f) * (y2 - y1)).
Proof.
  intros W H1 H2. pose proof (ny_pos g W) as Hn.
  destruct (int_total g i W) as (p1 & y1 & E1). destruct (int_total g (i + 1) W) as (p2 & y2 & E2).
  exists p1, y1, p2, y2. split; [assumption|split; [assumption|]].
  unfold getPoloidalGrid at 1. rewrite rec_S.
  assert (D := frac_dist i f ltac:(lra) ltac:(lra)).
  replace (Qlt_bool (1 # 1000000) _) with true.
  2:{ symmetry. apply Qlt_bool_iff. rewrite D. destruct (0 <=? i)%Z; lra. }
  cbn zeta. rewrite Qfloor_plus_frac by lra.
  assert (Ee : inject_Z i + 1 == inject_Z (i + 1)) by (rewrite inject_Z_plus; reflexivity).
  rewrite getPoloidalGrid_int in E1, E2 by assumption.
  pose proof (rec_int 0 g _ _ Hn Ee) as R2. pose proof (rec_int 0 g _ _ Hn (Qeq_refl (inject_Z i))) as R1.
  rewrite E1 in R1. rewrite E2 in R2. rewrite R1, R2. cbn [bind snd].
  eexists; split; [reflexivity|]. ring.
Qed.

(** ** dy *)

Lemma firstn_app_exact {A} (l1 l2 : list A) : firstn (length l1) (l1 ++ l2) = l1.
Proof. rewrite firstn_app, Nat.sub_diag, firstn_all. cbn. apply app_nil_r. Qed.

Lemma middle g : firstn (2 * length (ycoords g) - length (ycoords g))
   (skipn (length (ycoords g)) (map (fun y => y - Ly g) (ycoords g) ++ ycoords g ++ map (fun y => y + Ly g) (ycoords g))) = ycoords g.
Proof.
  rewrite <- (map_length (fun y => y - Ly g) (ycoords g)) at 3.
  rewrite skipn_app, skipn_all, Nat.sub_diag. cbn [app skipn].
  replace (2 * length (ycoords g) - length (ycoords g))%nat with (length (ycoords g)) by lia.
  apply firstn_app_exact.
Qed.

Lemma metric_dy_ok g : well_formed g -> exists dy, metric_dy g = Ok dy /\ length dy = length (ycoords g).
Proof.
  intros [_ W]. unfold metric_dy. rewrite middle.
  destruct (Nat.eqb_spec (length (ycoords g)) 1) as [E|N]; [eexists; split; [reflexivity|now rewrite E]|].
  unfold gradient. destruct (Nat.ltb_spec (length (ycoords g)) 2); [lia|].
  eexists; split; [reflexivity|]. now rewrite map_length, seq_length.
Qed.

Lemma metric_dy_nth g dy j : metric_dy g = Ok dy -> (2 <= length (ycoords g))%nat -> (j < length (ycoords g))%nat ->
  nth j dy 0 = if Nat.eqb j 0 then nth 1 (ycoords g) 0 - nth 0 (ycoords g) 0
      else if Nat.eqb j (length (ycoords g) - 1) then nth (length (ycoords g) - 1) (ycoords g) 0 - nth (length (ycoords g) - 2) (ycoords g) 0
      else (nth (j + 1) (ycoords g) 0 - nth (j - 1) (ycoords g) 0) / 2.
Proof.
  intros E H2 Hj. unfold metric_dy in E. rewrite middle in E.
  destruct (Nat.eqb_spec (length (ycoords g)) 1) as [|N]; [lia|].
  unfold gradient in E. destruct (Nat.ltb_spec (length (ycoords g)) 2); [lia|].
  injection E as <-.
  match goal with |- nth j (map ?f _) _ = _ =>
    rewrite (nth_indep _ 0 (f 0%nat)) by (rewrite map_length, seq_length; lia);
    rewrite (map_nth f), seq_nth by lia end.
  reflexivity.
Qed.

(** Away from the two ends of the list the metric always has the periodic
    half distance. *)
Lemma dy_interior g dy j : well_formed g -> metric_dy g = Ok dy ->
  (0 < j)%Z -> (j < ny g - 1)%Z ->
  nth (Z.to_nat j) dy 0 == (periodic_y g (j + 1) - periodic_y g (j - 1)) / 2.
Proof.
  intros W E H1 H2. unfold ny in H2.
  rewrite (metric_dy_nth g dy) by (auto; lia).
  destruct (Nat.eqb_spec (Z.to_nat j) 0); [lia|].
  destruct (Nat.eqb_spec (Z.to_nat j) (length (ycoords g) - 1)); [lia|].
  unfold periodic_y. rewrite !Z.mod_small, !Z.div_small by (unfold ny; lia).
  replace (Z.to_nat (j + 1)) with (Z.to_nat j + 1)%nat by lia.
  replace (Z.to_nat (j - 1)) with (Z.to_nat j - 1)%nat by lia.
  change (inject_Z 0) with 0. field.
Qed.

Lemma uniform_dy g dy j : uniform g -> metric_dy g = Ok dy -> (0 <= j < ny g)%Z ->
  nth (Z.to_nat j) dy 0 == Ly g / inject_Z (ny g).
Proof.
  intros [W [y0 U]] E Hj. unfold ny in Hj.
  destruct (Nat.eq_dec (length (ycoords g)) 1) as [N1|N1].
  - unfold metric_dy in E. rewrite N1 in E. cbn [Nat.eqb] in E. injection E as <-.
    replace (Z.to_nat j) with 0%nat by lia. cbn. unfold ny. rewrite N1. cbn. field.
  - set (h := Ly g / inject_Z (ny g)) in *.
    rewrite (metric_dy_nth g dy) by (auto; lia).
    destruct (Nat.eqb_spec (Z.to_nat j) 0).
    + rewrite !U by lia. cbn. ring.
    + destruct (Nat.eqb_spec (Z.to_nat j) (length (ycoords g) - 1)).
      * rewrite !U by lia.
        replace (Z.of_nat (length (ycoords g) - 1)) with (Z.of_nat (length (ycoords g) - 2) + 1)%Z by lia.
        rewrite inject_Z_plus. change (inject_Z 1) with 1. ring.
      * rewrite !U by lia. 
        replace (Z.of_nat (Z.to_nat j + 1)) with (Z.of_nat (Z.to_nat j - 1) + 2)%Z by lia.
        rewrite inject_Z_plus. change (inject_Z 2) with 2. field.
Qed.

Lemma uniform_periodic_y g : uniform g -> exists y0, forall i,
  periodic_y g i == y0 + inject_Z i * (Ly g / inject_Z (ny g)).
Proof.
  intros [W [y0 U]]. exists y0. intros i. pose proof (ny_pos g W) as Hn.
  pose proof (Z.mod_pos_bound i _ Hn) as B. unfold periodic_y. rewrite U by (unfold ny in *; lia).
  rewrite Z2Nat.id by lia.
  assert (D : inject_Z i == inject_Z (ny g) * inject_Z (i / ny g) + inject_Z (i mod ny g)).
  { rewrite <- inject_Z_mult, <- inject_Z_plus. now rewrite <- Z_div_mod_eq_full. }
  rewrite D. field. change 0 with (inject_Z 0). rewrite inject_Z_injective. lia.
Qed.

Lemma uniform_dy_periodic g dy j : uniform g -> metric_dy g = Ok dy -> (0 <= j < ny g)%Z ->
  nth (Z.to_nat j) dy 0 == (periodic_y g (j + 1) - periodic_y g (j - 1)) / 2.
Proof.
  intros U E Hj. rewrite (uniform_dy g dy j U E Hj).
  destruct (uniform_periodic_y g U) as [y0 P]. rewrite !P.
  unfold Z.sub. rewrite !inject_Z_plus, inject_Z_opp. change (inject_Z 1) with 1.
  set (h := Ly g / inject_Z (ny g)). field.
Qed.

Lemma qsum_const l c : (forall i, (i < length l)%nat -> nth i l 0 == c) ->
  qsum l == inject_Z (Z.of_nat (length l)) * c.
Proof.
  induction l as [|a l IH]; intros H; [cbn; ring|].
  cbn [qsum length]. rewrite IH by (intros i Hi; apply (H (S i)); cbn; lia).
  rewrite (H 0%nat) at 1 by (cbn; lia).
  rewrite Nat2Z.inj_succ. unfold Z.succ. rewrite inject_Z_plus. change (inject_Z 1) with 1. ring.
Qed.

Lemma uniform_dy_sum g dy : uniform g -> metric_dy g = Ok dy -> qsum dy == Ly g.
Proof.
  intros U E. pose proof U as [W _]. pose proof (ny_pos g W) as Hn.
  destruct (metric_dy_ok g W) as (dy' & E' & L). rewrite E in E'. injection E' as <-.
  rewrite (qsum_const dy (Ly g / inject_Z (ny g))).
  - rewrite L. fold (ny g). field. change 0 with (inject_Z 0). rewrite inject_Z_injective. lia.
  - intros i Hi. rewrite L in Hi. rewrite <- (uniform_dy g dy (Z.of_nat i) U E) by (unfold ny; lia).
    now rewrite Nat2Z.id.
Qed.

End GridFacts.

Lemma constructor {G : Type} (pols : list G) ys L per :
  (length ys = length pols -> pols <> [] ->
     Grid_init pols ys L per = Ok {| poloidal_grids := pols; ycoords := ys; Ly := L; yperiodic := per |}) /\
  (length ys <> length pols -> Grid_init pols ys L per = Err AssertionError) /\
  (pols = [] -> ys = [] -> Grid_init pols ys L per = Err IndexError) /\
  (forall pol : G, Grid_init_single pol ys L per =
     if Nat.eqb (length ys) 0 then Err IndexError
     else Ok {| poloidal_grids := repeat pol (length ys); ycoords := ys; Ly := L; yperiodic := per |}).
Proof.
  unfold Grid_init_single. unfold Grid_init. split; [|split; [|split]].
  - intros -> H. rewrite Nat.eqb_refl. now destruct pols.
  - intros H. apply Nat.eqb_neq in H. now rewrite H.
  - intros -> ->. reflexivity.
  - intros pol. rewrite map_length, Nat.eqb_refl. destruct ys as [|y ys]; [reflexivity|]. cbn [map length Nat.eqb repeat].
    do 3 f_equal. induction ys; cbn; [reflexivity|]. now f_equal.
Qed.
