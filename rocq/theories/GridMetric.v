(** Grid.metric gathers the slices' metrics; rectangular_grid is admissible. *)
From Coq Require Import List ZArith QArith Qabs Qround Lia Lqa Bool.
From Verif Require Import Prelude PreludeFacts GridModel GridSpec GridProofs.
Import ListNotations.
Open Scope Q_scope.

Section Gather.
Context {G : Type} (pm : G -> pol_metric).
Implicit Types g : grid G.

(** Does slice [y] carry a J? *)
Definition slice_has_J g (y : Z) : bool :=
  match nth_error (poloidal_grids g) (Z.to_nat y) with
  | Some p => match p_J (pm p) with Some _ => true | None => false end
  | None => false
  end.

Definition filled g (b : bool) (pre : list Z) (s : gathered) : Prop :=
  has_J s = (if b then Z.of_nat (length pre) else - Z.of_nat (length pre))%Z /\
  forall y p x z, In y pre -> nth_error (poloidal_grids g) (Z.to_nat y) = Some p ->
    a_dx s x y z = p_dx (pm p) x z /\ a_dz s x y z = p_dz (pm p) x z /\
    a_gxx s x y z = p_gxx (pm p) x z /\ a_gxz s x y z = p_gxz (pm p) x z /\
    a_gzz s x y z = p_gzz (pm p) x z /\ a_g_xx s x y z = p_g_xx (pm p) x z /\
    a_g_xz s x y z = p_g_xz (pm p) x z /\ a_g_zz s x y z = p_g_zz (pm p) x z /\
    (forall J, p_J (pm p) = Some J -> a_J s x y z = J x z).

Lemma lookup_slice g y : well_formed g -> (0 <= y < ny g)%Z ->
  exists p q, nth_error (poloidal_grids g) (Z.to_nat y) = Some p /\ getPoloidalGrid g (inject_Z y) = Ok (Some p, q).
Proof.
  intros W H. destruct (slice_ok g y 0 W H) as (p & q & Ep & Eq & Es).
  exists p, (q + 0). split; [assumption|]. rewrite getPoloidalGrid_int by assumption. unfold int_result.
  replace (0 <=? y)%Z with true by (symmetry; apply Z.leb_le; lia).
  replace (y <? ny g)%Z with true by (symmetry; apply Z.ltb_lt; lia). assumption.
Qed.

Lemma put_eq a y v x z : put a y v x y z = v x z.
Proof. unfold put. now rewrite Z.eqb_refl. Qed.
Lemma put_neq a y v x y' z : y' <> y -> put a y v x y' z = a x y' z.
Proof. intros H. unfold put. apply Z.eqb_neq in H. now rewrite H. Qed.

Lemma gather_step g b pre y s : well_formed g -> (0 <= y < ny g)%Z -> ~ In y pre ->
  slice_has_J g y = b -> filled g b pre s ->
  exists s', gather_slice pm g s y = Ok s' /\ filled g b (pre ++ [y]) s'.
Proof.
  intros W Hy Hni Hb [HJ HF]. destruct (lookup_slice g y W Hy) as (p & q & Ep & Eg).
  unfold gather_slice. rewrite Eg. cbn [bind fst].
  unfold slice_has_J in Hb. rewrite Ep in Hb.
  destruct (p_J (pm p)) as [J|] eqn:EJ; subst b.
  - replace (0 <? has_J s + 1)%Z with true by (symmetry; apply Z.ltb_lt; lia).
    eexists; split; [reflexivity|]. split; [cbn [has_J]; rewrite app_length; cbn [length]; lia|].
    intros y' p' x z Hin Ep'. cbn [a_dx a_dz a_gxx a_gxz a_gzz a_g_xx a_g_xz a_g_zz a_J].
    apply in_app_iff in Hin. destruct (Z.eq_dec y' y) as [->|N].
    + rewrite Ep in Ep'. injection Ep' as <-. rewrite !put_eq.
      do 8 (split; [reflexivity|]). intros J' EJ'. rewrite EJ in EJ'. now injection EJ' as <-.
    + rewrite !put_neq by assumption. apply HF; [|assumption].
      destruct Hin as [Hin|[<-|[]]]; [assumption|congruence].
  - replace (has_J s - 1 <? 0)%Z with true by (symmetry; apply Z.ltb_lt; lia).
    eexists; split; [reflexivity|]. split; [cbn [has_J]; rewrite app_length; cbn [length]; lia|].
    intros y' p' x z Hin Ep'. cbn [a_dx a_dz a_gxx a_gxz a_gzz a_g_xx a_g_xz a_g_zz a_J].
    apply in_app_iff in Hin. destruct (Z.eq_dec y' y) as [->|N].
    + rewrite Ep in Ep'. injection Ep' as <-. rewrite !put_eq.
      do 8 (split; [reflexivity|]). intros J' EJ'. rewrite EJ in EJ'. discriminate.
    + rewrite !put_neq by assumption. apply HF; [|assumption].
      destruct Hin as [Hin|[<-|[]]]; [assumption|congruence].
Qed.

Lemma gather_list g b l : well_formed g -> NoDup l -> (forall y, In y l -> (0 <= y < ny g)%Z /\ slice_has_J g y = b) ->
  exists s, foldM (gather_slice pm g) l gathered0 = Ok s /\ filled g b l s.
Proof.
  intros W ND H. apply (foldM_inv (filled g b)).
  - split; [now destruct b|]. intros ? ? ? ? [].
  - intros pre a post s E F. subst l. apply gather_step; auto.
    + apply H. apply in_app_iff. right. now left.
    + apply NoDup_remove_2 in ND. intros C. apply ND. apply in_app_iff. now left.
    + apply H. apply in_app_iff. right. now left.
Qed.

Definition all_status g b := forall y, (0 <= y < ny g)%Z -> slice_has_J g y = b.

Lemma metric_gathers g b : well_formed g -> all_status g b ->
  exists m, grid_metric pm g = Ok m /\
  (forall y p x z, (0 <= y < ny g)%Z -> nth_error (poloidal_grids g) (Z.to_nat y) = Some p ->
    m_dx m x y z = p_dx (pm p) x z /\ m_dz m x y z = p_dz (pm p) x z /\
    m_gxx m x y z = p_gxx (pm p) x z /\ m_gxz m x y z = p_gxz (pm p) x z /\
    m_gzz m x y z = p_gzz (pm p) x z /\ m_g_xx m x y z = p_g_xx (pm p) x z /\
    m_g_xz m x y z = p_g_xz (pm p) x z /\ m_g_zz m x y z = p_g_zz (pm p) x z) /\
  (if b then exists J, m_J m = Some J /\ forall y p x z Jp, (0 <= y < ny g)%Z ->
      nth_error (poloidal_grids g) (Z.to_nat y) = Some p -> p_J (pm p) = Some Jp -> J x y z = Jp x z
   else m_J m = None).
Proof.
  intros W A. pose proof (ny_pos g W) as Hn.
  destruct (gather_list g b (zrange 0 (ny g)) W (NoDup_zrange _ _)) as (s & Es & HJ & HF).
  { intros y Hy. apply in_zrange in Hy. split; [assumption|now apply A]. }
  destruct (metric_dy_ok g W) as (dy & Edy & _).
  unfold grid_metric. rewrite Es. cbn [bind]. rewrite Edy. cbn [bind].
  eexists; split; [reflexivity|]. split.
  - intros y p x z Hy Ep. cbn. destruct (HF y p x z) as (F1&F2&F3&F4&F5&F6&F7&F8&_);
      [now apply in_zrange|assumption|]. now rewrite F1, F2, F3, F4, F5, F6, F7, F8.
  - rewrite zrange_length in HJ. cbn [m_J]. destruct b.
    + replace (0 <? has_J s)%Z with true by (symmetry; apply Z.ltb_lt; lia).
      eexists; split; [reflexivity|]. intros y p x z Jp Hy Ep EJ.
      destruct (HF y p x z) as (_&_&_&_&_&_&_&_&F9); [now apply in_zrange|assumption|]. now apply F9.
    + replace (0 <? has_J s)%Z with false by (symmetry; apply Z.ltb_ge; lia). reflexivity.
Qed.

(** The first element whose status differs from the first one. *)
Lemma first_change (f : Z -> bool) l b : (exists y, In y l /\ f y = negb b) ->
  exists pre y post, l = pre ++ y :: post /\ f y = negb b /\ forall a, In a pre -> f a = b.
Proof.
  induction l as [|a l IH]; intros (y & Hin & Hy); [destruct Hin|].
  destruct (bool_dec (f a) b) as [E|N].
  - destruct IH as (pre & y' & post & -> & Hy' & Hp).
    { exists y. split; [|assumption]. destruct Hin as [->|]; [|assumption].
      rewrite E in Hy. destruct b; discriminate. }
    exists (a :: pre), y', post. split; [reflexivity|split; [assumption|]].
    intros c [<-|Hc]; [assumption|now apply Hp].
  - exists [], a, l. split; [reflexivity|split; [destruct (f a), b; try reflexivity; congruence|intros ? []]].
Qed.

Lemma metric_mixed_J g : well_formed g ->
  (exists y1 y2, (0 <= y1 < ny g)%Z /\ (0 <= y2 < ny g)%Z /\ slice_has_J g y1 = true /\ slice_has_J g y2 = false) ->
  grid_metric pm g = Err AssertionError.
Proof.
  intros W (y1 & y2 & H1 & H2 & T & F). pose proof (ny_pos g W) as Hn.
  set (b := slice_has_J g 0).
  destruct (first_change (slice_has_J g) (zrange 0 (ny g)) b) as (pre & y & post & E & Hy & Hp).
  { destruct b; [exists y2|exists y1]; (split; [now apply in_zrange|assumption]). }
  assert (Hne : pre <> []).
  { intros ->. cbn [app] in E. rewrite zrange_cons in E by assumption. injection E as <- _.
    fold b in Hy. destruct b; discriminate. }
  assert (Hin : forall a, In a (pre ++ y :: post) -> (0 <= a < ny g)%Z) by (intros a Ha; rewrite <- E in Ha; now apply in_zrange).
  assert (ND : NoDup (pre ++ y :: post)) by (rewrite <- E; apply NoDup_zrange).
  unfold grid_metric. rewrite E, foldM_app.
  destruct (gather_list g b pre W) as (s & Es & HJ & _).
  { now apply NoDup_app_inv in ND. }
  { intros a Ha. split; [apply Hin, in_app_iff; now left|now apply Hp]. }
  rewrite Es. cbn [bind foldM].
  destruct (lookup_slice g y W) as (p & q & Ep & Eg); [apply Hin, in_app_iff; right; now left|].
  unfold gather_slice. rewrite Eg. cbn [bind fst].
  unfold slice_has_J in Hy. rewrite Ep in Hy.
  assert (Hl : (0 < Z.of_nat (length pre))%Z) by (destruct pre; [congruence|cbn [length]; lia]).
  destruct (p_J (pm p)) as [J|]; destruct b; cbn in Hy; try discriminate.
  - replace (0 <? has_J s + 1)%Z with false by (symmetry; apply Z.ltb_ge; lia). reflexivity.
  - replace (has_J s - 1 <? 0)%Z with false by (symmetry; apply Z.ltb_ge; lia). reflexivity.
Qed.
End Gather.

(** ** rectangular_grid *)

Lemma nth_error_map_seq {A} (f : nat -> A) n i : (i < n)%nat -> nth_error (map f (seq 0 n)) i = Some (f i).
Proof.
  intros H. rewrite nth_error_map.
  rewrite (nth_error_nth' _ 0%nat) by (rewrite seq_length; lia). rewrite seq_nth by lia. reflexivity.
Qed.

Lemma rect_ycoords_nth n L per i : (i < n)%nat ->
  exists y, nth_error (rectangular_ycoords n L per) i = Some y /\
  y == (if per then inject_Z (Z.of_nat i) else inject_Z (Z.of_nat i) + (1#2)) * (L / inject_Z (Z.of_nat n)).
Proof.
  intros H. unfold rectangular_ycoords. destruct per; rewrite nth_error_map_seq by assumption;
    eexists; (split; [reflexivity|]); field; change 0 with (inject_Z 0); rewrite inject_Z_injective; lia.
Qed.

Lemma rect_ycoords_length n L per : length (rectangular_ycoords n L per) = n.
Proof. unfold rectangular_ycoords. destruct per; now rewrite map_length, seq_length. Qed.

Lemma rectangular_ok {G} (pol : G) n L per : (0 < n)%nat -> 0 < L ->
  exists g, rectangular_grid pol n L per = Ok g /\ admissible g /\ uniform g /\ yperiodic g = per.
Proof.
  intros Hn HL. unfold rectangular_grid, Grid_init_single, Grid_init.
  rewrite map_length, Nat.eqb_refl.
  destruct (rectangular_ycoords n L per) as [|y0 ys] eqn:Ey.
  { apply (f_equal (@length Q)) in Ey. rewrite rect_ycoords_length in Ey. cbn in Ey. lia. }
  cbn [map]. eexists; split; [reflexivity|].
  assert (Hlen : length (y0 :: ys) = n) by (rewrite <- Ey; apply rect_ycoords_length).
  assert (Hq : 0 < inject_Z (Z.of_nat n)) by (change 0 with (inject_Z 0); rewrite <- Zlt_Qlt; lia).
  set (h := L / inject_Z (Z.of_nat n)).
  assert (Hh : 0 < h) by (apply Qlt_shift_div_l; lra).
  assert (HLh : L == inject_Z (Z.of_nat n) * h) by (unfold h; field; lra).
  assert (Hy : forall i y, nth_error (y0 :: ys) i = Some y -> (i < n)%nat /\
     y == (if per then inject_Z (Z.of_nat i) else inject_Z (Z.of_nat i) + (1#2)) * h).
  { intros i y E. pose proof (nth_error_lt _ _ _ E) as Li. rewrite Hlen in Li. split; [assumption|].
    destruct (rect_ycoords_nth n L per i Li) as (y' & E' & H'). rewrite Ey in E'. rewrite E in E'.
    now injection E' as ->. }
  assert (W : well_formed {| poloidal_grids := pol :: map (fun _ => pol) ys; ycoords := y0 :: ys; Ly := L; yperiodic := per |}).
  { split; cbn; [now rewrite map_length|lia]. }
  split; [split; [exact W|split]|split; [split; [exact W|]|reflexivity]].
  - cbn [ycoords Ly]. intros i y E. destruct (Hy i y E) as [Li Hv].
    assert (B0 : 0 <= inject_Z (Z.of_nat i)) by (change 0 with (inject_Z 0); rewrite <- Zle_Qle; lia).
    assert (B1 : inject_Z (Z.of_nat i) + 1 <= inject_Z (Z.of_nat n)).
    { change 1 with (inject_Z 1). rewrite <- inject_Z_plus, <- Zle_Qle. lia. }
    rewrite Hv, HLh. split.
    + apply Qmult_le_0_compat; [destruct per; lra|lra].
    + apply Qmult_lt_compat_r; [assumption|]. destruct per; lra.
  - cbn [ycoords]. intros i y1 y2 E1 E2. destruct (Hy _ _ E1) as [_ H1]. destruct (Hy _ _ E2) as [_ H2].
    rewrite H1, H2. apply Qmult_lt_compat_r; [assumption|].
    rewrite Nat2Z.inj_succ. unfold Z.succ. rewrite inject_Z_plus. change (inject_Z 1) with 1. destruct per; lra.
  - cbn [ycoords Ly]. exists ((if per then 0 else (1#2)) * h). intros i Hi.
    unfold ny. cbn [ycoords]. rewrite Hlen in *. fold h.
    destruct (nth_error (y0 :: ys) i) as [y|] eqn:E.
    2:{ apply nth_error_None in E. lia. }
    rewrite (nth_error_nth _ _ _ E). destruct (Hy _ _ E) as [_ ->]. destruct per; ring.
Qed.
