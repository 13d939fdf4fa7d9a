(** Proofs about the maps of a slab. *)
From Coq Require Import String List ZArith QArith Qabs Qfield Lia Lqa Bool.
From Verif Require Import Prelude PreludeFacts NamingModel NamingSpec GridModel GridSpec GridProofs GridMetric PolModel PolProofs
  DiffModel FieldModel FieldProofs MapsModel MapsSpec MapsMain SlabModel SlabSpec.
Import ListNotations.
Open Scope Q_scope.

Lemma slab_follows f : follows (slab_trace f) (slab_flow f).
Proof. intros a b y0 ys. exists (slab_flow f a b y0 y0). reflexivity. Qed.

Definition slab_t1 (f : field) (r z : Q) (ys : list Q) : list (Q * Q) := map (straight f (hd 0 ys) (r, z)) ys.
Lemma slab_pointwise f : pointwise (slab_trace f) (slab_t1 f).
Proof.
  split; [|intros; apply map_length].
  intros a b [|y0 ys] x z; [reflexivity|].
  unfold line, slab_trace, slab_t1. rewrite map_map. apply map_ext. intros y.
  unfold slab_flow. cbn [fst snd hd]. now rewrite <- surjective_pairing.
Qed.

(** ** The direction of the slabs *)

Lemma slab_dir f By Bz xc Bzp Rm x z y : (1 # 100000000) <= Qabs By -> is_slab_field f By Bz xc Bzp Rm ->
  exists dx dz, direction f [x] [z] y = Ok ([dx], [dz]) /\ dx == 0 /\ dz == slope By Bz xc Bzp Rm x.
Proof.
  intros H HF. assert (N : ~ By == 0) by (intros E; rewrite E in H; cbn in H; lra).
  assert (Q1 : Qlt_bool (Qabs By) (1 # 100000000) = false).
  { destruct (Qlt_bool (Qabs By) (1 # 100000000)) eqn:E; [|reflexivity]. apply Qlt_bool_iff in E. lra. }
  destruct HF as [[-> HR]| ->]; unfold direction, slab, curved_slab; cbn [length Nat.eqb negb Bxyzfunc Bxfunc Byfunc Bzfunc Rfunc combine map amin bind fst snd]; rewrite Q1; eexists _, _; (split; [reflexivity|]); cbn [fst snd]; unfold slope.
  - split; [ring|rewrite HR; field; exact N].
  - split; [ring|field; exact N].
Qed.

Lemma slab_straight f By Bz xc Bzp Rm y0 p y : (1 # 100000000) <= Qabs By -> is_slab_field f By Bz xc Bzp Rm ->
  fst (straight f y0 p y) == fst p /\ snd (straight f y0 p y) == snd p + slope By Bz xc Bzp Rm (fst p) * (y - y0).
Proof.
  intros H HF. destruct (slab_dir f By Bz xc Bzp Rm (fst p) (snd p) y0 H HF) as (dx & dz & E & Ex & Ez).
  unfold straight. rewrite E. cbn [fst snd]. rewrite Ex, Ez. split; ring.
Qed.

Lemma slope_ext By Bz xc Bzp Rm x x' : x == x' -> slope By Bz xc Bzp Rm x == slope By Bz xc Bzp Rm x'.
Proof. intros E. unfold slope. now rewrite E. Qed.

(** the line is an exact solution: any chord of it has the direction of the field at every
    point of the line *)
Lemma slab_exact f By Bz xc Bzp Rm y0 p y1 y2 y : (1 # 100000000) <= Qabs By -> is_slab_field f By Bz xc Bzp Rm ->
  exists dx dz, direction f [fst (straight f y0 p y)] [snd (straight f y0 p y)] y = Ok ([dx], [dz]) /\
    fst (straight f y0 p y2) - fst (straight f y0 p y1) == dx * (y2 - y1) /\
    snd (straight f y0 p y2) - snd (straight f y0 p y1) == dz * (y2 - y1).
Proof.
  intros H HF. destruct (slab_straight f By Bz xc Bzp Rm y0 p y H HF) as [S1 S2].
  destruct (slab_straight f By Bz xc Bzp Rm y0 p y1 H HF) as [A1 A2].
  destruct (slab_straight f By Bz xc Bzp Rm y0 p y2 H HF) as [B1 B2].
  destruct (slab_dir f By Bz xc Bzp Rm (fst (straight f y0 p y)) (snd (straight f y0 p y)) y H HF) as (dx & dz & E & Ex & Ez).
  exists dx, dz. split; [exact E|]. rewrite (slope_ext _ _ _ _ _ _ _ S1) in Ez. rewrite A1, A2, B1, B2, Ex, Ez. split; ring.
Qed.
Lemma slab_begins f By Bz xc Bzp Rm y0 p : (1 # 100000000) <= Qabs By -> is_slab_field f By Bz xc Bzp Rm ->
  fst (straight f y0 p y0) == fst p /\ snd (straight f y0 p y0) == snd p.
Proof. intros H HF. destruct (slab_straight f By Bz xc Bzp Rm y0 p y0 H HF) as [-> ->]. split; ring. Qed.

Section Maps.
Variables (nx nz M : Z) (Lx Lz Rc Zc : Q) (r : rect).
Hypothesis Hr : rect_init nx nz Lx Lz Rc Zc M = Ok r.
Hypothesis HM : (0 < nx - 2 * M)%Z.
Hypothesis Hnz : (0 < nz)%Z.
Hypothesis HLx : ~ Lx == 0.
Hypothesis HLz : ~ Lz == 0.
Variables (n : nat) (L : Q) (per : bool) (g : grid rect).
Hypothesis Hn : (0 < n)%nat.
Hypothesis HL : 0 < L.
Hypothesis Hg : rectangular_grid r n L per = Ok g.
Variables (f : field) (By Bz xc Bzp Rm : Q).
Hypothesis HB : (1 # 100000000) <= Qabs By.
Hypothesis HF : is_slab_field f By Bz xc Bzp Rm.
Variable repr : Q -> string.
Variable roots_jacobi : nat -> list Q * list Q.
Variable fll : list (Q * Q) -> list Q -> Q.
Variable Jperp : rect -> Z -> Z -> Q.
Variable is_slab : bool.
Hypothesis Hroots : forall m, length (fst (roots_jacobi m)) = m.
Variables (nslice mxg spd : Z) (refine : nat).
Hypothesis Hns : (0 <= nslice)%Z.
Hypothesis Hspd : (1 <= spd)%Z.
Hypothesis Hacc : weights_accepted roots_jacobi spd = true.
Hypothesis Href : (1 <= refine)%nat.
Let run := slab_maps repr f roots_jacobi fll Jperp is_slab g nslice mxg spd refine.

Lemma r_fields : r_nx r = nx /\ r_dR r = Lx / inject_Z (nx - 2 * M) /\ r_dZ r = Lz / inject_Z nz /\
  r_Rmin r = Rc - Lx / inject_Z (nx - 2 * M) * (inject_Z nx - 1) / 2.
Proof.
  revert Hr. unfold rect_init. destruct (Z.eqb_spec (nx - 2 * M) 0); [discriminate|]. destruct (Z.eqb_spec nz 0); [discriminate|].
  intros E. apply (f_equal (fun x => match x with Ok v => v | Err _ => r end)) in E. subst r. repeat split.
Qed.
Lemma inz_pos z : (0 < z)%Z -> ~ inject_Z z == 0.
Proof. intros H E. change 0 with (inject_Z 0) in E. rewrite inject_Z_injective in E. lia. Qed.
Lemma dR_nz : ~ r_dR r == 0.
Proof. destruct r_fields as (_ & -> & _). intros E. apply HLx. setoid_replace Lx with (Lx / inject_Z (nx - 2 * M) * inject_Z (nx - 2 * M)) by (field; now apply inz_pos). rewrite E. ring. Qed.
Lemma dZ_nz : ~ r_dZ r == 0.
Proof. destruct r_fields as (_ & _ & -> & _). intros E. apply HLz. setoid_replace Lz with (Lz / inject_Z nz * inject_Z nz) by (field; now apply inz_pos). rewrite E. ring. Qed.

Lemma g_facts : well_formed g /\ uniform g /\ yperiodic g = per /\ Ly g = L /\ ny g = Z.of_nat n /\
  (forall i p, nth_error (poloidal_grids g) i = Some p -> p = r).
Proof.
  destruct (rectangular_ok r n L per Hn HL) as (g' & E & [W A] & U & P). rewrite Hg in E.
  apply (f_equal (fun x => match x with Ok v => v | Err _ => g end)) in E. subst g'.
  split; [exact W|]. split; [exact U|]. split; [exact P|].
  revert Hg. unfold rectangular_grid, Grid_init_single, Grid_init. rewrite map_length, Nat.eqb_refl.
  pose proof (rect_ycoords_length n L per) as HN.
  destruct (rectangular_ycoords n L per) as [|y0 ys]; [cbn in HN; lia|].
  intros E. apply (f_equal (fun x => match x with Ok v => v | Err _ => g end)) in E. cbn [map] in E. subst g.
  unfold ny. cbn [GridModel.Ly ycoords poloidal_grids]. split; [reflexivity|]. split; [now rewrite HN|].
  intros i p H. apply nth_error_In in H. destruct H as [H|H]; [now symmetry|].
  apply in_map_iff in H. destruct H as (? & H & _). now symmetry.
Qed.

(** the slices: their position and that they are all the same *)
Lemma lookup : exists y0, forall i, if has_slice per n i
  then returns (getPoloidalGrid g (inject_Z i)) (Some r) (y0 + inject_Z i * (L / inject_Z (Z.of_nat n)))
  else exists y, getPoloidalGrid g (inject_Z i) = Ok (None, y).
Proof.
  destruct g_facts as (W & U & P & HLy & Hny & Hp).
  destruct (uniform_periodic_y g U) as [y0 HY]. exists y0. intros i. rewrite HLy, Hny in HY. unfold has_slice.
  pose proof (Z.mod_pos_bound i (Z.of_nat n)) as Bm.
  destruct per eqn:Eper.
  - cbn [orb]. destruct (periodic_lookup g i W P) as (p & y & E1 & E2 & y' & E3 & E4).
    rewrite (Hp _ _ E1) in E3. exists y'. split; [exact E3|]. rewrite E4, <- HY. unfold periodic_y.
    rewrite HLy. rewrite Hny in *. now rewrite (nth_error_nth _ _ 0 E2).
  - cbn [orb]. destruct (nonperiodic_lookup g i W P) as (H1 & H2 & H3). rewrite Hny in *.
    destruct (Z.leb_spec 0 i), (Z.ltb_spec i (Z.of_nat n)); cbn [andb].
    + destruct H1 as (p & y & E1 & E2 & y' & E3 & E4); [lia|]. rewrite (Hp _ _ E1) in E3. exists y'. split; [exact E3|].
      rewrite E4, <- HY. unfold periodic_y. rewrite HLy, Hny. rewrite Z.mod_small, Z.div_small by lia. rewrite (nth_error_nth _ _ 0 E2).
      change (inject_Z 0) with 0. ring.
    + destruct H3 as (y & E & _); [lia|]. now exists y.
    + destruct H2 as (y & E & _); [lia|]. now exists y.
    + destruct H2 as (y & E & _); [lia|]. now exists y.
Qed.

Lemma lookup2 j o : (0 <= j < Z.of_nat n)%Z ->
  exists yj yo po, getPoloidalGrid g (inject_Z j) = Ok (Some r, yj) /\ getPoloidalGrid g (inject_Z j + inject_Z o) = Ok (po, yo) /\
    if has_slice per n (j + o) then po = Some r /\ yo - yj == inject_Z o * (L / inject_Z (Z.of_nat n)) else po = None.
Proof.
  intros Hj. destruct lookup as [y0 H]. pose proof (H j) as H1. pose proof (H (j + o)%Z) as H2. rewrite inject_Z_plus in H2.
  assert (Ej : has_slice per n j = true).
  { unfold has_slice. apply orb_true_iff. right. apply andb_true_iff. split; [apply Z.leb_le|apply Z.ltb_lt]; lia. }
  rewrite Ej in H1. destruct H1 as (yj & E1 & Y1).
  destruct (has_slice per n (j + o)).
  - destruct H2 as (yo & E2 & Y2). exists yj, yo, (Some r). split; [exact E1|]. split; [exact E2|]. split; [reflexivity|]. rewrite Y1, Y2. ring.
  - destruct H2 as (yo & E2). exists yj, yo, None. now split.
Qed.

Lemma maps_run n_chunks junk : n_chunks <> 0%nat -> exists d, run n_chunks junk = Ok d.
Proof.
  destruct g_facts as (W & _).
  exact (never_fails repr rect_R rect_Z (fun r => Z.to_nat (r_nx r)) (fun r => Z.to_nat (r_nz r)) rect_find (slab_trace f) nowhere (Byfunc f) roots_jacobi fll Jperp is_slab
    (slab_flow f) (slab_t1 f) (slab_follows f) (slab_pointwise f) Hroots g W nslice mxg spd refine Hns Hspd Hacc Href n_chunks junk).
Qed.


Lemma rect_RZ i k : rect_R r i k = r_Rmin r + inject_Z i * r_dR r /\ rect_Z r i k = r_Zmin r + inject_Z k * r_dZ r.
Proof. split; reflexivity. Qed.
Lemma rect_R_pos i k : rect_R r i k == x_pos nx M Lx Rc i.
Proof. destruct (rect_RZ i k) as [-> _]. destruct r_fields as (_ & -> & _ & ->). unfold x_pos. field. now apply inz_pos. Qed.

Lemma maps_entries n_chunks junk d o j : n_chunks <> 0%nat -> run n_chunks junk = Ok d ->
  (o <> 0)%Z -> (Z.abs o <= nslice)%Z -> (0 <= j < Z.of_nat n)%Z ->
  exists aR ax az, stored repr d "R" (OInt o) aR /\ stored repr d "xt_prime" (OInt o) ax /\ stored repr d "zt_prime" (OInt o) az /\
    forall i k s, aR i j k s == x_pos nx M Lx Rc i /\
      if has_slice per n (j + o) then ax i j k s == inject_Z i /\ az i j k s == inject_Z k + shift nx nz M Lx Lz Rc n L By Bz xc Bzp Rm i o
      else ax i j k s = -(1) /\ az i j k s = -(1).
Proof.
  intros Hc E Ho Hs Hj. destruct g_facts as (W & _ & _ & _ & Hny & _).
  destruct (lookup2 j o Hj) as (yj & yo & po & E1 & E2 & E3).
  assert (Y : y_of g j (OInt o) yo) by (exists po; exact E2).
  destruct (y_independent repr rect_R rect_Z (fun r => Z.to_nat (r_nx r)) (fun r => Z.to_nat (r_nz r)) rect_find (slab_trace f) nowhere (Byfunc f) roots_jacobi fll Jperp is_slab
    (slab_flow f) (slab_t1 f) (slab_follows f) (slab_pointwise f) Hroots g W nslice mxg spd refine Hns Hspd Hacc Href (fun _ _ _ _ _ _ => eq_refl)
    n_chunks junk d o j Hc E Ho Hs) with (y := yo) as (pol & yj' & po' & yo' & aR & aZ & ax & az & D1 & D2 & S1 & S2 & S3 & S4 & V).
  { now rewrite Hny. }
  { exact Y. }
  rewrite E1 in D1. cbn [offset_value] in D2. rewrite E2 in D2.
  pose proof (f_equal (fun x => match x with Ok v => v | Err _ => (Some r, yj) end) D1) as F1. cbn beta iota in F1.
  pose proof (f_equal (fun x => match x with Ok v => v | Err _ => (po, yo) end) D2) as F2. cbn beta iota in F2.
  apply pair_equal_spec in F1. destruct F1 as [F1 <-]. apply pair_equal_spec in F2. destruct F2 as [<- <-].
  apply (f_equal (fun x => match x with Some v => v | None => r end)) in F1. cbn beta iota in F1. subst pol.
  exists aR, ax, az. split; [exact S1|]. split; [exact S3|]. split; [exact S4|].
  intros i k s. cbv zeta in V. destruct (V i k s) as (V1 & V2 & V3 & V4). clear V.
  destruct (slab_straight f By Bz xc Bzp Rm yj (rect_R r i k, rect_Z r i k) yo HB HF) as [T1 T2]. cbn [fst snd] in T1, T2.
  rewrite V1, V3, V4. unfold nowhere, slab_flow. cbn [fst snd]. split; [rewrite T1; apply rect_R_pos|].
  destruct (has_slice per n (j + o)).
  - destruct E3 as [-> E3]. unfold rect_find, rect_findIndex. cbn [fst snd]. rewrite T1, T2, E3.
    rewrite (slope_ext _ _ _ _ _ _ _ (rect_R_pos i k)). destruct (rect_RZ i k) as [-> ->].
    pose proof dR_nz as N1. pose proof dZ_nz as N2. unfold shift. destruct r_fields as (_ & _ & <- & _). split; field; repeat split; first [assumption|apply inz_pos; lia].
  - subst po. now split.
Qed.

Lemma shift_plus i o1 o2 : shift nx nz M Lx Lz Rc n L By Bz xc Bzp Rm i (o1 + o2) == shift nx nz M Lx Lz Rc n L By Bz xc Bzp Rm i o1 + shift nx nz M Lx Lz Rc n L By Bz xc Bzp Rm i o2.
Proof. unfold shift, Qdiv. rewrite inject_Z_plus. ring. Qed.
Lemma has_slice_mod i o : has_slice per n i = true -> has_slice per n (i + o) = true -> (0 <= i mod Z.of_nat n < Z.of_nat n)%Z /\ has_slice per n (i mod Z.of_nat n + o) = true.
Proof.
  intros H1 H2. pose proof (Z.mod_pos_bound i (Z.of_nat n)) as Bm. split; [lia|].
  revert H1 H2. unfold has_slice. destruct per; [reflexivity|]. cbn [orb]. intros H1 H2. apply andb_true_iff in H1. destruct H1 as [H1 H1'].
  apply Z.leb_le in H1. apply Z.ltb_lt in H1'. now rewrite Z.mod_small.
Qed.

Lemma maps_compose n_chunks junk d o1 o2 j : n_chunks <> 0%nat -> run n_chunks junk = Ok d ->
  (o1 <> 0)%Z -> (o2 <> 0)%Z -> (o1 + o2 <> 0)%Z -> (Z.abs o1 <= nslice)%Z -> (Z.abs o2 <= nslice)%Z -> (Z.abs (o1 + o2) <= nslice)%Z ->
  (0 <= j < Z.of_nat n)%Z -> has_slice per n (j + o1) = true -> has_slice per n (j + o1 + o2) = true ->
  exists a1 a2 a3, stored repr d "zt_prime" (OInt o1) a1 /\ stored repr d "zt_prime" (OInt o2) a2 /\ stored repr d "zt_prime" (OInt (o1 + o2)) a3 /\
    forall i k k' s, a3 i j k s - inject_Z k == (a1 i j k s - inject_Z k) + (a2 i ((j + o1) mod Z.of_nat n)%Z k' s - inject_Z k').
Proof.
  intros Hc E N1 N2 N3 B1 B2 B3 Hj S1 S2. destruct (has_slice_mod _ _ S1 S2) as [Hm S3].
  destruct (maps_entries n_chunks junk d o1 j Hc E N1 B1 Hj) as (? & ? & a1 & _ & _ & A1 & V1).
  destruct (maps_entries n_chunks junk d o2 _ Hc E N2 B2 Hm) as (? & ? & a2 & _ & _ & A2 & V2).
  destruct (maps_entries n_chunks junk d (o1 + o2) j Hc E N3 B3 Hj) as (? & ? & a3 & _ & _ & A3 & V3).
  rewrite Z.add_assoc, S2 in V3. rewrite S1 in V1. rewrite S3 in V2.
  exists a1, a2, a3. split; [exact A1|]. split; [exact A2|]. split; [exact A3|].
  intros i k k' s. destruct (V1 i k s) as (_ & _ & ->). destruct (V2 i k' s) as (_ & _ & ->). destruct (V3 i k s) as (_ & _ & ->).
  rewrite shift_plus. ring.
Qed.
Lemma maps_back n_chunks junk d o j : n_chunks <> 0%nat -> run n_chunks junk = Ok d ->
  (o <> 0)%Z -> (Z.abs o <= nslice)%Z -> (0 <= j < Z.of_nat n)%Z -> has_slice per n (j + o) = true ->
  exists a1 a2, stored repr d "zt_prime" (OInt o) a1 /\ stored repr d "zt_prime" (OInt (- o)) a2 /\
    forall i k k' s, (a1 i j k s - inject_Z k) + (a2 i ((j + o) mod Z.of_nat n)%Z k' s - inject_Z k') == 0.
Proof.
  intros Hc E N1 B1 Hj S1.
  assert (S2 : has_slice per n (j + o + - o) = true).
  { replace (j + o + - o)%Z with j by lia. unfold has_slice. apply orb_true_iff. right. apply andb_true_iff. split; [apply Z.leb_le|apply Z.ltb_lt]; lia. }
  destruct (has_slice_mod _ _ S1 S2) as [Hm S3].
  destruct (maps_entries n_chunks junk d o j Hc E N1 B1 Hj) as (? & ? & a1 & _ & _ & A1 & V1).
  destruct (maps_entries n_chunks junk d (- o) ((j + o) mod Z.of_nat n) Hc E) as (? & ? & a2 & _ & _ & A2 & V2); [lia|lia|exact Hm|].
  rewrite S1 in V1. rewrite S3 in V2. exists a1, a2. split; [exact A1|]. split; [exact A2|].
  intros i k k' s. destruct (V1 i k s) as (_ & _ & ->). destruct (V2 i k' s) as (_ & _ & ->).
  setoid_replace (inject_Z k + shift nx nz M Lx Lz Rc n L By Bz xc Bzp Rm i o - inject_Z k + (inject_Z k' + shift nx nz M Lx Lz Rc n L By Bz xc Bzp Rm i (- o) - inject_Z k'))
    with (shift nx nz M Lx Lz Rc n L By Bz xc Bzp Rm i (o + - o)) by (rewrite shift_plus; ring).
  replace (o + - o)%Z with 0%Z by lia. unfold shift, Qdiv. change (inject_Z 0) with 0. ring.
Qed.

(** B and J *)
Lemma t1_const R0 Z0 ys p : In p (slab_t1 f R0 Z0 ys) -> fst p == R0.
Proof.
  intros H. apply in_map_iff in H. destruct H as (y & <- & _).
  now destruct (slab_straight f By Bz xc Bzp Rm (hd 0 ys) (R0, Z0) y HB HF) as [-> _].
Qed.
Lemma By_const a b c : Byfunc f a b c = By.
Proof. destruct HF as [[-> _]| ->]; reflexivity. Qed.
Lemma By_nz : ~ By == 0.
Proof. intros E. rewrite E in HB. cbn in HB. lra. Qed.

Lemma lookup0 : exists y0, getPoloidalGrid g 0 = Ok (Some r, y0).
Proof. destruct (lookup2 0 0) as (yj & _ & _ & E & _); [lia|]. now exists yj. Qed.

Lemma B_along_const pol x z ym y yp : B_along rect_R rect_Z (slab_t1 f) (Byfunc f) refine pol x z ym y yp = repeat By (2 * refine + 1).
Proof.
  unfold B_along. erewrite map_ext; [|intros; apply By_const].
  match goal with |- map _ ?l = _ => assert (length l = 2 * refine + 1)%nat as HLn end.
  { rewrite combine_length. unfold consecutive, all_points, all_y, slab_t1. rewrite !firstn_length, !skipn_length, !app_length, !rev_length, !skipn_length, !map_length.
    unfold linspace. rewrite !map_length, !seq_length. lia. }
  revert HLn. generalize (combine (consecutive refine (2 * refine + 1) (all_points rect_R rect_Z (slab_t1 f) refine pol x z ym y yp)) (consecutive refine (2 * refine + 1) (all_y refine ym y yp))).
  generalize (2 * refine + 1)%nat. intros m l <-. induction l as [|a l IH]; [reflexivity|]. cbn [map length repeat]. now rewrite IH.
Qed.
Lemma B_spec_const k pol x z ym y yp : (k < 3)%nat -> B_spec rect_R rect_Z (slab_t1 f) (Byfunc f) refine k pol x z ym y yp = By.
Proof.
  intros Hk. unfold B_spec. rewrite B_along_const. apply (repeat_spec (2 * refine + 1)). apply nth_In. rewrite repeat_length. nia.
Qed.

Lemma maps_B n_chunks junk d : n_chunks <> 0%nat -> run n_chunks junk = Ok d ->
  forall name, In name ["By_cell_ylow"; "By"; "By_cell_yhigh"]%string -> exists a, d name = Some (VArr a) /\
  forall i j k s, (0 <= i < nx)%Z -> (0 <= j < Z.of_nat n)%Z -> a i j k s = By.
Proof.
  intros Hc E. destruct g_facts as (W & _ & _ & _ & Hny & _). destruct lookup0 as [y0 E0].
  destruct (integral_forms repr rect_R rect_Z (fun r => Z.to_nat (r_nx r)) (fun r => Z.to_nat (r_nz r)) rect_find (slab_trace f) nowhere (Byfunc f) roots_jacobi fll Jperp is_slab
    (slab_flow f) (slab_t1 f) (slab_follows f) (slab_pointwise f) Hroots g W nslice mxg spd refine Hns Hspd Hacc Href n_chunks junk d r y0 Hc E E0)
    as (aJ & aL0 & aL1 & aL2 & aB0 & aB1 & aB2 & _ & D0 & D1 & D2 & V).
  assert (K : forall i j k s, (0 <= i < nx)%Z -> (0 <= j < Z.of_nat n)%Z -> aB0 i j k s = By /\ aB1 i j k s = By /\ aB2 i j k s = By).
  { intros i j k s Hi Hj. destruct (V j) as (pol & y & pm & ym & pp & yp & _ & _ & _ & V'); [now rewrite Hny|].
    destruct (V' i k s) as (_ & _ & _ & _ & -> & -> & ->).
    { destruct r_fields as [-> _]. lia. }
    rewrite !B_spec_const by lia. now repeat split. }
  intros name [<-|[<-|[<-|[]]]]; eexists; (split; [eassumption|]); intros i j k s Hi Hj; now destruct (K i j k s Hi Hj) as (? & ? & ?).
Qed.

Lemma maps_J n_chunks junk d : n_chunks <> 0%nat -> run n_chunks junk = Ok d -> is_slab = false ->
  exists a, d "J"%string = Some (VArr a) /\
  forall i j k s, (0 <= i < nx)%Z -> (0 <= j < Z.of_nat n)%Z -> a i j k s == Jperp r i k * x_pos nx M Lx Rc i.
Proof.
  intros Hc E Hsl. destruct g_facts as (W & _ & _ & _ & Hny & _). destruct lookup0 as [y0 E0].
  destruct (uniform_field repr rect_R rect_Z (fun r => Z.to_nat (r_nx r)) (fun r => Z.to_nat (r_nz r)) rect_find (slab_trace f) nowhere (Byfunc f) roots_jacobi fll Jperp is_slab
    (slab_flow f) (slab_t1 f) (slab_follows f) (slab_pointwise f) Hroots g W nslice mxg spd refine Hns Hspd Hacc Href n_chunks junk d r y0 By Hc E E0 Hsl By_nz)
    as (aJ & D & V).
  { intros. rewrite By_const. reflexivity. }
  { intros R0 Z0 ys p. apply t1_const. }
  exists aJ. split; [exact D|]. intros i j k s Hi Hj. destruct (V j) as (pol & y & E1 & V'); [now rewrite Hny|].
  destruct (lookup2 j 0 Hj) as (yj & _ & _ & E2 & _). rewrite E2 in E1.
  apply (f_equal (fun x => match x with Ok (Some v, _) => v | _ => r end)) in E1. cbn beta iota in E1. subst pol.
  rewrite V' by (destruct r_fields as [-> _]; lia). now rewrite rect_R_pos.
Qed.
End Maps.
