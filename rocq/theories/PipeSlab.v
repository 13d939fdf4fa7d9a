(** The operators for the maps of a slab on a rectangular grid. *)
From Coq Require Import String List ZArith QArith Qabs Qround Qfield Lia Lqa Bool.
From Verif Require Import Prelude PreludeFacts NamingModel NamingSpec GridModel GridSpec PolModel FieldModel MapsModel MapsSpec MapsMore MapsMain
  MapsExamples SlabModel SlabSpec SlabProofs WeightsModel WeightsSpec WeightsInput WeightsRows WeightsTop WeightsModify WeightsModifyTop PipeModel PipeSpec PipeProofs.
Import ListNotations.
Open Scope Q_scope.

(** ** sums over the sub-samples *)
Lemma qsum_flat {A} (f : A -> list Q) l : qsum (flat_map f l) == qsum (map (fun a => qsum (f a)) l).
Proof. induction l as [|a l IH]; cbn [flat_map map qsum]; [reflexivity|]. rewrite qsum_app, IH. reflexivity. Qed.
Lemma seq_grid n k : seq 0 (k * n) = flat_map (fun a => map (fun b => (a * n + b)%nat) (seq 0 n)) (seq 0 k).
Proof.
  induction k as [|k IH]; [reflexivity|]. rewrite seq_S, flat_map_app, <- IH. cbn [flat_map Nat.add]. rewrite app_nil_r.
  replace (S k * n)%nat with (k * n + n)%nat by lia. rewrite seq_app. f_equal. cbn [Nat.add].
  clear. generalize (k * n)%nat as c. intros c. induction n as [|n IH]; [reflexivity|]. rewrite !seq_S, map_app, IH. reflexivity.
Qed.
Lemma sum_grid (phi : nat -> Q) n k : qsum (map phi (seq 0 (k * n))) == qsum (map (fun a => qsum (map (fun b => phi (a * n + b)%nat) (seq 0 n))) (seq 0 k)).
Proof.
  rewrite seq_grid. generalize (seq 0 k). intros l. induction l as [|a l IH]; cbn [flat_map map qsum]; [reflexivity|].
  rewrite map_app, qsum_app, IH, map_map. reflexivity.
Qed.
Lemma qsum_ext {A} (f h : A -> Q) l : (forall a, In a l -> f a == h a) -> qsum (map f l) == qsum (map h l).
Proof. intros H. induction l as [|a l IH]; cbn [map qsum]; [reflexivity|]. rewrite H by (now left). rewrite IH; [reflexivity|]. intros; apply H; now right. Qed.
Lemma qsum_lin {A} (f : A -> Q) c l : qsum (map (fun a => c * f a) l) == c * qsum (map f l).
Proof. induction l as [|a l IH]; cbn [map qsum]; [ring|]. rewrite IH. ring. Qed.
Lemma qsum_plus {A} (f h : A -> Q) l : qsum (map (fun a => f a + h a) l) == qsum (map f l) + qsum (map h l).
Proof. induction l as [|a l IH]; cbn [map qsum]; [ring|]. rewrite IH. ring. Qed.
Lemma seq_nth_list (l : list Q) : map (fun i => nth i l 0) (seq 0 (length l)) = l.
Proof. induction l as [|a l IH]; [reflexivity|]. cbn [length seq map nth]. f_equal. rewrite <- seq_shift, map_map. exact IH. Qed.

(** a quadrature rule in the first of two variables: exact for linear functions if the nodes are centred *)
Lemma rule_linear (h w : list Q) n F0 kap (W : nat -> Q) (phi : nat -> Q) : length h = n -> length w = n ->
  qsum w == 1 -> qsum (map (fun a => nth a w 0 * nth a h 0) (seq 0 n)) == 0 ->
  (forall a b, (a < n)%nat -> (b < n)%nat -> W (a * n + b)%nat == nth a w 0 * nth b w 0 /\ phi (a * n + b)%nat == F0 + kap * nth a h 0) ->
  qsum (map (fun s => W s * phi s) (seq 0 (n * n))) == F0.
Proof.
  intros Lh Lw S1 S0 H. rewrite sum_grid.
  rewrite (qsum_ext _ (fun a => F0 * nth a w 0 + kap * (nth a w 0 * nth a h 0))).
  - rewrite qsum_plus, !qsum_lin, S0. rewrite <- Lw, seq_nth_list, S1. ring.
  - intros a Ha. apply in_seq in Ha.
    rewrite (qsum_ext _ (fun b => (nth a w 0 * (F0 + kap * nth a h 0)) * nth b w 0)).
    + rewrite qsum_lin. rewrite <- Lw, seq_nth_list, S1. ring.
    + intros b Hb. apply in_seq in Hb. destruct (H a b ltac:(lia) ltac:(lia)) as [-> ->]. ring.
Qed.

(** ** positions *)
Lemma floor_at q i : inject_Z i <= q -> q < inject_Z (i + 1) -> Qfloor q = i.
Proof.
  intros H1 H2. pose proof (Qfloor_le q) as F1. pose proof (Qlt_floor q) as F2.
  assert (A : inject_Z (Qfloor q) < inject_Z (i + 1)) by lra. assert (B : inject_Z i < inject_Z (Qfloor q + 1)) by lra.
  rewrite <- Zlt_Qlt in A, B. lia.
Qed.
Lemma near_column q i h : q == inject_Z i + h -> (h == 0 \/ (1 # 10000) <= Qabs h < 1 # 2) ->
  (i - 1 <= Qfloor q <= i)%Z /\ (q - inject_Z (Qfloor q) == 0 \/ (1 # 10000) <= q - inject_Z (Qfloor q) <= (9999 # 10000)).
Proof.
  intros E [H|[H1 H2]].
  - assert (F : Qfloor q = i) by (apply floor_at; rewrite ?inject_Z_plus; change (inject_Z 1) with 1; lra). rewrite F. split; [lia|left; lra].
  - destruct (Qlt_le_dec h 0) as [N|N].
    + rewrite Qabs_neg in H1, H2 by lra.
      assert (F : Qfloor q = (i - 1)%Z) by (apply floor_at; unfold Z.sub; rewrite ?inject_Z_plus; change (inject_Z (-(1))) with (-(1)); change (inject_Z 1) with 1; lra).
      rewrite F. split; [lia|right]. unfold Z.sub. rewrite inject_Z_plus. change (inject_Z (-(1))) with (-(1)). lra.
    + rewrite Qabs_pos in H1, H2 by lra.
      assert (F : Qfloor q = i) by (apply floor_at; rewrite ?inject_Z_plus; change (inject_Z 1) with 1; lra). rewrite F. split; [lia|right; lra].
Qed.

Lemma inzp z : (0 < z)%Z -> ~ inject_Z z == 0.
Proof. intros H E. change 0 with (inject_Z 0) in E. rewrite inject_Z_injective in E. lia. Qed.

Section Slab.
Variables (nx nz M : Z) (Lx Lz Rc Zc : Q) (r : rect).
Hypothesis Hr : rect_init nx nz Lx Lz Rc Zc M = Ok r.
Hypothesis HM : (0 < nx - 2 * M)%Z.
Hypothesis Hnx : (0 <= nx)%Z.
Hypothesis Hnz : (0 < nz)%Z.
Hypothesis HLx : ~ Lx == 0.
Hypothesis HLz : ~ Lz == 0.
Variables (n : nat) (L : Q) (per : bool) (g : grid rect).
Hypothesis Hn : (0 < n)%nat.
Hypothesis HL : 0 < L.
Hypothesis Hg : rectangular_grid r n L per = Ok g.
Variables (f : field) (By Bz xc Bzp Rm : Q).
Hypothesis HB : (1 # 100000000) <= Qabs By.
Hypothesis HF : is_slab_field f By Bz xc Bzp Rm.
Variable repr : Q -> string.
Variable roots_jacobi : nat -> list Q * list Q.
Variable fll : list (Q * Q) -> list Q -> Q.
Variable Jperp : rect -> Z -> Z -> Q.
Variable is_slab : bool.
Hypothesis Hroots : forall m, length (fst (roots_jacobi m)) = m.
Hypothesis Hws : forall m, length (snd (roots_jacobi m)) = m.
Hypothesis Hpos : forall m, Forall (fun q => 0 < q) (snd (roots_jacobi m)).
Hypothesis Hsum : forall m, (0 < m)%nat -> qsum (snd (roots_jacobi m)) == 2.
(** centred nodes *)
Hypothesis Hcen : forall m, qsum (map (fun a => nth a (snd (roots_jacobi m)) 0 * nth a (fst (roots_jacobi m)) 0) (seq 0 m)) == 0.
Variables (mxg spd : Z) (refine : nat).
Hypothesis Hspd : (1 <= spd)%Z.
Hypothesis Href : (1 <= refine)%nat.
Hypothesis Hmxg : (0 <= mxg)%Z.
Hypothesis H2 : (2 * mxg <= nx)%Z.
Notation run := (slab_maps repr f roots_jacobi fll Jperp is_slab g 1 mxg spd refine).
Notation ns := (Z.to_nat spd * Z.to_nat spd)%nat.
Notation nd := (Z.to_nat spd).
Notation shift_at := (shift_at nx nz M Lx Lz Rc n L By Bz xc Bzp Rm).
(** their weights *)
Definition hw : list Q := if (spd =? 1)%Z then [1] else map (fun u => u * (1 # 2)) (snd (roots_jacobi nd)).

Lemma rf : r_nx r = nx /\ r_dR r = Lx / inject_Z (nx - 2 * M) /\ r_dZ r = Lz / inject_Z nz /\
  r_Rmin r = Rc - Lx / inject_Z (nx - 2 * M) * (inject_Z nx - 1) / 2.
Proof. eapply r_fields; eassumption. Qed.
Lemma dRn : ~ r_dR r == 0.
Proof. exact (dR_nz nx nz M Lx Lz Rc Zc r Hr HM HLx n L per g Hn Hg refine Href). Qed.
Lemma dZn : ~ r_dZ r == 0.
Proof. exact (dZ_nz nx nz M Lx Lz Rc Zc r Hr Hnz HLz n L per g Hn Hg refine Href). Qed.
Lemma gf : well_formed g /\ uniform g /\ yperiodic g = per /\ Ly g = L /\ ny g = Z.of_nat n /\
  (forall i p, nth_error (poloidal_grids g) i = Some p -> p = r).
Proof. exact (g_facts r n L per g Hn HL Hg f repr roots_jacobi fll Jperp is_slab 1 mxg spd refine Href). Qed.
Lemma lk2 j o : (0 <= j < Z.of_nat n)%Z ->
  exists yj yo po, getPoloidalGrid g (inject_Z j) = Ok (Some r, yj) /\ getPoloidalGrid g (inject_Z j + inject_Z o) = Ok (po, yo) /\
    if has_slice per n (j + o) then po = Some r /\ yo - yj == inject_Z o * (L / inject_Z (Z.of_nat n)) else po = None.
Proof. exact (lookup2 r n L per g Hn HL Hg f repr roots_jacobi fll Jperp is_slab 1 mxg spd refine Href j o). Qed.
Lemma rnz : r_nz r = nz.
Proof.
  revert Hr. unfold rect_init. destruct (Z.eqb_spec (nx - 2 * M) 0); [discriminate|]. destruct (Z.eqb_spec nz 0); [discriminate|].
  intros E. apply (f_equal (fun x => match x with Ok v => v | Err _ => r end)) in E. subst r. reflexivity.
Qed.
Lemma bilinear_R q k : (0 <= k < nz)%Z -> bilinear (Z.to_nat (r_nx r)) (Z.to_nat (r_nz r)) (rect_R r) q (inject_Z k) == r_Rmin r + q * r_dR r.
Proof.
  intros Hk. unfold bilinear. rewrite Qfloor_Z, rnz. unfold clipZ. rewrite (Z2Nat.id nz) by lia. replace (Z.max (-1) (Z.min (nz - 1) k)) with k by lia.
  set (i := Z.max 0 _). rewrite !(proj1 (rect_RZ r _ _)). rewrite inject_Z_plus. change (inject_Z 1) with 1. ring.
Qed.
Lemma R_at q : r_Rmin r + q * r_dR r == x_at nx M Lx Rc q.
Proof. destruct rf as (_ & -> & _ & ->). unfold x_at. field. now apply inzp. Qed.

Lemma hs_nth a : (a < nd)%nat -> exists u, nth_error (fst (roots_jacobi nd)) a = Some u /\ nth a (hs roots_jacobi spd) 0 = if (spd =? 1)%Z then 0 else u * (1 # 2).
Proof.
  intros Ha. destruct (nth_error (fst (roots_jacobi nd)) a) as [u|] eqn:E; [|apply nth_error_None in E; rewrite Hroots in E; lia].
  exists u. split; [reflexivity|]. unfold hs. destruct (Z.eqb_spec spd 1) as [->|N].
  - destruct a; [reflexivity|]. change (Z.to_nat 1) with 1%nat in Ha. lia.
  - erewrite nth_error_nth; [|rewrite nth_error_map, E; reflexivity]. reflexivity.
Qed.

(** where the sub-samples end *)
Lemma sub_positions n_chunks junk d dr ax az i j k a b : n_chunks <> 0%nat -> run n_chunks junk = Ok d ->
  stored repr d "xt_primes" (OInt (sgn dr)) ax -> stored repr d "zt_primes" (OInt (sgn dr)) az ->
  (0 <= j < Z.of_nat n)%Z -> (0 <= k < nz)%Z -> (a < nd)%nat -> (b < nd)%nat -> has_slice per n (j + sgn dr) = true ->
  ax i j k (Z.of_nat (a * nd + b)) == inject_Z i + nth a (hs roots_jacobi spd) 0 /\
  az i j k (Z.of_nat (a * nd + b)) == inject_Z k + shift_at (inject_Z i + nth a (hs roots_jacobi spd) 0) (sgn dr).
Proof.
  intros Hc E Sx Sz Hj Hk Ha Hb Hs.
  destruct gf as (W & _ & _ & _ & Hny & _).
  assert (Hacc : weights_accepted roots_jacobi spd = true) by (exact (accepted roots_jacobi Hsum spd refine Hspd Href)).
  destruct (lk2 j (sgn dr) Hj) as (yj & yo & po & E1 & E2 & E3). rewrite Hs in E3. destruct E3 as [-> E3].
  destruct (outermost_sub repr rect_R rect_Z (fun r => Z.to_nat (r_nx r)) (fun r => Z.to_nat (r_nz r)) rect_find (slab_trace f) nowhere (Byfunc f) roots_jacobi fll Jperp is_slab
    (slab_flow f) (slab_t1 f) (slab_follows f) (slab_pointwise f) Hroots g W 1 mxg spd refine ltac:(lia) Hspd Hacc Href n_chunks junk d (sgn dr) j Hc E)
    as (pol & yj' & po' & yo' & bx & bz & D1 & D2 & T1 & T2 & V); [destruct dr; cbn; lia|lia|now rewrite Hny|].
  rewrite Z.mul_1_l in T1, T2, D2.
  assert (EX : ax = bx) by (eapply stored_unique; eassumption). assert (EZ : az = bz) by (eapply stored_unique; eassumption). subst bx bz.
  rewrite E1 in D1. cbn [offset_value] in D2. rewrite E2 in D2.
  pose proof (f_equal (fun x => match x with Ok v => v | Err _ => (Some r, yj) end) D1) as F1. cbn beta iota in F1.
  pose proof (f_equal (fun x => match x with Ok v => v | Err _ => (Some r, yo) end) D2) as F2. cbn beta iota in F2.
  apply pair_equal_spec in F1. destruct F1 as [F1 <-]. apply pair_equal_spec in F2. destruct F2 as [<- <-].
  apply (f_equal (fun x => match x with Some v => v | None => r end)) in F1. cbn beta iota in F1. subst pol.
  destruct (hs_nth a Ha) as (u & Eu & ->). destruct (hs_nth b Hb) as (v & Ev & _).
  specialize (V a b u v Eu Ev). cbv zeta in V. rewrite Hroots in V. destruct (V i k) as [V1 V2]. clear V. rewrite V1, V2. clear V1 V2.
  unfold nowhere, slab_flow. cbn [fst snd]. unfold rect_find, rect_findIndex. cbn [fst snd].
  set (st := if (spd =? 1)%Z then own_start rect_R rect_Z else actual_start rect_R rect_Z (fun r0 => Z.to_nat (r_nx r0)) (fun r0 => Z.to_nat (r_nz r0))).
  set (h := if (spd =? 1)%Z then 0 else u * (1 # 2)).
  assert (SR : fst (st r u v) i k == r_Rmin r + (inject_Z i + h) * r_dR r).
  { unfold st, h. destruct (spd =? 1)%Z.
    - cbn [own_start fst]. rewrite (proj1 (rect_RZ r i k)). ring.
    - cbn [actual_start fst]. now apply bilinear_R. }
  assert (SZ : snd (st r u v) i k == r_Zmin r + inject_Z k * r_dZ r).
  { unfold st. destruct (spd =? 1)%Z; [reflexivity|].
    rewrite (no_z_sampling rect_R rect_Z (fun r0 => Z.to_nat (r_nx r0)) (fun r0 => Z.to_nat (r_nz r0)) r u v i k);
      [reflexivity|intros i1 i2 k'; rewrite (proj2 (rect_RZ r i1 k')), (proj2 (rect_RZ r i2 k')); reflexivity|cbv beta; rewrite rnz; lia]. }
  destruct (slab_straight f By Bz xc Bzp Rm yj (fst (st r u v) i k, snd (st r u v) i k) yo HB HF) as [T3 T4]. cbn [fst snd] in T3, T4.
  rewrite T3, T4, E3. rewrite (slope_ext _ _ _ _ _ _ _ (Qeq_trans _ _ _ SR (R_at (inject_Z i + h)))). rewrite SR, SZ.
  pose proof dRn as N1. pose proof dZn as N2.
  unfold PipeSpec.shift_at. destruct rf as (_ & _ & <- & _). split; field; repeat split; first [assumption|apply inzp; lia].
Qed.

Lemma shift_linear i h o : shift_at (inject_Z i + h) o == shift_at (inject_Z i) o + (shift_at 1 o - shift_at 0 o) * h.
Proof.
  unfold PipeSpec.shift_at, slope, x_at. field. assert (N : ~ By == 0) by (intros E; rewrite E in HB; cbn in HB; lra).
  repeat split; first [assumption|apply inzp; lia|discriminate].
Qed.

Lemma hw_facts : length (hs roots_jacobi spd) = nd /\ length hw = nd /\ qsum hw == 1 /\ qsum (map (fun a => nth a hw 0 * nth a (hs roots_jacobi spd) 0) (seq 0 nd)) == 0 /\
  forall a b, (a < nd)%nat -> (b < nd)%nat -> nth (a * nd + b) (subcell_weights roots_jacobi spd) 0 == nth a hw 0 * nth b hw 0.
Proof.
  unfold hs, hw. destruct (Z.eqb_spec spd 1) as [->|N].
  - change (Z.to_nat 1) with 1%nat. do 4 (split; [reflexivity|]). intros [|a] [|b] Ha Hb; try lia. reflexivity.
  - rewrite !map_length, Hroots, Hws. do 2 (split; [reflexivity|]). split; [rewrite qsum_half, Hsum by lia; reflexivity|]. split.
    + rewrite (qsum_ext _ (fun a => (1 # 4) * (nth a (snd (roots_jacobi nd)) 0 * nth a (fst (roots_jacobi nd)) 0))).
      * rewrite qsum_lin, Hcen. reflexivity.
      * intros a _.
        assert (K : forall l : list Q, nth a (map (fun u => u * (1 # 2)) l) 0 == nth a l 0 * (1 # 2)).
        { intros l. transitivity (nth a (map (fun u => u * (1 # 2)) l) (0 * (1 # 2))); [|now rewrite (map_nth (fun u => u * (1 # 2)) l 0 a)].
          destruct (Nat.lt_ge_cases a (length l)) as [Hl|Hl]; [rewrite (nth_indep _ 0 (0 * (1 # 2))) by (now rewrite map_length); reflexivity|].
          rewrite !nth_overflow by (now rewrite map_length). reflexivity. }
        rewrite !K. ring.
    + intros a b Ha Hb.
      destruct (nth_error (snd (roots_jacobi nd)) a) as [u|] eqn:Eu; [|apply nth_error_None in Eu; rewrite Hws in Eu; lia].
      destruct (nth_error (snd (roots_jacobi nd)) b) as [v|] eqn:Ev; [|apply nth_error_None in Ev; rewrite Hws in Ev; lia].
      pose proof (weights_nth roots_jacobi spd a b u v ltac:(lia) (Hws _) Eu Ev) as E. rewrite (nth_error_nth _ _ 0 E).
      erewrite (nth_error_nth (map _ _)) by (rewrite nth_error_map, Eu; reflexivity). erewrite (nth_error_nth (map _ _)) by (rewrite nth_error_map, Ev; reflexivity).
      reflexivity.
Qed.

(** the operator of a direction gives linear functions at the end of the line through the centre of the cell *)
Lemma slab_linear n_chunks junk jw jc d m v dr i j k F (al : Z -> Q) be ga : n_chunks <> 0%nat -> run n_chunks junk = Ok d ->
  weights_input d nx (ny g) nz ns = Ok m -> calculate_parallel_map_operators jw jc m = Ok v ->
  (0 <= j < Z.of_nat n)%Z -> (0 <= k < nz)%Z -> (mxg + 2 <= i <= nx - mxg - 3)%Z -> has_slice per n (j + sgn dr) = true ->
  (forall h, In h (hs roots_jacobi spd) -> h == 0 \/ (1 # 10000) <= Qabs h < 1 # 2) ->
  (forall h, In h (hs roots_jacobi spd) -> 1 <= inject_Z k + shift_at (inject_Z i + h) (sgn dr) < inject_Z (nz - 2)) ->
  (forall x y z, evolving m (x, y, z) -> F (wv_cell_number v (x, y, z)) == al y + be * inject_Z x + ga * inject_Z z) ->
  (lo_boundary_number (wv_dir dr v) (i, j, k) < 0)%Z /\
  row_apply (leg_row v dr (lo_interior_number (wv_dir dr v) (i, j, k))) F ==
    al ((j + sgn dr) mod Z.of_nat n)%Z + be * inject_Z i + ga * (inject_Z k + shift_at (inject_Z i) (sgn dr)).
Proof.
  intros Hc E Em Ev Hj Hk Hi Hs Hh Hz HFl.
  destruct gf as (W & _ & _ & _ & Hny & _).
  destruct (input_ok repr rect_R rect_Z (fun r => Z.to_nat (r_nx r)) (fun r => Z.to_nat (r_nz r)) rect_find (slab_trace f) nowhere (Byfunc f) roots_jacobi fll Jperp is_slab
    (slab_flow f) (slab_t1 f) (slab_follows f) (slab_pointwise f) Hroots Hws Hpos Hsum g W 1 mxg spd refine ltac:(lia) Hspd Href nx nz Hmxg H2 ltac:(lia) n_chunks junk d m Hc E Em)
    as (E1 & E2 & E3 & E4 & X & Zm & xt & zt & S & MI).
  pose proof (mi_valid _ _ _ _ _ _ _ MI) as V. destruct (legs jw jc _ _ _ _ _ V v Ev dr) as (L1 & L2 & _).
  destruct (S dr) as (S1 & S2 & _). destruct hw_facts as (Lh & Lw & Sw & S0 & Ww).
  assert (P : forall a b, (a < nd)%nat -> (b < nd)%nat ->
     X dr i j k (Z.of_nat (a * nd + b)) == inject_Z i + nth a (hs roots_jacobi spd) 0 /\
     Zm dr i j k (Z.of_nat (a * nd + b)) == inject_Z k + shift_at (inject_Z i + nth a (hs roots_jacobi spd) 0) (sgn dr))
    by (intros a b Ha Hb; now apply (sub_positions n_chunks junk d dr)).
  assert (Dec : forall s, (s < ns)%nat -> exists a b, (a < nd)%nat /\ (b < nd)%nat /\ s = (a * nd + b)%nat).
  { intros s Hs'. exists (s / nd)%nat, (s mod nd)%nat. assert (nd <> 0)%nat by lia.
    split; [apply Nat.div_lt_upper_bound; lia|]. split; [now apply Nat.mod_upper_bound|]. rewrite Nat.mul_comm. now apply Nat.div_mod. }
  assert (Hhn : forall a, (a < nd)%nat -> In (nth a (hs roots_jacobi spd) 0) (hs roots_jacobi spd)) by (intros a Ha; apply nth_In; now rewrite Lh).
  assert (Fl : forall s, (s < ns)%nat -> (mxg + 1 <= Qfloor (X dr i j k (Z.of_nat s)) <= nx - mxg - 3)%Z /\
    (X dr i j k (Z.of_nat s) - inject_Z (Qfloor (X dr i j k (Z.of_nat s))) == 0 \/
     (1#10000) <= X dr i j k (Z.of_nat s) - inject_Z (Qfloor (X dr i j k (Z.of_nat s))) <= (9999#10000)) /\
    (1 <= Qfloor (Zm dr i j k (Z.of_nat s)) <= nz - 3)%Z).
  { intros s Hs'. destruct (Dec s Hs') as (a & b & Ha & Hb & ->). destruct (P a b Ha Hb) as [P1 P2].
    destruct (near_column _ _ _ P1 (Hh _ (Hhn a Ha))) as [F1 F2]. split; [lia|]. split; [exact F2|].
    specialize (Hz _ (Hhn a Ha)). rewrite <- P2 in Hz. destruct Hz as [Hz1 Hz2].
    pose proof (Qfloor_le (Zm dr i j k (Z.of_nat (a * nd + b)))) as G1. pose proof (Qlt_floor (Zm dr i j k (Z.of_nat (a * nd + b)))) as G2.
    assert (A : inject_Z (Qfloor (Zm dr i j k (Z.of_nat (a * nd + b)))) < inject_Z (nz - 2)) by lra.
    assert (B : inject_Z 1 < inject_Z (Qfloor (Zm dr i j k (Z.of_nat (a * nd + b))) + 1)) by (change (inject_Z 1) with 1; lra).
    rewrite <- Zlt_Qlt in A, B. lia. }
  assert (NL : forall s, (s < ns)%nat -> ~ leaves m (read4 (X dr) (i, j, k) s)).
  { intros s Hs'. cbn [read4]. destruct (Fl s Hs') as ([F1 F2] & _). rewrite Zle_Qle in F1, F2.
    pose proof (Qfloor_le (X dr i j k (Z.of_nat s))) as G1. pose proof (Qlt_floor (X dr i j k (Z.of_nat s))) as G2.
    rewrite inject_Z_plus in G2. change (inject_Z 1) with 1 in G2. unfold leaves. rewrite E1, E4. unfold Z.sub in *. rewrite !inject_Z_plus in *.
    change (inject_Z (-(1))) with (-(1)) in *. change (inject_Z (-(3))) with (-(3 # 1)) in *. change (inject_Z 1) with 1 in *. intros [C|C]; lra. }
  assert (He : evolving m (i, j, k)) by (unfold evolving; rewrite E1, E2, E3, E4, Hny; lia).
  assert (Nn : (0 < ns)%nat) by nia.
  assert (Hin : some_inside m ns (read4 (X dr)) (i, j, k)) by (exists 0%nat; split; [exact Nn|now apply NL]).
  split.
  { apply Z.nle_gt. intros C. apply L2 in C. destruct C as [_ (s & Hs' & C)]. now apply (NL s). }
  rewrite (decoded_linear jw jc _ _ _ _ _ V v Ev dr (i, j, k) F al be ga He Hin); [|intros s Hs' _; rewrite E1, E3, E4; cbn [read4]; destruct (Fl s Hs') as (G1 & G2 & G3); auto|exact HFl].
  assert (En : next_y m dr (i, j, k) = ((j + sgn dr) mod Z.of_nat n)%Z) by (unfold next_y; rewrite E2, Hny; destruct dr; reflexivity).
  rewrite En. unfold inside_average, inside_area.
  assert (HLb : forall s, (s < ns)%nat -> leavesb m (read4 (X dr) (i, j, k) s) = false).
  { intros s Hs'. destruct (leavesb m (read4 (X dr) (i, j, k) s)) eqn:B; [|reflexivity]. exfalso. apply (NL s Hs'), leavesb_iff, B. }
  rewrite (qsum_ext (fun s => if leavesb m (read4 (X dr) (i, j, k) s) then 0 else nth s (subcell_weights roots_jacobi spd) 0) (fun s => nth s (subcell_weights roots_jacobi spd) 0 * 1))
    by (intros s Hs'; apply in_seq in Hs'; rewrite HLb by lia; ring).
  rewrite (rule_linear (hs roots_jacobi spd) hw nd 1 0 _ (fun _ => 1) Lh Lw Sw S0) by (intros a b Ha Hb; split; [now apply Ww|ring]).
  set (F0 := al ((j + sgn dr) mod Z.of_nat n)%Z + be * inject_Z i + ga * (inject_Z k + shift_at (inject_Z i) (sgn dr))).
  rewrite (qsum_ext _ (fun s => nth s (subcell_weights roots_jacobi spd) 0 * (al ((j + sgn dr) mod Z.of_nat n)%Z + be * X dr i j k (Z.of_nat s) + ga * Zm dr i j k (Z.of_nat s))))
    by (intros s Hs'; apply in_seq in Hs'; rewrite HLb by lia; reflexivity).
  rewrite (rule_linear (hs roots_jacobi spd) hw nd F0 (be + ga * (shift_at 1 (sgn dr) - shift_at 0 (sgn dr))) _ _ Lh Lw Sw S0); [field|].
  intros a b Ha Hb. split; [now apply Ww|]. destruct (P a b Ha Hb) as [-> ->]. rewrite shift_linear. unfold F0. ring.
Qed.
End Slab.

(** ** Concrete: the midpoint rule *)
Lemma sum_odd n : forall s c, qsum (map (fun i => c * (inject_Z (2 * Z.of_nat i + 1))) (seq s n)) == c * inject_Z (Z.of_nat n * (Z.of_nat n + 2 * Z.of_nat s)).
Proof.
  induction n as [|n IH]; intros s c; cbn [seq map qsum]; [change (inject_Z (Z.of_nat 0 * (Z.of_nat 0 + 2 * Z.of_nat s))) with 0; ring|].
  rewrite IH. rewrite <- Qmult_plus_distr_r. apply Qmult_comp; [reflexivity|]. rewrite <- inject_Z_plus. rewrite inject_Z_injective. lia.
Qed.
Lemma nth_repeat0 (q : Q) n a : (a < n)%nat -> nth a (repeat q n) 0 = q.
Proof. revert a. induction n as [|n IH]; intros a Ha; [lia|]. destruct a; [reflexivity|]. cbn. apply IH. lia. Qed.
Lemma midpoint_rule : rule ex_roots /\ centred ex_roots.
Proof.
  split.
  - split; [intros n; cbn [ex_roots fst]; now rewrite map_length, seq_length|]. split; [intros n; apply repeat_length|]. split.
    + intros n. cbn [ex_roots snd]. apply Forall_forall. intros q Hq. pose proof Hq as Hq'. apply repeat_spec in Hq. subst q.
      destruct n as [|n]; [destruct Hq'|]. apply Qlt_shift_div_l; [|rewrite Qmult_0_l; reflexivity]. change 0 with (inject_Z 0). rewrite <- Zlt_Qlt. lia.
    + intros n Hn. cbn [ex_roots snd]. assert (N : ~ inject_Z (Z.of_nat n) == 0) by (apply inzp; lia).
      assert (K : forall q k, qsum (repeat q k) == q * inject_Z (Z.of_nat k)).
      { intros q. induction k as [|k IH]; [cbn; ring|]. cbn [repeat qsum]. rewrite IH, Nat2Z.inj_succ. unfold Z.succ. rewrite inject_Z_plus. change (inject_Z 1) with 1. ring. }
      rewrite K. field. exact N.
  - intros n. cbn [ex_roots fst snd]. destruct n as [|n]; [reflexivity|]. set (m := S n). assert (N : ~ inject_Z (Z.of_nat m) == 0) by (apply inzp; lia).
    set (c := 2 / inject_Z (Z.of_nat m)).
    rewrite (qsum_ext _ (fun a => (c / inject_Z (Z.of_nat m)) * inject_Z (2 * Z.of_nat a + 1) + (- c) * 1)).
    + rewrite qsum_plus, sum_odd, qsum_lin.
      assert (K : forall l : list nat, qsum (map (fun _ => 1) l) == inject_Z (Z.of_nat (length l))).
      { induction l as [|a l IH]; [reflexivity|]. cbn [map qsum length]. rewrite IH, Nat2Z.inj_succ. unfold Z.succ. rewrite inject_Z_plus. change (inject_Z 1) with 1. ring. }
      rewrite K, seq_length. change (Z.of_nat 0) with 0%Z. rewrite inject_Z_mult, inject_Z_plus. change (inject_Z (2 * 0)) with 0. field. exact N.
    + intros a Ha. apply in_seq in Ha. rewrite nth_repeat0 by lia. fold c.
      rewrite (nth_indep _ 0 ((fun i => inject_Z (2 * Z.of_nat i + 1) / inject_Z (Z.of_nat m) - 1) 0%nat)) by (rewrite map_length, seq_length; lia).
      rewrite (map_nth (fun i => inject_Z (2 * Z.of_nat i + 1) / inject_Z (Z.of_nat m) - 1)). rewrite seq_nth by lia. cbn [Nat.add]. field. exact N.
Qed.
