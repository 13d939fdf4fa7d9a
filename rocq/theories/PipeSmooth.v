(** The operators made from the maps of make_maps on rectangular grids, with any tracer, on smooth fields. *)
From Coq Require Import String List ZArith QArith Qabs Qround Qfield Reals Qreals Lia Lra Bool.
From Verif Require Import Prelude PreludeFacts NamingModel NamingSpec GridModel GridSpec PolModel FieldModel MapsModel MapsSpec MapsMore MapsMain
  MapsExamples SlabModel SlabSpec SlabProofs RevLipSpec RevAcc PipeSmoothSpec WeightsModel WeightsSpec WeightsInput WeightsRows WeightsTop WeightsModify WeightsModifyTop PipeModel PipeSpec PipeProofs PipeSlab
  SmoothRowSpec WeightsSmooth.
Import ListNotations.
Open Scope R_scope.

(** ** scaling *)
Lemma smooth_scaled M f f' c a : 0 <= a -> smooth M f f' -> smooth (M * (a * a * a)) (fun t => f (c + a * t)) (fun t => f' (c + a * t) * a).
Proof.
  intros Ha (f2 & f3 & D1 & D2 & D3 & B). exists (fun t => f2 (c + a * t) * a * a), (fun t => f3 (c + a * t) * a * a * a).
  assert (S : forall h h', (forall t, derivable_pt_lim h t (h' t)) -> forall k t, derivable_pt_lim (fun t => h (c + a * t) * k) t (h' (c + a * t) * a * k)).
  { intros h h' D k t. apply (derivable_pt_lim_ext (fun t => k * h (c + a * t))); [intros; ring|]. replace (h' (c + a * t) * a * k) with (k * (h' (c + a * t) * a)) by ring.
    apply (derivable_pt_lim_scal (fun t => h (c + a * t))). now apply turn_lim. }
  split; [|split; [|split]].
  - intros t. now apply turn_lim.
  - intros t. now apply S.
  - intros t. apply (derivable_pt_lim_ext (fun t => f2 (c + a * t) * (a * a))); [intros; ring|]. replace (f3 (c + a * t) * a * a * a) with (f3 (c + a * t) * a * (a * a)) by ring. now apply S.
  - intros t. replace (f3 (c + a * t) * a * a * a) with (f3 (c + a * t) * (a * a * a)) by ring. rewrite Rabs_mult. assert (P : 0 <= a * a * a) by (apply Rmult_le_pos; [apply Rmult_le_pos|]; assumption).
    rewrite (Rabs_pos_eq (a * a * a)) by exact P. apply Rmult_le_compat_r; [exact P|apply B].
Qed.
Lemma smooth2_scaled Kx Kz phi c a c' a' : 0 <= a -> 0 <= a' -> smooth2 Kx Kz phi -> smooth2 (Kx * (a * a * a)) (Kz * (a' * a' * a')) (fun x z => phi (c + a * x) (c' + a' * z)).
Proof.
  intros Ha Ha' (S1 & S2). split.
  - intros z. destruct (S1 (c' + a' * z)) as (g' & S). exists (fun x => g' (c + a * x) * a). now apply (smooth_scaled Kx (fun x => phi x (c' + a' * z)) g').
  - intros x. destruct (S2 (c + a * x)) as (g' & S). exists (fun z => g' (c' + a' * z) * a'). now apply (smooth_scaled Kz (fun z => phi (c + a * x) z) g').
Qed.

(** ** sums over the sub-samples *)
Lemma total_R_app l m : total_R (l ++ m) = total_R l + total_R m.
Proof. induction l as [|a l IH]; cbn; [ring|]. rewrite IH. ring. Qed.
Lemma total_R_grid (phi : nat -> R) n k : total_R (map phi (seq 0 (k * n))) = total_R (map (fun a => total_R (map (fun b => phi (a * n + b)%nat) (seq 0 n))) (seq 0 k)).
Proof.
  rewrite seq_grid. generalize (seq 0 k). intros l. induction l as [|a l IH]; cbn [flat_map map total_R]; [reflexivity|].
  rewrite map_app, total_R_app, IH, map_map. reflexivity.
Qed.
Lemma total_R_list l : total_R (map (fun b => Q2R (nth b l 0%Q)) (seq 0 (length l))) = Q2R (qsum l).
Proof. rewrite <- (map_map (fun b => nth b l 0%Q) Q2R), seq_nth_list, qsum_R. reflexivity. Qed.

Section Rect.
Variable repr : Q -> string.
Variable trace : arr2 -> arr2 -> list Q -> list (arr2 * arr2).
Variable Byf : Q -> Q -> Q -> Q.
Variable roots_jacobi : nat -> list Q * list Q.
Variable fll : list (Q * Q) -> list Q -> Q.
Variable Jperp : rect -> Z -> Z -> Q.
Variable is_slab : bool.
Variable flow : arr2 -> arr2 -> Q -> Q -> arr2 * arr2.
Variable t1 : Q -> Q -> list Q -> list (Q * Q).
Hypothesis Hflow : follows trace flow.
Hypothesis Ht : pointwise trace t1.
Hypothesis Hrule : rule roots_jacobi.
Variable g : grid rect.
Hypothesis Wg : well_formed g.
Variables (mxg spd : Z) (refine : nat).
Hypothesis Hspd : (1 <= spd)%Z.
Hypothesis Href : (1 <= refine)%nat.
Variables nx nz : Z.
Hypothesis Hmxg : (0 <= mxg)%Z.
Hypothesis Hnx : (2 * mxg <= nx)%Z.
Hypothesis Hnz : (0 < nz)%Z.
Notation run := (make_maps repr rect rect_R rect_Z (fun r => Z.to_nat (r_nx r)) (fun r => Z.to_nat (r_nz r)) rect_find trace nowhere Byf roots_jacobi fll Jperp is_slab g 1 mxg spd refine).
Notation nd := (Z.to_nat spd).
Notation ns := (Z.to_nat spd * Z.to_nat spd)%nat.

Lemma hs_nth' a : (a < nd)%nat -> exists u, nth_error (fst (roots_jacobi nd)) a = Some u /\ nth a (hs roots_jacobi spd) 0%Q = if (spd =? 1)%Z then 0%Q else (u * (1 # 2))%Q.
Proof.
  destruct Hrule as (R1 & R2 & R3 & R4). intros Ha. destruct (nth_error (fst (roots_jacobi nd)) a) as [u|] eqn:E; [|apply nth_error_None in E; rewrite R1 in E; lia].
  exists u. split; [reflexivity|]. unfold hs. destruct (Z.eqb_spec spd 1) as [->|N].
  - destruct a; [reflexivity|]. change (Z.to_nat 1) with 1%nat in Ha. lia.
  - erewrite nth_error_nth; [|rewrite nth_error_map, E; reflexivity]. reflexivity.
Qed.
Lemma node_weights_facts : length (node_weights roots_jacobi spd) = nd /\ (qsum (node_weights roots_jacobi spd) == 1)%Q /\
  forall a b, (a < nd)%nat -> (b < nd)%nat -> (nth (a * nd + b) (subcell_weights roots_jacobi spd) 0 == nth a (node_weights roots_jacobi spd) 0 * nth b (node_weights roots_jacobi spd) 0)%Q.
Proof.
  destruct Hrule as (R1 & R2 & R3 & R4). unfold node_weights. destruct (Z.eqb_spec spd 1) as [->|N].
  - change (Z.to_nat 1) with 1%nat. do 2 (split; [reflexivity|]). intros [|a] [|b] Ha Hb; try lia. reflexivity.
  - rewrite !map_length, R2. split; [reflexivity|]. split; [rewrite qsum_half, R4 by lia; reflexivity|]. intros a b Ha Hb.
    destruct (nth_error (snd (roots_jacobi nd)) a) as [u|] eqn:Eu; [|apply nth_error_None in Eu; rewrite R2 in Eu; lia].
    destruct (nth_error (snd (roots_jacobi nd)) b) as [v|] eqn:Ev; [|apply nth_error_None in Ev; rewrite R2 in Ev; lia].
    pose proof (weights_nth roots_jacobi spd a b u v ltac:(lia) (R2 _) Eu Ev) as E. rewrite (nth_error_nth _ _ 0%Q E).
    erewrite (nth_error_nth (map _ _)) by (rewrite nth_error_map, Eu; reflexivity). erewrite (nth_error_nth (map _ _)) by (rewrite nth_error_map, Ev; reflexivity).
    reflexivity.
Qed.
Lemma place_bilinear (r0 : rect) q k : r_nz r0 = nz -> (0 <= k < nz)%Z -> (bilinear (Z.to_nat (r_nx r0)) (Z.to_nat (r_nz r0)) (rect_R r0) q (inject_Z k) == r_Rmin r0 + q * r_dR r0)%Q.
Proof.
  intros E Hk. unfold bilinear. rewrite Qfloor_Z, E. unfold clipZ. rewrite (Z2Nat.id nz) by lia. replace (Z.max (-1) (Z.min (nz - 1) k)) with k by lia.
  set (i := Z.max 0 _). rewrite !(proj1 (rect_RZ r0 _ _)). rewrite inject_Z_plus. change (inject_Z 1) with 1%Q. ring.
Qed.

(** where the sub-samples end *)
Lemma sub_ends n_chunks junk d dr ax az i j k a b r0 yj r yo : n_chunks <> 0%nat -> run n_chunks junk = Ok d ->
  stored repr d "xt_primes" (OInt (sgn dr)) ax -> stored repr d "zt_primes" (OInt (sgn dr)) az ->
  getPoloidalGrid g (inject_Z j) = Ok (Some r0, yj) -> getPoloidalGrid g (inject_Z j + inject_Z (sgn dr)) = Ok (Some r, yo) -> r_nz r0 = nz ->
  (0 <= j < ny g)%Z -> (0 <= k < nz)%Z -> (a < nd)%nat -> (b < nd)%nat ->
  exists A B, (A i k == r_Rmin r0 + (inject_Z i + nth a (hs roots_jacobi spd) 0) * r_dR r0 /\ B i k == r_Zmin r0 + inject_Z k * r_dZ r0 /\
    ax i j k (Z.of_nat (a * nd + b)) = (fst (flow A B yj yo) i k - r_Rmin r) / r_dR r /\
    az i j k (Z.of_nat (a * nd + b)) = (snd (flow A B yj yo) i k - r_Zmin r) / r_dZ r)%Q.
Proof.
  intros Hc E Sx Sz E1 E2 En Hj Hk Ha Hb. destruct Hrule as (R1 & R2 & R3 & R4).
  assert (Hacc : weights_accepted roots_jacobi spd = true) by (exact (accepted roots_jacobi R4 spd refine Hspd Href)).
  destruct (outermost_sub repr rect_R rect_Z (fun r => Z.to_nat (r_nx r)) (fun r => Z.to_nat (r_nz r)) rect_find trace nowhere Byf roots_jacobi fll Jperp is_slab
    flow t1 Hflow Ht R1 g Wg 1 mxg spd refine ltac:(lia) Hspd Hacc Href n_chunks junk d (sgn dr) j Hc E)
    as (pol & yj' & po' & yo' & bx & bz & D1 & D2 & T1 & T2 & V); [destruct dr; cbn; lia|lia|exact Hj|].
  rewrite Z.mul_1_l in T1, T2, D2.
  assert (EX : ax = bx) by (eapply stored_unique; eassumption). assert (EZ : az = bz) by (eapply stored_unique; eassumption). subst bx bz.
  rewrite E1 in D1. cbn [offset_value] in D2. rewrite E2 in D2.
  pose proof (f_equal (fun x => match x with Ok v => v | Err _ => (Some r, yj) end) D1) as F1. cbn beta iota in F1.
  pose proof (f_equal (fun x => match x with Ok v => v | Err _ => (Some r, yo) end) D2) as F2. cbn beta iota in F2.
  apply pair_equal_spec in F1. destruct F1 as [F1 <-]. apply pair_equal_spec in F2. destruct F2 as [<- <-].
  apply (f_equal (fun x => match x with Some v => v | None => r end)) in F1. cbn beta iota in F1. subst pol.
  destruct (hs_nth' a Ha) as (u & Eu & ->). destruct (hs_nth' b Hb) as (v & Ev & _).
  specialize (V a b u v Eu Ev). cbv zeta in V. rewrite R1 in V. destruct (V i k) as [V1 V2]. clear V.
  set (st := if (spd =? 1)%Z then own_start rect_R rect_Z else actual_start rect_R rect_Z (fun r0 => Z.to_nat (r_nx r0)) (fun r0 => Z.to_nat (r_nz r0))) in *.
  exists (fst (st r0 u v)), (snd (st r0 u v)). split; [|split; [|split]].
  - unfold st. destruct (spd =? 1)%Z.
    + cbn [own_start fst]. rewrite (proj1 (rect_RZ r0 i k)). ring.
    + cbn [actual_start fst]. now apply place_bilinear.
  - unfold st. destruct (spd =? 1)%Z; [reflexivity|].
    rewrite (no_z_sampling rect_R rect_Z (fun r0 => Z.to_nat (r_nx r0)) (fun r0 => Z.to_nat (r_nz r0)) r0 u v i k);
      [reflexivity|intros i1 i2 k'; rewrite (proj2 (rect_RZ r0 i1 k')), (proj2 (rect_RZ r0 i2 k')); reflexivity|cbv beta; rewrite En; lia].
  - rewrite V1. reflexivity.
  - rewrite V2. reflexivity.
Qed.

Variables (e : R) (line : R -> R -> R -> R -> R * R).
Hypothesis Hline : ends_within e line flow.
(** the row of a direction *)
Lemma rect_rows n_chunks junk jw jc d m v dr i j k r0 yj r yo f q M phi Kx Kz L delta : n_chunks <> 0%nat -> run n_chunks junk = Ok d ->
  weights_input d nx (ny g) nz ns = Ok m -> calculate_parallel_map_operators jw jc m = Ok v ->
  getPoloidalGrid g (inject_Z j) = Ok (Some r0, yj) -> getPoloidalGrid g (inject_Z j + inject_Z (sgn dr))%Q = Ok (Some r, yo) -> r_nz r0 = nz -> (0 < r_dR r)%Q -> (0 < r_dZ r)%Q ->
  (mxg <= i < nx - mxg)%Z -> (0 <= j < ny g)%Z -> (0 <= k < nz)%Z ->
  let fin a := line (place_R r0 (inject_Z i + nth a (hs roots_jacobi spd) 0)%Q) (place_Z r0 (inject_Z k)) (Q2R yj) (Q2R yo) in
  (forall a, (a < nd)%nat -> place_R r (inject_Z (mxg + 1)) + e <= fst (fin a) < place_R r (inject_Z (nx - mxg - 2)) - e /\ place_Z r 0 + e <= snd (fin a)) ->
  (forall c', evolving m c' -> (f (wv_cell_number v c') == q c')%Q) -> (forall c', evolving m c' -> (Qabs (q c') <= M)%Q) ->
  smooth2 Kx Kz phi -> slope_below L phi -> (forall x z, phi x (z + IZR nz * Q2R (r_dZ r)) = phi x z) -> 0 <= delta ->
  (forall i' k', (mxg <= i' < nx - mxg)%Z -> (0 <= k' < nz)%Z -> Rabs (Q2R (q (i', (j + sgn dr) mod ny g, k')%Z) - phi (place_R r (inject_Z i')) (place_Z r (inject_Z k'))) <= delta) ->
  (lo_boundary_number (wv_dir dr v) (i, j, k) < 0)%Z /\
  Rabs (Q2R (row_apply (leg_row v dr (lo_interior_number (wv_dir dr v) (i, j, k))) f) -
        total_R (map (fun a => Q2R (nth a (node_weights roots_jacobi spd) 0%Q) * phi (fst (fin a)) (snd (fin a))) (seq 0 nd)))
    <= 3 / 32 * (Kx * (Q2R (r_dR r) * Q2R (r_dR r) * Q2R (r_dR r))) + 15 / 128 * (Kz * (Q2R (r_dZ r) * Q2R (r_dZ r) * Q2R (r_dZ r))) + 2 * L * e + 25 / 16 * delta + 5 / 10000000000 * Q2R M.
Proof.
  intros Hc E Em Ev G1 G2 Rn0 PR PZ Hi Hj Hk fin HE Hf HM SM SL PG Hd HV. destruct Hrule as (R1 & R2 & R3 & R4).
  destruct (input_ok repr rect_R rect_Z (fun r => Z.to_nat (r_nx r)) (fun r => Z.to_nat (r_nz r)) rect_find trace nowhere Byf roots_jacobi fll Jperp is_slab
    flow t1 Hflow Ht R1 R2 R3 R4 g Wg 1 mxg spd refine ltac:(lia) Hspd Href nx nz Hmxg Hnx ltac:(lia) n_chunks junk d m Hc E Em)
    as (E1 & E2 & E3 & E4 & X & Zm & xt & zt & S & MI).
  pose proof (mi_valid _ _ _ _ _ _ _ MI) as V. destruct (legs jw jc _ _ _ _ _ V v Ev dr) as (L1 & L2 & _).
  destruct (S dr) as (S1 & S2 & _). destruct node_weights_facts as (Lw & Sw & Ww).
  set (dR := Q2R (r_dR r)) in *. set (dZ := Q2R (r_dZ r)) in *.
  assert (P1 : 0 < dR) by (unfold dR; rewrite <- Q2R_0; now apply Qlt_Rlt). assert (P2 : 0 < dZ) by (unfold dZ; rewrite <- Q2R_0; now apply Qlt_Rlt).
  assert (NR : ~ (r_dR r == 0)%Q) by (intros C; rewrite C in PR; discriminate (proj1 (Qlt_alt 0 0) PR)).
  assert (NZ : ~ (r_dZ r == 0)%Q) by (intros C; rewrite C in PZ; discriminate (proj1 (Qlt_alt 0 0) PZ)).
  set (R0 := Q2R (r_Rmin r)). set (Z0 := Q2R (r_Zmin r)).
  assert (PLR : forall x, place_R r x = R0 + dR * Q2R x) by (intros x; unfold place_R, R0, dR; rewrite Q2R_plus, Q2R_mult; ring).
  assert (PLZ : forall z, place_Z r z = Z0 + dZ * Q2R z) by (intros z; unfold place_Z, Z0, dZ; rewrite Q2R_plus, Q2R_mult; ring).
  (* positions *)
  assert (P : forall a b, (a < nd)%nat -> (b < nd)%nat ->
     Rabs (R0 + dR * Q2R (X dr i j k (Z.of_nat (a * nd + b))) - fst (fin a)) <= e /\ Rabs (Z0 + dZ * Q2R (Zm dr i j k (Z.of_nat (a * nd + b))) - snd (fin a)) <= e).
  { intros a b Ha Hb. destruct (sub_ends n_chunks junk d dr (X dr) (Zm dr) i j k a b r0 yj r yo Hc E S1 S2 G1 G2 Rn0 Hj Hk Ha Hb) as (A & B & Q1 & Q2 & Q3 & Q4).
    assert (K := Hline A B yj yo i k). cbv zeta in K. rewrite (Qeq_eqR _ _ Q1), (Qeq_eqR _ _ Q2) in K. fold (place_R r0 (inject_Z i + nth a (hs roots_jacobi spd) 0)%Q) in K. fold (place_Z r0 (inject_Z k)) in K. fold (fin a) in K.
    rewrite Q3, Q4. unfold R0, dR, Z0, dZ. rewrite <- !Q2R_mult, <- !Q2R_plus.
    assert (X1 : (r_Rmin r + r_dR r * ((fst (flow A B yj yo) i k - r_Rmin r) / r_dR r) == fst (flow A B yj yo) i k)%Q) by (field; exact NR).
    assert (X2 : (r_Zmin r + r_dZ r * ((snd (flow A B yj yo) i k - r_Zmin r) / r_dZ r) == snd (flow A B yj yo) i k)%Q) by (field; exact NZ).
    rewrite (Qeq_eqR _ _ X1), (Qeq_eqR _ _ X2). exact K. }
  assert (Dec : forall s, (s < ns)%nat -> exists a b, (a < nd)%nat /\ (b < nd)%nat /\ s = (a * nd + b)%nat).
  { intros s Hs'. exists (s / nd)%nat, (s mod nd)%nat. assert (nd <> 0)%nat by lia.
    split; [apply Nat.div_lt_upper_bound; lia|]. split; [now apply Nat.mod_upper_bound|]. rewrite Nat.mul_comm. now apply Nat.div_mod. }
  assert (AB : forall x y, Rabs x <= y -> - y <= x <= y) by (intros x y Hx; unfold Rabs in Hx; destruct (Rcase_abs x); lra).
  assert (Fl : forall s, (s < ns)%nat -> (inject_Z (mxg + 1) <= X dr i j k (Z.of_nat s))%Q /\ (X dr i j k (Z.of_nat s) < inject_Z (nx - mxg - 2))%Q /\ (0 <= Zm dr i j k (Z.of_nat s))%Q).
  { intros s Hs'. destruct (Dec s Hs') as (a & b & Ha & Hb & ->). destruct (P a b Ha Hb) as [K1 K2]. destruct (HE a Ha) as [H1 H2]. rewrite !PLR in H1. rewrite PLZ in H2. apply AB in K1. apply AB in K2.
    split; [|split].
    - apply Rle_Qle. apply Rmult_le_reg_l with dR; [exact P1|]. lra.
    - apply Rlt_Qlt. apply Rmult_lt_reg_l with dR; [exact P1|]. lra.
    - apply Rle_Qle. apply Rmult_le_reg_l with dZ; [exact P2|]. lra. }
  assert (FF : forall s, (s < ns)%nat -> (mxg + 1 <= Qfloor (X dr i j k (Z.of_nat s)) <= nx - mxg - 3)%Z).
  { intros s Hs'. destruct (Fl s Hs') as (F1 & F2 & _). apply Qfloor_resp_le in F1. rewrite Qfloor_Z in F1. split; [exact F1|].
    assert (F3 := Qfloor_le (X dr i j k (Z.of_nat s))). assert (F4 := Qle_lt_trans _ _ _ F3 F2). rewrite <- Zlt_Qlt in F4. lia. }
  assert (NL : forall s, (s < ns)%nat -> ~ leaves m (read4 (X dr) (i, j, k) s)).
  { intros s Hs'. cbn [read4]. destruct (Fl s Hs') as (F1 & F2 & _). unfold leaves. rewrite E1, E4. intros [C|C].
    - assert (T := Qle_lt_trans _ _ _ F1 C). rewrite <- Zlt_Qlt in T. lia.
    - assert (T := Qlt_trans _ _ _ C F2). rewrite <- Zlt_Qlt in T. lia. }
  assert (He : evolving m (i, j, k)) by (unfold evolving; rewrite E1, E2, E3, E4; lia).
  assert (Nn : (0 < ns)%nat) by nia.
  assert (Hin : some_inside m ns (read4 (X dr)) (i, j, k)) by (exists 0%nat; split; [exact Nn|now apply NL]).
  split.
  { apply Z.nle_gt. intros C. apply L2 in C. destruct C as [_ (s & Hs' & C)]. now apply (NL s). }
  assert (En : next_y m dr (i, j, k) = ((j + sgn dr) mod ny g)%Z) by (unfold next_y; rewrite E2; destruct dr; reflexivity).
  set (G := fun x z => phi (R0 + dR * x) (Z0 + dZ * z)).
  assert (SG : smooth2 (Kx * (dR * dR * dR)) (Kz * (dZ * dZ * dZ)) G) by (apply smooth2_scaled; [lra|lra|exact SM]).
  assert (A := smooth_rows jw jc m ns _ _ _ V v Ev dr (i, j, k) f q M He Hin Hf HM G _ _ delta SG Hd).
  set (W := subcell_weights roots_jacobi spd) in *. set (row := Q2R (row_apply _ f)) in *.
  assert (A' : Rabs (row - inside_average_R m ns (read4 (X dr)) W (i, j, k) (fun s => G (Q2R (read4 (X dr) (i, j, k) s)) (Q2R (read4 (Zm dr) (i, j, k) s)))) <= 3 / 32 * (Kx * (dR * dR * dR)) + 15 / 128 * (Kz * (dZ * dZ * dZ)) + 25 / 16 * delta + 5 / 10000000000 * Q2R M).
  { apply A.
    - intros x z. unfold G. rewrite E3. replace (Z0 + dZ * (z + IZR nz)) with (Z0 + dZ * z + IZR nz * dZ) by ring. apply PG.
    - intros i' k' (Hi' & _ & Hk'). rewrite E1, E4 in Hi'. rewrite E3 in Hk'. rewrite En. unfold G. rewrite <- (Q2R_Z i'), <- (Q2R_Z k'), <- PLR, <- PLZ. now apply HV.
    - intros s Hs' _. rewrite E1, E4. cbn [read4]. split; [now apply Fl|now apply FF]. }
  assert (B := average_R_near m ns _ _ _ V dr (i, j, k) Hin (fun s => G (Q2R (read4 (X dr) (i, j, k) s)) (Q2R (read4 (Zm dr) (i, j, k) s))) (fun s => phi (fst (fin (s / nd)%nat)) (snd (fin (s / nd)%nat))) (2 * L * e)).
  assert (L0 : 0 <= L). { assert (T := SL 1 0 0 0). rewrite !Rminus_0_r, Rabs_R1, Rabs_R0, Rplus_0_r, Rmult_1_r in T. apply Rle_trans with (2 := T). apply Rabs_pos. }
  assert (DIV : forall a b, (b < nd)%nat -> ((a * nd + b) / nd)%nat = a) by (intros a b Hb; rewrite Nat.div_add_l by lia; rewrite Nat.div_small by lia; lia).
  assert (B' : Rabs (inside_average_R m ns (read4 (X dr)) W (i, j, k) (fun s => G (Q2R (read4 (X dr) (i, j, k) s)) (Q2R (read4 (Zm dr) (i, j, k) s))) - inside_average_R m ns (read4 (X dr)) W (i, j, k) (fun s => phi (fst (fin (s / nd)%nat)) (snd (fin (s / nd)%nat)))) <= 2 * L * e).
  { apply B. intros s Hs' _. destruct (Dec s Hs') as (a & b & Ha & Hb & ->). rewrite DIV by exact Hb. cbn [read4]. destruct (P a b Ha Hb) as [K1 K2]. unfold G.
    apply Rle_trans with (1 := SL _ _ _ _). rewrite (Rmult_comm 2 L), Rmult_assoc. apply Rmult_le_compat_l; lra. }
  assert (LB : forall s, (s < ns)%nat -> leavesb m (read4 (X dr) (i, j, k) s) = false) by (intros s Hs'; apply leavesb_inside, NL, Hs').
  assert (SW1 : total_R (map (fun b => Q2R (nth b (node_weights roots_jacobi spd) 0%Q)) (seq 0 nd)) = 1) by (rewrite <- Lw at 1; rewrite total_R_list, (Qeq_eqR _ _ Sw); unfold Q2R; cbn; lra).
  assert (AV : forall h : nat -> R, total_R (map (fun s => if leavesb m (read4 (X dr) (i, j, k) s) then 0 else Q2R (nth s W 0%Q) * h (s / nd)%nat) (seq 0 ns)) = total_R (map (fun a => Q2R (nth a (node_weights roots_jacobi spd) 0%Q) * h a) (seq 0 nd))).
  { intros h. rewrite (total_R_ext _ (fun s => Q2R (nth s W 0%Q) * h (s / nd)%nat)) by (intros s Hs'; apply in_seq in Hs'; rewrite LB by lia; reflexivity).
    rewrite total_R_grid. apply total_R_ext. intros a Ha. apply in_seq in Ha.
    rewrite (total_R_ext _ (fun b => Q2R (nth b (node_weights roots_jacobi spd) 0%Q) * (Q2R (nth a (node_weights roots_jacobi spd) 0%Q) * h a))).
    - rewrite total_R_scaled, SW1. ring.
    - intros b Hb. apply in_seq in Hb. rewrite DIV by lia. rewrite (Qeq_eqR _ _ (Ww a b ltac:(lia) ltac:(lia))), Q2R_mult. ring. }
  assert (IA : inside_average_R m ns (read4 (X dr)) W (i, j, k) (fun s => phi (fst (fin (s / nd)%nat)) (snd (fin (s / nd)%nat))) = total_R (map (fun a => Q2R (nth a (node_weights roots_jacobi spd) 0%Q) * phi (fst (fin a)) (snd (fin a))) (seq 0 nd))).
  { unfold inside_average_R. rewrite (AV (fun a => phi (fst (fin a)) (snd (fin a)))).
    rewrite (total_R_ext (fun s => if leavesb m (read4 (X dr) (i, j, k) s) then 0 else Q2R (nth s W 0%Q)) (fun s => if leavesb m (read4 (X dr) (i, j, k) s) then 0 else Q2R (nth s W 0%Q) * (fun _ => 1) (s / nd)%nat)) by (intros s _; destruct (leavesb m (read4 (X dr) (i, j, k) s)); [reflexivity|ring]).
    rewrite (AV (fun _ => 1)). rewrite (total_R_ext (fun a => Q2R (nth a (node_weights roots_jacobi spd) 0%Q) * 1) (fun a => Q2R (nth a (node_weights roots_jacobi spd) 0%Q))) by (intros; ring). rewrite SW1. field. }
  rewrite IA in B'. apply Rle_trans with (1 := tri_R _ _ _ _ _ A' B'). lra.
Qed.

(** the central difference of the two rows *)
Lemma rect_derivative n_chunks junk jw jc d m v i j k r yb yj yf f q M phi Kx Kz L delta K dpsi : n_chunks <> 0%nat -> run n_chunks junk = Ok d ->
  weights_input d nx (ny g) nz ns = Ok m -> calculate_parallel_map_operators jw jc m = Ok v ->
  getPoloidalGrid g (inject_Z j) = Ok (Some r, yj) -> getPoloidalGrid g (inject_Z j + inject_Z 1)%Q = Ok (Some r, yf) -> getPoloidalGrid g (inject_Z j + inject_Z (-1))%Q = Ok (Some r, yb) ->
  (0 < yf - yj)%Q -> (yj - yb == yf - yj)%Q ->
  r_nz r = nz -> (0 < r_dR r)%Q -> (0 < r_dZ r)%Q -> (mxg <= i < nx - mxg)%Z -> (0 <= j < ny g)%Z -> (0 <= k < nz)%Z ->
  let fin a y := line (place_R r (inject_Z i + nth a (hs roots_jacobi spd) 0)%Q) (place_Z r (inject_Z k)) (Q2R yj) y in
  (forall a y, (a < nd)%nat -> In y [yb; yf] -> place_R r (inject_Z (mxg + 1)) + e <= fst (fin a (Q2R y)) < place_R r (inject_Z (nx - mxg - 2)) - e /\ place_Z r 0 + e <= snd (fin a (Q2R y))) ->
  (forall c', evolving m c' -> (f (wv_cell_number v c') == q c')%Q) -> (forall c', evolving m c' -> (Qabs (q c') <= M)%Q) ->
  (forall y, smooth2 Kx Kz (fun x z => phi x z y) /\ slope_below L (fun x z => phi x z y)) -> (forall x z y, phi x (z + IZR nz * Q2R (r_dZ r)) y = phi x z y) -> 0 <= delta ->
  (forall i' k' o y, In (o, y) [(1, yf); (-1, yb)]%Z -> (mxg <= i' < nx - mxg)%Z -> (0 <= k' < nz)%Z ->
     Rabs (Q2R (q (i', (j + o) mod ny g, k')%Z) - phi (place_R r (inject_Z i')) (place_Z r (inject_Z k')) (Q2R y)) <= delta) ->
  (forall a, (a < nd)%nat -> smooth K (fun t => phi (fst (fin a t)) (snd (fin a t)) t) (dpsi a)) ->
  let h := Q2R yf - Q2R yj in
  Rabs ((Q2R (row_apply (leg_row v Fwd (lo_interior_number (wv_dir Fwd v) (i, j, k))) f) - Q2R (row_apply (leg_row v Bwd (lo_interior_number (wv_dir Bwd v) (i, j, k))) f)) / (2 * h) -
        total_R (map (fun a => Q2R (nth a (node_weights roots_jacobi spd) 0%Q) * dpsi a (Q2R yj)) (seq 0 nd)))
    <= (3 / 32 * (Kx * (Q2R (r_dR r) * Q2R (r_dR r) * Q2R (r_dR r))) + 15 / 128 * (Kz * (Q2R (r_dZ r) * Q2R (r_dZ r) * Q2R (r_dZ r))) + 2 * L * e + 25 / 16 * delta + 5 / 10000000000 * Q2R M) / h + K * (h * h) / 6.
Proof.
  intros Hc E Em Ev G0 GF GB Hh Hb Rn PR PZ Hi Hj Hk fin HE Hf HM SM PG Hd HV SK h.
  assert (h0 : 0 < h) by (unfold h; rewrite <- Q2R_minus, <- Q2R_0; now apply Qlt_Rlt).
  assert (EF : Q2R yf = Q2R yj + h) by (unfold h; ring). assert (EB : Q2R yb = Q2R yj - h) by (unfold h; assert (T := Qeq_eqR _ _ Hb); rewrite !Q2R_minus in T; lra).
  destruct (rect_rows n_chunks junk jw jc d m v Fwd i j k r yj r yf f q M (fun x z => phi x z (Q2R yf)) Kx Kz L delta Hc E Em Ev G0 GF Rn PR PZ Hi Hj Hk) as (_ & A);
    [intros a Ha; apply HE; [exact Ha|right; left; reflexivity]|exact Hf|exact HM|apply SM|apply SM|intros x z; apply PG|exact Hd|intros i' k'; apply HV; left; reflexivity|].
  destruct (rect_rows n_chunks junk jw jc d m v Bwd i j k r yj r yb f q M (fun x z => phi x z (Q2R yb)) Kx Kz L delta Hc E Em Ev G0 GB Rn PR PZ Hi Hj Hk) as (_ & B);
    [intros a Ha; apply HE; [exact Ha|left; reflexivity]|exact Hf|exact HM|apply SM|apply SM|intros x z; apply PG|exact Hd|intros i' k'; apply HV; right; left; reflexivity|].
  set (EE := 3 / 32 * (Kx * (Q2R (r_dR r) * Q2R (r_dR r) * Q2R (r_dR r))) + 15 / 128 * (Kz * (Q2R (r_dZ r) * Q2R (r_dZ r) * Q2R (r_dZ r))) + 2 * L * e + 25 / 16 * delta + 5 / 10000000000 * Q2R M) in *.
  set (rF := Q2R (row_apply (leg_row v Fwd _) f)) in *. set (rB := Q2R (row_apply (leg_row v Bwd _) f)) in *.
  set (psi := fun a t => phi (fst (fin a t)) (snd (fin a t)) t) in *. set (wn := node_weights roots_jacobi spd) in *.
  change (Rabs (rF - total_R (map (fun a => Q2R (nth a wn 0%Q) * psi a (Q2R yf)) (seq 0 nd))) <= EE) in A.
  change (Rabs (rB - total_R (map (fun a => Q2R (nth a wn 0%Q) * psi a (Q2R yb)) (seq 0 nd))) <= EE) in B.
  destruct node_weights_facts as (Lw & Sw & Ww). fold wn in Lw, Sw.
  assert (SW1 : total_R (map (fun b => Q2R (nth b wn 0%Q)) (seq 0 nd)) = 1) by (rewrite <- Lw at 1; rewrite total_R_list, (Qeq_eqR _ _ Sw); unfold Q2R; cbn; lra).
  assert (WP : forall a, (a < nd)%nat -> 0 <= Q2R (nth a wn 0%Q)).
  { intros a Ha. rewrite <- Q2R_0. apply Qle_Rle. unfold wn, node_weights. destruct (Z.eqb_spec spd 1) as [E0|N]; [destruct a as [|[|a]]; discriminate|].
    destruct Hrule as (R1 & R2 & R3 & R4). destruct (nth_error (snd (roots_jacobi nd)) a) as [u|] eqn:Eu; [|apply nth_error_None in Eu; rewrite R2 in Eu; lia].
    erewrite nth_error_nth by (rewrite nth_error_map, Eu; reflexivity). specialize (R3 nd). rewrite Forall_forall in R3. apply nth_error_In in Eu. apply R3 in Eu. apply Qlt_le_weak in Eu.
    apply Qmult_le_0_compat; [exact Eu|discriminate]. }
  assert (CD : forall a, (a < nd)%nat -> Rabs ((psi a (Q2R yf) - psi a (Q2R yb)) / (2 * h) - dpsi a (Q2R yj)) <= K * (h * h) / 6).
  { intros a Ha. destruct (SK a Ha) as (f2 & f3 & D1 & D2 & D3 & B3). fold (psi a) in D1.
    assert (T := taylor (psi a) (dpsi a) f2 f3 K D1 D2 D3 B3 (Q2R yj)). rewrite EF, EB.
    assert (T1 := T (Q2R yj + h) h ltac:(apply Rabs_le; lra) ltac:(lra)). assert (T2 := T (Q2R yj - h) h ltac:(apply Rabs_le; lra) ltac:(lra)). clear T.
    replace (Q2R yj + h - Q2R yj) with h in T1 by ring. replace (Q2R yj - h - Q2R yj) with (- h) in T2 by ring.
    set (u := psi a (Q2R yj + h)) in *. set (l := psi a (Q2R yj - h)) in *. set (c0 := psi a (Q2R yj)) in *. set (c1 := dpsi a (Q2R yj)) in *. set (c2 := f2 (Q2R yj)) in *.
    replace ((u - l) / (2 * h) - c1) with (((u - c0 - h * c1 - h * h / 2 * c2) - (l - c0 - - h * c1 - - h * - h / 2 * c2)) * / (2 * h)) by (field; lra).
    rewrite Rabs_mult, (Rabs_pos_eq (/ (2 * h))) by (apply Rlt_le, Rinv_0_lt_compat; lra).
    apply Rmult_le_reg_r with (2 * h); [lra|]. rewrite Rmult_assoc, Rinv_l, Rmult_1_r by lra.
    apply Rle_trans with (h * h * h / 6 * K + h * h * h / 6 * K); [|lra].
    unfold Rminus at 1. apply Rle_trans with (1 := Rabs_triang _ _). rewrite Rabs_Ropp. lra. }
  set (SF := total_R (map (fun a => Q2R (nth a wn 0%Q) * psi a (Q2R yf)) (seq 0 nd))) in *. set (SB := total_R (map (fun a => Q2R (nth a wn 0%Q) * psi a (Q2R yb)) (seq 0 nd))) in *.
  assert (X : Rabs ((rF - rB) / (2 * h) - (SF - SB) / (2 * h)) <= EE / h).
  { replace ((rF - rB) / (2 * h) - (SF - SB) / (2 * h)) with (((rF - SF) - (rB - SB)) * / (2 * h)) by (unfold Rdiv; ring).
    rewrite Rabs_mult, (Rabs_pos_eq (/ (2 * h))) by (apply Rlt_le, Rinv_0_lt_compat; lra).
    apply Rmult_le_reg_r with (2 * h); [lra|]. rewrite Rmult_assoc, Rinv_l, Rmult_1_r by lra. replace (EE / h * (2 * h)) with (EE + EE) by (field; lra).
    unfold Rminus at 1. apply Rle_trans with (1 := Rabs_triang _ _). rewrite Rabs_Ropp. lra. }
  assert (Y : Rabs ((SF - SB) / (2 * h) - total_R (map (fun a => Q2R (nth a wn 0%Q) * dpsi a (Q2R yj)) (seq 0 nd))) <= K * (h * h) / 6).
  { replace ((SF - SB) / (2 * h)) with (total_R (map (fun a => Q2R (nth a wn 0%Q) * ((psi a (Q2R yf) - psi a (Q2R yb)) / (2 * h))) (seq 0 nd))).
    - replace (K * (h * h) / 6) with (total_R (map (fun a => Q2R (nth a wn 0%Q) * (K * (h * h) / 6)) (seq 0 nd))) by (rewrite total_R_scaled, SW1; ring).
      apply total_R_diff. intros a Ha. apply in_seq in Ha. rewrite <- Rmult_minus_distr_l, Rabs_mult, (Rabs_pos_eq (Q2R (nth a wn 0%Q))) by (apply WP; lia).
      apply Rmult_le_compat_l; [apply WP; lia|apply CD; lia].
    - unfold SF, SB. generalize (seq 0 nd). intros l. induction l as [|a l IH]; cbn [map total_R]; [field; lra|]. rewrite IH. field. lra. }
  exact (tri_R _ _ _ _ _ X Y).
Qed.
End Rect.
