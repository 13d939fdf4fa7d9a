(** Proofs about the operators made from the maps of make_maps. *)
From Coq Require Import String List ZArith QArith Qabs Qround Lia Lqa Bool.
From Verif Require Import Prelude PreludeFacts NamingModel NamingSpec GridModel GridSpec MapsModel MapsSpec MapsMore MapsMain
  WeightsModel WeightsSpec WeightsInput WeightsRows WeightsTop WeightsModify WeightsModifyTop PipeModel PipeSpec.
Import ListNotations.
Open Scope Q_scope.

Lemma outer_nonneg l1 l2 : Forall (fun q => 0 < q) l1 -> Forall (fun q => 0 < q) l2 -> Forall (fun q => 0 < q) (outer Qmult l1 l2).
Proof.
  intros H1 H2. unfold outer. apply Forall_forall. intros q Hq. apply in_flat_map in Hq. destruct Hq as (a & Ha & Hq).
  apply in_map_iff in Hq. destruct Hq as (b & <- & Hb). rewrite Forall_forall in H1, H2. specialize (H1 a Ha). specialize (H2 b Hb).
  now apply Qmult_lt_0_compat.
Qed.

Section Pipe.
Variable repr : Q -> string.
Context {G : Type}.
Variable pR pZ : G -> arr2.
Variable pnx pnz : G -> nat.
Variable findIndex : G -> arr2 -> arr2 -> arr2 * arr2.
Variable trace : arr2 -> arr2 -> list Q -> list (arr2 * arr2).
Variable outside : arr2 -> Q -> arr2 -> Z -> Z -> bool.
Variable Byfunc : Q -> Q -> Q -> Q.
Variable roots_jacobi : nat -> list Q * list Q.
Variable fll : list (Q * Q) -> list Q -> Q.
Variable Jperp : G -> Z -> Z -> Q.
Variable is_slab : bool.
Variable flow : arr2 -> arr2 -> Q -> Q -> arr2 * arr2.
Variable t1 : Q -> Q -> list Q -> list (Q * Q).
Hypothesis Hflow : follows trace flow.
Hypothesis Ht : pointwise trace t1.
Hypothesis Hroots : forall n, length (fst (roots_jacobi n)) = n.
Hypothesis Hws : forall n, length (snd (roots_jacobi n)) = n.
Hypothesis Hpos : forall n, Forall (fun q => 0 < q) (snd (roots_jacobi n)).
Hypothesis Hsum : forall n, (0 < n)%nat -> qsum (snd (roots_jacobi n)) == 2.
Variable g : grid G.
Hypothesis Wg : well_formed g.
Variables (nslice mxg spd : Z) (refine : nat).
Hypothesis Hns : (1 <= nslice)%Z.
Hypothesis Hspd : (1 <= spd)%Z.
Hypothesis Href : (1 <= refine)%nat.
Variables (nx nz : Z).
Hypothesis Hmxg : (0 <= mxg)%Z.
Hypothesis Hnx : (2 * mxg <= nx)%Z.
Hypothesis Hnz : (0 <= nz)%Z.
Notation run := (make_maps repr G pR pZ pnx pnz findIndex trace outside Byfunc roots_jacobi fll Jperp is_slab g
                    nslice mxg spd refine).
Notation ns := (Z.to_nat spd * Z.to_nat spd)%nat.

Lemma accepted : weights_accepted roots_jacobi spd = true.
Proof.
  unfold weights_accepted. destruct (Z.ltb_spec 1 spd); [|reflexivity]. apply Qle_bool_iff.
  rewrite qsum_half, Hsum by lia. discriminate.
Qed.
Lemma weights_fine : length (subcell_weights roots_jacobi spd) = ns /\ Forall (fun q => 0 < q) (subcell_weights roots_jacobi spd) /\
  qsum (subcell_weights roots_jacobi spd) == 1.
Proof.
  destruct (Z_lt_dec 1 spd) as [H|H].
  - split; [|split; [|apply weights_sum; [exact H|apply Hsum; lia]]]; unfold subcell_weights; apply Z.ltb_lt in H; rewrite H.
    + rewrite outer_length, map_length, Hws. reflexivity.
    + assert (P : Forall (fun q => 0 < q) (map (fun w => w * (1 # 2)) (snd (roots_jacobi (Z.to_nat spd))))).
      { apply Forall_map. apply (Forall_impl _ (P := fun q => 0 < q)); [intros; lra|apply Hpos]. }
      now apply outer_nonneg.
  - replace spd with 1%Z by lia. cbn. split; [reflexivity|]. split; [repeat constructor|reflexivity].
Qed.

Lemma some_slice : (0 < ny g)%Z.
Proof. destruct Wg as [_ W]. unfold ny. lia. Qed.

Lemma key3 dr f : In f ["xt_prime"; "zt_prime"]%string -> exists k, parallel_slice_field_name repr f (OInt (sgn dr)) = Ok k.
Proof. intros [<-|[<-|[]]]; destruct dr; eexists; reflexivity. Qed.

(** the arrays of the first slice of a direction *)
Lemma first_arrays n_chunks junk d : n_chunks <> 0%nat -> run n_chunks junk = Ok d ->
  exists X Zm xt zt, forall dr, stored repr d "xt_primes" (OInt (sgn dr)) (X dr) /\ stored repr d "zt_primes" (OInt (sgn dr)) (Zm dr) /\
    stored repr d "xt_prime" (OInt (sgn dr)) (xt dr) /\ stored repr d "zt_prime" (OInt (sgn dr)) (zt dr).
Proof.
  intros Hc E. pose proof accepted as Hacc. pose proof some_slice as Hy.
  assert (K : forall dr, exists a b c e, stored repr d "xt_primes" (OInt (sgn dr)) a /\ stored repr d "zt_primes" (OInt (sgn dr)) b /\
    stored repr d "xt_prime" (OInt (sgn dr)) c /\ stored repr d "zt_prime" (OInt (sgn dr)) e).
  { intros dr.
    destruct (end_points repr pR pZ pnx pnz findIndex trace outside Byfunc roots_jacobi fll Jperp is_slab flow t1 Hflow Ht Hroots g Wg nslice mxg spd refine
      ltac:(lia) Hspd Hacc Href n_chunks junk d (sgn dr) 0 Hc E) as (yb & _ & (? & ? & ? & ? & aR & aZ & ax & az & _ & _ & _ & _ & S3 & S4 & _));
      [destruct dr; discriminate|destruct dr; cbn; lia|lia|].
    destruct (Z.eq_dec nslice 1) as [->|N].
    - destruct (outermost_sub repr pR pZ pnx pnz findIndex trace outside Byfunc roots_jacobi fll Jperp is_slab flow t1 Hflow Ht Hroots g Wg 1 mxg spd refine
        ltac:(lia) Hspd Hacc Href n_chunks junk d (sgn dr) 0 Hc E) as (? & ? & ? & ? & bx & bz & _ & _ & T1 & T2 & _); [destruct dr; cbn; lia|lia|lia|].
      rewrite Z.mul_1_l in T1, T2. exists bx, bz, ax, az. auto.
    - exists zeros, zeros, ax, az.
      pose proof (fun f H => inner_zero repr pR pZ pnx pnz findIndex trace outside Byfunc roots_jacobi fll Jperp is_slab flow t1 Hflow Ht Hroots g Wg nslice mxg spd refine
        ltac:(lia) Hspd Hacc Href n_chunks junk d f (sgn dr) Hc E H ltac:(destruct dr; discriminate) ltac:(destruct dr; cbn; lia)) as Z0.
      split; [apply Z0; now left|]. split; [apply Z0; right; now left|]. auto. }
  destruct (K Fwd) as (a & b & c & e & KF). destruct (K Bwd) as (a' & b' & c' & e' & KB).
  exists (fun dr => match dr with Fwd => a | Bwd => a' end), (fun dr => match dr with Fwd => b | Bwd => b' end),
    (fun dr => match dr with Fwd => c | Bwd => c' end), (fun dr => match dr with Fwd => e | Bwd => e' end).
  intros [|]; assumption.
Qed.

Lemma stored_at d f o k a : parallel_slice_field_name repr f o = Ok k -> stored repr d f o a -> d k = Some (VArr a).
Proof. intros E (k' & E' & H). rewrite E in E'. apply (f_equal (fun x => match x with Ok v => v | Err _ => k end)) in E'. cbn in E'. now subst k'. Qed.

(** what the operators are made of *)
Lemma input n_chunks junk d : n_chunks <> 0%nat -> run n_chunks junk = Ok d ->
  exists m X Zm xt zt, weights_input d nx (ny g) nz ns = Ok m /\ m_nx m = nx /\ m_ny m = ny g /\ m_nz m = nz /\ m_mxg m = mxg /\
    (forall dr, stored repr d "xt_primes" (OInt (sgn dr)) (X dr) /\ stored repr d "zt_primes" (OInt (sgn dr)) (Zm dr) /\
       stored repr d "xt_prime" (OInt (sgn dr)) (xt dr) /\ stored repr d "zt_prime" (OInt (sgn dr)) (zt dr)) /\
    modify_input m ns (fun dr => read4 (X dr)) (fun dr => read4 (Zm dr)) (fun dr => read3 (xt dr)) (fun dr => read3 (zt dr)) (subcell_weights roots_jacobi spd).
Proof.
  intros Hc E. destruct (first_arrays n_chunks junk d Hc E) as (X & Zm & xt & zt & S). pose proof accepted as Hacc.
  pose proof (weights_stored repr pR pZ pnx pnz findIndex trace outside Byfunc roots_jacobi fll Jperp is_slab flow t1 Hflow Ht Hroots g Wg nslice mxg spd refine n_chunks junk
    ltac:(lia) Hspd Hacc Href Hc d E) as HW.
  destruct (plain_entries repr pR pZ pnx pnz findIndex trace outside Byfunc roots_jacobi fll Jperp is_slab flow t1 Hflow Ht Hroots g Wg nslice mxg spd refine
    ltac:(lia) Hspd Hacc Href n_chunks junk d Hc E) as (_ & HM & _).
  destruct (S Fwd) as (F1 & F2 & F3 & F4). destruct (S Bwd) as (B1 & B2 & B3 & B4).
  pose proof (stored_at d "xt_primes" (OInt (sgn Fwd)) "forward_xt_primes" (X Fwd) eq_refl F1) as K1.
  pose proof (stored_at d "zt_primes" (OInt (sgn Fwd)) "forward_zt_primes" (Zm Fwd) eq_refl F2) as K2.
  pose proof (stored_at d "xt_prime" (OInt (sgn Fwd)) "forward_xt_prime" (xt Fwd) eq_refl F3) as K3.
  pose proof (stored_at d "zt_prime" (OInt (sgn Fwd)) "forward_zt_prime" (zt Fwd) eq_refl F4) as K4.
  pose proof (stored_at d "xt_primes" (OInt (sgn Bwd)) "backward_xt_primes" (X Bwd) eq_refl B1) as K5.
  pose proof (stored_at d "zt_primes" (OInt (sgn Bwd)) "backward_zt_primes" (Zm Bwd) eq_refl B2) as K6.
  pose proof (stored_at d "xt_prime" (OInt (sgn Bwd)) "backward_xt_prime" (xt Bwd) eq_refl B3) as K7.
  pose proof (stored_at d "zt_prime" (OInt (sgn Bwd)) "backward_zt_prime" (zt Bwd) eq_refl B4) as K8.
  eexists. exists X, Zm, xt, zt. unfold weights_input. rewrite HM. split; [reflexivity|]. cbn [m_nx m_ny m_nz m_mxg].
  do 4 (split; [reflexivity|]). split; [exact S|]. destruct weights_fine as (W1 & W2 & W3).
  constructor; cbn [m_nx m_ny m_nz m_mxg m_fxts m_fxt m_fzts m_fzt m_bxts m_bxt m_bzts m_bzt m_subw];
    unfold array4, array3; rewrite ?K1, ?K2, ?K3, ?K4, ?K5, ?K6, ?K7, ?K8; try reflexivity.
  constructor; cbn [m_nx m_ny m_nz m_mxg m_fxts m_fxt m_fzts m_fzt m_bxts m_bxt m_bzts m_bzt m_subw];
    unfold array4, array3; rewrite ?K1, ?K2, ?K3, ?K4, ?K5, ?K6, ?K7, ?K8, ?HW; try (apply P4; reflexivity); try assumption.
  - pose proof some_slice. lia.
  - now apply PW.
  - rewrite W3. reflexivity.
Qed.

Lemma input_ok n_chunks junk d m : n_chunks <> 0%nat -> run n_chunks junk = Ok d -> weights_input d nx (ny g) nz ns = Ok m ->
  m_nx m = nx /\ m_ny m = ny g /\ m_nz m = nz /\ m_mxg m = mxg /\ exists X Zm xt zt,
    (forall dr, stored repr d "xt_primes" (OInt (sgn dr)) (X dr) /\ stored repr d "zt_primes" (OInt (sgn dr)) (Zm dr) /\
       stored repr d "xt_prime" (OInt (sgn dr)) (xt dr) /\ stored repr d "zt_prime" (OInt (sgn dr)) (zt dr)) /\
    modify_input m ns (fun dr => read4 (X dr)) (fun dr => read4 (Zm dr)) (fun dr => read3 (xt dr)) (fun dr => read3 (zt dr)) (subcell_weights roots_jacobi spd).
Proof.
  intros Hc E Em. destruct (input n_chunks junk d Hc E) as (m' & X & Zm & xt & zt & Em' & E1 & E2 & E3 & E4 & S & MI).
  rewrite Em in Em'. apply (f_equal (fun x => match x with Ok v => v | Err _ => m end)) in Em'. cbn in Em'. subst m'.
  do 4 (split; [assumption|]). now exists X, Zm, xt, zt.
Qed.

Lemma all_runs n_chunks junk jw jc : n_chunks <> 0%nat -> exists d m, run n_chunks junk = Ok d /\ weights_input d nx (ny g) nz ns = Ok m /\
  (exists v, calculate_parallel_map_operators jw jc m = Ok v) /\ forall pb, exists m' v, modify_maps jw jc pb m = Ok (m', v).
Proof.
  intros Hc. pose proof accepted as Hacc.
  destruct (never_fails repr pR pZ pnx pnz findIndex trace outside Byfunc roots_jacobi fll Jperp is_slab flow t1 Hflow Ht Hroots g Wg nslice mxg spd refine
    ltac:(lia) Hspd Hacc Href n_chunks junk Hc) as [d E].
  destruct (input n_chunks junk d Hc E) as (m & X & Zm & xt & zt & Em & _ & _ & _ & _ & _ & MI).
  exists d, m. split; [exact E|]. split; [exact Em|]. split.
  - destruct (calc_ok jw jc _ _ _ _ _ (mi_valid _ _ _ _ _ _ _ MI)) as (cs & fl & bl & _ & Ev & _). eexists. exact Ev.
  - intros pb. exact (modify_ok jw jc _ _ _ _ _ _ _ MI pb).
Qed.

Lemma stored_unique d f o a b : stored repr d f o a -> stored repr d f o b -> a = b.
Proof.
  intros (k & E & H) S. rewrite (stored_at d f o k b E S) in H. symmetry.
  exact (f_equal (fun x => match x with Some (VArr v) => v | _ => a end) H).
Qed.

Lemma interpolates n_chunks junk jw jc d m v dr ax az x y z f q M : n_chunks <> 0%nat -> run n_chunks junk = Ok d ->
  weights_input d nx (ny g) nz ns = Ok m -> calculate_parallel_map_operators jw jc m = Ok v ->
  stored repr d "xt_primes" (OInt (sgn dr)) ax -> stored repr d "zt_primes" (OInt (sgn dr)) az ->
  evolving m (x, y, z) -> some_inside m ns (read4 ax) (x, y, z) ->
  (forall s, (s < ns)%nat -> ~ leaves m (ax x y z (Z.of_nat s)) -> 0 <= az x y z (Z.of_nat s)) ->
  (forall c', evolving m c' -> f (wv_cell_number v c') == q c') -> (forall c', evolving m c' -> Qabs (q c') <= M) ->
  Qabs (row_apply (leg_row v dr (lo_interior_number (wv_dir dr v) (x, y, z))) f
        - inside_average m ns (read4 ax) (subcell_weights roots_jacobi spd) (x, y, z)
            (fun s => interp2 (extend m dr (x, y, z) q) (ax x y z (Z.of_nat s)) (az x y z (Z.of_nat s))))
    <= (5 # 10000000000) * M.
Proof.
  intros Hc E Em Ev Sx Sz He Hi Hz Hq HM.
  destruct (input_ok n_chunks junk d m Hc E Em) as (_ & _ & _ & _ & X & Zm & xt & zt & S & MI).
  destruct (S dr) as (S1 & S2 & _). assert (EX : ax = X dr) by (eapply stored_unique; eassumption). assert (EZ : az = Zm dr) by (eapply stored_unique; eassumption).
  subst ax az. exact (decoded_interp jw jc _ _ _ _ _ (mi_valid _ _ _ _ _ _ _ MI) v Ev dr (x, y, z) f q M He Hi Hz Hq HM).
Qed.

(** ** at the ends of a grid that is not periodic *)
Lemma no_slice n_chunks junk jw jc d m v dr x j z y0 : nslice = 1%Z -> n_chunks <> 0%nat -> run n_chunks junk = Ok d ->
  weights_input d nx (ny g) nz ns = Ok m -> calculate_parallel_map_operators jw jc m = Ok v -> evolving m (x, j, z) ->
  getPoloidalGrid g (inject_Z j + inject_Z (sgn dr)) = Ok (None, y0) ->
  (lo_interior_number (wv_dir dr v) (x, j, z) < 0)%Z /\ (0 <= lo_boundary_number (wv_dir dr v) (x, j, z))%Z /\
  leg_row v dr (lo_boundary_number (wv_dir dr v) (x, j, z)) = [(wv_dir_cell_number dr v (x, j, z), 1)].
Proof.
  intros H1 Hc E Em Ev He Ep. pose proof accepted as Hacc.
  destruct (input_ok n_chunks junk d m Hc E Em) as (E1 & E2 & E3 & E4 & X & Zm & xt & zt & S & MI).
  pose proof (mi_valid _ _ _ _ _ _ _ MI) as V. destruct (legs jw jc _ _ _ _ _ V v Ev dr) as (L1 & L2 & _).
  destruct (outermost_sub repr pR pZ pnx pnz findIndex trace outside Byfunc roots_jacobi fll Jperp is_slab flow t1 Hflow Ht Hroots g Wg nslice mxg spd refine
    ltac:(lia) Hspd Hacc Href n_chunks junk d (sgn dr) j Hc E) as (? & ? & po & ? & bx & bz & _ & D & T1 & T2 & T); [destruct dr; cbn; lia|lia|unfold evolving in He; lia|].
  rewrite H1, Z.mul_1_l in T1, T2, D. cbn [offset_value] in D. rewrite Ep in D.
  apply (f_equal (fun x => match x with Ok (v, _) => v | Err _ => None end)) in D. cbn beta iota in D. subst po.
  destruct (S dr) as (S1 & _). assert (EX : X dr = bx) by (eapply stored_unique; eassumption).
  assert (Dec : forall s, (s < ns)%nat -> read4 (X dr) (x, j, z) s = -(1)).
  { intros s Hs'. assert (N : Z.to_nat spd <> 0%nat) by lia.
    pose proof (Nat.div_mod s _ N) as Dm. pose proof (Nat.mod_upper_bound s _ N) as Mb. assert (Db : (s / Z.to_nat spd < Z.to_nat spd)%nat) by (apply Nat.div_lt_upper_bound; lia).
    destruct (nth_error (fst (roots_jacobi (Z.to_nat spd))) (s / Z.to_nat spd)) as [u|] eqn:Eu; [|apply nth_error_None in Eu; rewrite Hroots in Eu; lia].
    destruct (nth_error (fst (roots_jacobi (Z.to_nat spd))) (s mod Z.to_nat spd)) as [w|] eqn:Ew; [|apply nth_error_None in Ew; rewrite Hroots in Ew; lia].
    specialize (T _ _ u w Eu Ew). cbv zeta in T. rewrite Hroots in T. destruct (T x z) as [Tx _].
    replace (s / Z.to_nat spd * Z.to_nat spd + s mod Z.to_nat spd)%nat with s in Tx by lia. cbn [read4]. rewrite EX. exact Tx. }
  assert (HL : forall s, (s < ns)%nat -> leaves m (read4 (X dr) (x, j, z) s)).
  { intros s Hs'. rewrite (Dec s Hs'). left. rewrite E4. change (-(1)) with (inject_Z (-1)). rewrite <- Zlt_Qlt. lia. }
  assert (Np : (0 < ns)%nat) by nia.
  assert (Hh : some_hit m ns (read4 (X dr)) (x, j, z)) by (exists 0%nat; split; [exact Np|now apply HL]).
  split; [|split].
  - apply Z.nle_gt. intros C. apply L1 in C. destruct C as [_ (s & Hs' & C)]. apply C. now apply HL.
  - apply L2. now split.
  - exact (decoded_boundary jw jc _ _ _ _ _ V v Ev dr _ He Hh).
Qed.

(** ** more than one slice *)
Hypothesis Htwo : (2 <= nslice)%Z.

Lemma two_zero n_chunks junk d X Zm : n_chunks <> 0%nat -> run n_chunks junk = Ok d ->
  (forall dr : dir, stored repr d "xt_primes" (OInt (sgn dr)) (X dr) /\ stored repr d "zt_primes" (OInt (sgn dr)) (Zm dr)) ->
  forall dr c s, read4 (X dr) c s = 0 /\ read4 (Zm dr) c s = 0.
Proof.
  intros Hc E S dr [[x y] z] s. destruct (S dr) as [S1 S2]. pose proof accepted as Hacc.
  pose proof (fun f H => inner_zero repr pR pZ pnx pnz findIndex trace outside Byfunc roots_jacobi fll Jperp is_slab flow t1 Hflow Ht Hroots g Wg nslice mxg spd refine
    ltac:(lia) Hspd Hacc Href n_chunks junk d f (sgn dr) Hc E H ltac:(destruct dr; discriminate) ltac:(destruct dr; cbn; lia)) as Z0.
  rewrite (stored_unique d _ _ _ _ S1 (Z0 "xt_primes"%string ltac:(now left))), (stored_unique d _ _ _ _ S2 (Z0 "zt_primes"%string ltac:(right; now left))). now split.
Qed.

Lemma ns_pos : (0 < ns)%nat.
Proof. nia. Qed.

Lemma two_boundary n_chunks junk jw jc d m v dr c : (1 <= mxg)%Z -> n_chunks <> 0%nat -> run n_chunks junk = Ok d ->
  weights_input d nx (ny g) nz ns = Ok m -> calculate_parallel_map_operators jw jc m = Ok v -> evolving m c ->
  (lo_interior_number (wv_dir dr v) c < 0)%Z /\ (0 <= lo_boundary_number (wv_dir dr v) c)%Z /\
  leg_row v dr (lo_boundary_number (wv_dir dr v) c) = [(wv_dir_cell_number dr v c, 1)].
Proof.
  intros H1 Hc E Em Ev He.
  destruct (input_ok n_chunks junk d m Hc E Em) as (E1 & E2 & E3 & E4 & X & Zm & xt & zt & S & MI).
  pose proof (two_zero n_chunks junk d X Zm Hc E ltac:(intros dr'; destruct (S dr') as (? & ? & _); now split)) as Z0.
  pose proof (mi_valid _ _ _ _ _ _ _ MI) as V. destruct (legs jw jc _ _ _ _ _ V v Ev dr) as (L1 & L2 & _).
  assert (HL : forall s, leaves m (read4 (X dr) c s)).
  { intros s. destruct (Z0 dr c s) as [-> _]. left. rewrite E4. change 0 with (inject_Z 0). rewrite <- Zlt_Qlt. lia. }
  assert (Hh : some_hit m ns (read4 (X dr)) c) by (exists 0%nat; split; [exact ns_pos|apply HL]).
  split; [|split].
  - apply Z.nle_gt. intros C. apply L1 in C. destruct C as [_ (s & _ & C)]. apply C, HL.
  - apply L2. now split.
  - exact (decoded_boundary jw jc _ _ _ _ _ V v Ev dr c He Hh).
Qed.

Lemma two_modify n_chunks junk jw jc d m m' v dr : (1 <= mxg)%Z -> (2 * mxg < nx)%Z -> (0 < nz)%Z -> n_chunks <> 0%nat -> run n_chunks junk = Ok d ->
  weights_input d nx (ny g) nz ns = Ok m -> modify_maps jw jc true m = Ok (m', v) ->
  exists xt', centre_map m' dr = Some (A3 xt') /\ forall c, evolving m c -> xt' c = -1.
Proof.
  intros H1 Hx Hz Hc E Em Ev.
  destruct (input_ok n_chunks junk d m Hc E Em) as (E1 & E2 & E3 & E4 & X & Zm & xt & zt & S & MI).
  pose proof (two_zero n_chunks junk d X Zm Hc E ltac:(intros dr'; destruct (S dr') as (? & ? & _); now split)) as Z0.
  assert (K : forall c, evolving m c -> exists xt', centre_map m' dr = Some (A3 xt') /\ xt' c = -1).
  { intros c He. destruct (modify_true jw jc _ _ _ _ _ _ _ MI m' v dr c Ev He) as (xt' & C1 & C2 & C3 & _). exists xt'. split; [exact C1|].
    apply C3, C2. exists 0%nat. split; [exact ns_pos|]. destruct (Z0 dr c 0%nat) as [-> _]. left. rewrite E4. change 0 with (inject_Z 0). rewrite <- Zlt_Qlt. lia. }
  pose proof some_slice as Hy.
  destruct (K (mxg, 0, 0)%Z) as (xt' & C & _); [unfold evolving; lia|]. exists xt'. split; [exact C|]. intros c He.
  destruct (K c He) as (xt'' & C' & V). rewrite C in C'. apply (f_equal (fun x => match x with Some (A3 v) => v | _ => xt' end)) in C'. subst xt''. exact V.
Qed.

Lemma two_corner n_chunks junk jw jc d m v dr c f : mxg = 0%Z -> n_chunks <> 0%nat -> run n_chunks junk = Ok d ->
  weights_input d nx (ny g) nz ns = Ok m -> calculate_parallel_map_operators jw jc m = Ok v -> evolving m c ->
  (lo_boundary_number (wv_dir dr v) c < 0)%Z /\
  row_apply (leg_row v dr (lo_interior_number (wv_dir dr v) c)) f == f (wv_cell_number v (0%Z, next_y m dr c, 0%Z)).
Proof.
  intros H0 Hc E Em Ev He.
  destruct (input_ok n_chunks junk d m Hc E Em) as (E1 & E2 & E3 & E4 & X & Zm & xt & zt & S & MI).
  pose proof (two_zero n_chunks junk d X Zm Hc E ltac:(intros dr'; destruct (S dr') as (? & ? & _); now split)) as Z0.
  pose proof (mi_valid _ _ _ _ _ _ _ MI) as V. destruct (legs jw jc _ _ _ _ _ V v Ev dr) as (L1 & L2 & _).
  assert (Hn : (0 < nx)%Z) by (destruct c as [[x y] z]; unfold evolving in He; lia).
  assert (HL : forall s, ~ leaves m (read4 (X dr) c s)).
  { intros s [C|C]; destruct (Z0 dr c s) as [C' _]; rewrite C' in C; rewrite ?E1, E4, H0 in C; change 0 with (inject_Z 0) in C; rewrite <- Zlt_Qlt in C; lia. }
  assert (Hin : some_inside m ns (read4 (X dr)) c) by (exists 0%nat; split; [exact ns_pos|apply HL]).
  split.
  { apply Z.nle_gt. intros C. apply L2 in C. destruct C as [_ (s & _ & C)]. now apply (HL s). }
  rewrite (decoded_exact jw jc _ _ _ _ _ V v Ev dr c f (fun c' => f (wv_cell_number v c')) He Hin).
  - unfold inside_average, inside_area. set (val := f (wv_cell_number v (0%Z, next_y m dr c, 0%Z))).
    assert (HLb : forall s, leavesb m (read4 (X dr) c s) = false).
    { intros s. destruct (leavesb m (read4 (X dr) c s)) eqn:B; [|reflexivity]. exfalso. apply (HL s), leavesb_iff, B. }
    rewrite (map_ext (fun s => if leavesb m (read4 (X dr) c s) then 0 else nth s (subcell_weights roots_jacobi spd) 0) (fun s => nth s (subcell_weights roots_jacobi spd) 0)) by (intros s; now rewrite HLb).
    assert (A1 : qsum (map (fun s => nth s (subcell_weights roots_jacobi spd) 0) (seq 0 ns)) == 1).
    { destruct weights_fine as (W1 & _ & W3). rewrite <- W3. rewrite <- W1. clear. generalize (subcell_weights roots_jacobi spd). intros l.
      assert (Em : map (fun s => nth s l 0) (seq 0 (length l)) = l); [|now rewrite Em].
      induction l as [|a l IH]; [reflexivity|]. cbn [length seq map nth]. f_equal. rewrite <- seq_shift, map_map. exact IH. }
    rewrite A1. transitivity (val * qsum (map (fun s => nth s (subcell_weights roots_jacobi spd) 0) (seq 0 ns)) / 1); [|rewrite A1; field].
    apply Qdiv_comp; [|reflexivity].
    assert (Ip : forall s, interp2 (extend m dr c (fun c' => f (wv_cell_number v c'))) (read4 (X dr) c s) (read4 (Zm dr) c s) == val).
    { intros s. destruct (Z0 dr c s) as [-> ->]. change 0 with (inject_Z 0). unfold interp2, interp1, hermite. rewrite !Qfloor_Z.
      setoid_replace (inject_Z 0 - inject_Z 0) with 0 by ring. unfold val.
      assert (Ee : extend m dr c (fun c' => f (wv_cell_number v c')) 0 0 = f (wv_cell_number v (0%Z, next_y m dr c, 0%Z))).
      { unfold extend. rewrite E4, E1, H0. rewrite Zmod_0_l. unfold clampZ. replace (0 <? 0)%Z with false by reflexivity.
        replace (nx - 0 - 1 <? 0)%Z with false by (symmetry; apply Z.ltb_ge; lia). reflexivity. }
      rewrite Ee. field. }
    clear A1. induction (seq 0 ns) as [|s l IH]; cbn [map qsum]; [ring|]. rewrite IH, HLb, Ip. ring.
  - intros s _ _. destruct (Z0 dr c s) as [-> ->]. split; [apply Qle_refl|left; reflexivity].
  - intros c' _. reflexivity.
Qed.
End Pipe.
