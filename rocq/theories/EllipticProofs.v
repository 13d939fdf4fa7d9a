(** The solver loop, the guards and the coarsening of grid_elliptic. *)
From Coq Require Import List ZArith QArith Qround Qfield Lia Lqa Bool.
From Verif Require Import Prelude PreludeFacts PolModel PolSpec PolProofs EllipticModel EllipticSpec.
Import ListNotations.
Open Scope Q_scope.

Section J.
Variable nx nz : Z.
Variable dx dz k : Q.
Hypothesis Hdx : ~ dx == 0.
Hypothesis Hdz : ~ dz == 0.

Lemma jacobi_residual R Z F i j : ~ diag nz dx dz k R Z i j == 0 ->
  (jacobi nz dx dz k R Z F i j - F i j) * diag nz dx dz k R Z i j == residual nz dx dz k R Z F i j.
Proof.
  intros Hd. unfold jacobi.
  assert (E : forall A B, (A * (1 / diag nz dx dz k R Z i j) - B) * diag nz dx dz k R Z i j == A - B * diag nz dx dz k R Z i j)
    by (intros; field; exact Hd).
  rewrite E. unfold diag, residual, coef_a, coef_b, coef_c, dRdx, dRdz, D_x, D_z, D_xx, D_zz, D_xz, zp, zm. field. now split.
Qed.

Lemma fixed_iff R Z F i j : ~ diag nz dx dz k R Z i j == 0 ->
  (jacobi nz dx dz k R Z F i j == F i j <-> residual nz dx dz k R Z F i j == 0).
Proof.
  intros Hd. pose proof (jacobi_residual R Z F i j Hd) as E. split; intros H.
  - rewrite <- E, H. ring.
  - rewrite H in E. assert (D : jacobi nz dx dz k R Z F i j - F i j == 0).
    { destruct (Qeq_dec (jacobi nz dx dz k R Z F i j - F i j) 0) as [|N]; [assumption|].
      exfalso. destruct (Qmult_integral _ _ E); contradiction. }
    lra.
Qed.

Definition pair_step (s : arr2 * arr2) : arr2 * arr2 :=
  (step_arr nx nz dx dz k (fst s) (snd s) (fst s), step_arr nx nz dx dz k (fst s) (snd s) (snd s)).

Lemma all_points_iff p : all_points nx nz p = true <-> forall i j, (0 <= i < nx)%Z -> (0 <= j < nz)%Z -> p i j = true.
Proof.
  unfold all_points. rewrite forallb_forall. split.
  - intros H i j Hi Hj. specialize (H i). rewrite in_zrange in H. specialize (H Hi). rewrite forallb_forall in H. apply H. now rewrite in_zrange.
  - intros H i Hi. rewrite in_zrange in Hi. apply forallb_forall. intros j Hj. rewrite in_zrange in Hj. auto.
Qed.

Lemma step_boundary s i j : (i <= 0 \/ nx - 1 <= i)%Z -> fst (pair_step s) i j = fst s i j /\ snd (pair_step s) i j = snd s i j.
Proof.
  intros H. unfold pair_step, step_arr, interior_row. cbn [fst snd].
  assert (E : ((1 <=? i) && (i <=? nx - 2))%Z%bool = false).
  { apply andb_false_iff. destruct H; [left; apply Z.leb_gt; lia|right; apply Z.leb_gt; lia]. }
  rewrite E. auto.
Qed.

Lemma iter_boundary m s i j : (i <= 0 \/ nx - 1 <= i)%Z ->
  fst (iter m pair_step s) i j = fst s i j /\ snd (iter m pair_step s) i j = snd s i j.
Proof.
  intros H. revert s. induction m as [|m IH]; intros s; [auto|]. cbn.
  destruct (IH (pair_step s)) as [E1 E2]. destruct (step_boundary s i j H) as [E3 E4]. split; congruence.
Qed.

Lemma iter_S {A} (f : A -> A) m a : iter (S m) f a = f (iter m f a).
Proof. revert a. induction m as [|m IH]; intros a; [reflexivity|]. cbn. cbn in IH. apply IH. Qed.

(** the returned state is the last of a sequence of steps, close to the one before *)
Lemma solve_ok m tol : forall R Z R' Z', solve nx nz dx dz k m tol R Z = Ok (R', Z') ->
  exists c, (c < m)%nat /\ let s := iter c pair_step (R, Z) in
    (R', Z') = pair_step s /\
    (forall i j, (1 <= i <= nx - 2)%Z -> (0 <= j < nz)%Z -> ~ diag nz dx dz k (fst s) (snd s) i j == 0) /\
    (forall i j, (0 <= i < nx)%Z -> (0 <= j < nz)%Z ->
       dist2 (R' i j, Z' i j) (fst s i j, snd s i j) < tol).
Proof.
  induction m as [|m IH]; intros R Z R' Z'; [discriminate|]. cbn [solve].
  destruct (regular nx nz dx dz k R Z) eqn:Er; [|discriminate]. cbn [negb].
  destruct (small_change _ _ _ _ _ _ _) eqn:Es.
  - intros [= <- <-]. exists 0%nat. split; [lia|]. cbn [iter fst snd]. split; [reflexivity|]. split.
    + intros i j Hi Hj C. unfold regular in Er. rewrite all_points_iff in Er. specialize (Er i j ltac:(lia) Hj).
      apply orb_true_iff in Er. destruct Er as [E|E].
      * apply negb_true_iff, andb_false_iff in E. destruct E as [E|E]; apply Z.leb_gt in E; lia.
      * apply negb_true_iff in E. unfold qzero in E. apply Qeq_bool_neq in E. contradiction.
    + intros i j Hi Hj. unfold small_change in Es. rewrite all_points_iff in Es. specialize (Es i j Hi Hj).
      apply Qlt_bool_iff in Es. exact Es.
  - intros H. apply IH in H. destruct H as (c & Hc & H). exists (S c). split; [lia|]. exact H.
Qed.
End J.

(** ** guards *)
Lemma guards_rows nx o n F : (2 <= nx)%Z -> (0 <= o)%Z -> (0 <= n)%Z ->
  let G := add_guards nx o n F in
  forall j,
  (forall i, (0 <= i < nx)%Z -> G (i + n)%Z j = F i j) /\
  (forall m, (0 <= m <= o)%Z -> G (n + nx - 1 + m)%Z j == F (nx - 1)%Z j + inject_Z m * (F (nx - 1)%Z j - F (nx - 2)%Z j)) /\
  (forall m, (0 <= m <= n)%Z -> G (n - m)%Z j == F 0%Z j + inject_Z m * (F 0%Z j - F 1%Z j)).
Proof.
  intros Hx Ho Hn G j. unfold G, add_guards. split; [|split].
  - intros i Hi. destruct (Z.ltb_spec (i + n) n); [lia|]. replace (i + n - n)%Z with i by lia.
    destruct (Z.leb_spec nx i); [lia|reflexivity].
  - intros m Hm. destruct (Z.ltb_spec (n + nx - 1 + m) n); [lia|]. replace (n + nx - 1 + m - n)%Z with (nx - 1 + m)%Z by lia.
    destruct (Z.leb_spec nx (nx - 1 + m)).
    + replace (nx - 1 + m - (nx - 1))%Z with m by lia. ring.
    + replace (nx - 1 + m)%Z with (nx - 1)%Z by lia. replace m with 0%Z by lia. change (inject_Z 0) with 0. ring.
  - intros m Hm. destruct (Z.leb_spec nx 0); [lia|]. destruct (Z.leb_spec nx 1); [lia|].
    destruct (Z.ltb_spec (n - m) n).
    + replace (n - (n - m))%Z with m by lia. ring.
    + replace (n - m - n)%Z with 0%Z by lia. destruct (Z.leb_spec nx 0); [lia|]. replace m with 0%Z by lia. change (inject_Z 0) with 0. ring.
Qed.

(** ** coarsening *)
Section C.
Variable s : Z.
Variable f : Q.
Hypothesis Hf : 1 < f.

Lemma coarse_lt n : (0 < n)%Z -> (s < n)%Z -> (0 <= coarse s f n < n)%Z.
Proof.
  intros Hn Hs. unfold coarse. destruct (Z.ltb_spec s n); [|lia].
  assert (Pn : 0 < inject_Z n) by (change 0 with (inject_Z 0); rewrite <- Zlt_Qlt; lia).
  assert (P : 0 <= inject_Z n / f) by (apply Qle_shift_div_l; lra).
  rewrite Qtrunc_nonneg by exact P.
  assert (L : inject_Z n / f < inject_Z n) by (apply Qlt_shift_div_r; [lra|]; nra).
  pose proof (Qfloor_le (inject_Z n / f)) as F1. split.
  - apply Qfloor_resp_le in P. exact P.
  - assert (inject_Z (Qfloor (inject_Z n / f)) < inject_Z n) by lra. rewrite <- Zlt_Qlt in H0. lia.
Qed.
Lemma coarse_same n : (n <= s)%Z -> coarse s f n = n.
Proof. intros H. unfold coarse. destruct (Z.ltb_spec s n); [lia|reflexivity]. Qed.
Lemma coarse_le n : (0 < n)%Z -> (0 <= coarse s f n <= n)%Z.
Proof. intros Hn. destruct (Z.lt_ge_cases s n); [pose proof (coarse_lt n Hn H); lia|rewrite coarse_same by lia; lia]. Qed.

(** sizes stay at least q if q f <= s + 1 *)
Lemma coarse_min q n : (0 < q)%Z -> inject_Z q * f <= inject_Z (s + 1) -> (q <= n)%Z -> (q <= coarse s f n)%Z.
Proof.
  intros Hq H Hn. unfold coarse. destruct (Z.ltb_spec s n); [|exact Hn].
  assert (Pn : 0 <= inject_Z n) by (change 0 with (inject_Z 0); rewrite <- Zle_Qle; lia).
  rewrite Qtrunc_nonneg by (apply Qle_shift_div_l; lra).
  assert (inject_Z q <= inject_Z n / f).
  { apply Qle_shift_div_l; [lra|]. assert (inject_Z (s + 1) <= inject_Z n) by (rewrite <- Zle_Qle; lia). lra. }
  apply Qfloor_resp_le in H1. rewrite Qfloor_Z in H1. exact H1.
Qed.

Lemma coarsening_exists : forall m nx nz, (Z.to_nat nx + Z.to_nat nz <= m)%nat -> (0 <= s)%Z -> exists l, coarsening s f (nx, nz) l.
Proof.
  induction m as [|m IH]; intros nx nz Hm Hs.
  - exists []. apply base; lia.
  - destruct (Z.lt_ge_cases s nx) as [Hx|Hx]; [|destruct (Z.lt_ge_cases s nz) as [Hz|Hz]].
    + pose proof (coarse_lt nx ltac:(lia) Hx). destruct (IH (coarse s f nx) (coarse s f nz)) as [l Hl].
      * destruct (Z.lt_ge_cases 0 nz); [pose proof (coarse_le nz H0); lia|]. rewrite (coarse_same nz) by lia. lia.
      * exact Hs.
      * eexists. apply again; [now left|exact Hl].
    + pose proof (coarse_lt nz ltac:(lia) Hz). destruct (IH (coarse s f nx) (coarse s f nz)) as [l Hl].
      * destruct (Z.lt_ge_cases 0 nx); [pose proof (coarse_le nx H0); lia|]. rewrite (coarse_same nx) by lia. lia.
      * exact Hs.
      * eexists. apply again; [now right|exact Hl].
    + exists []. now apply base.
Qed.

(** every coarse size is below the requested, at least q, and the chain ends inside the limit *)
Lemma coarsening_sizes q nx nz l : (0 < q)%Z -> inject_Z q * f <= inject_Z (s + 1) -> (0 <= s)%Z ->
  coarsening s f (nx, nz) l -> (q <= nx)%Z -> (q <= nz)%Z ->
  (forall a b, In (a, b) l -> (q <= a <= nx /\ q <= b <= nz /\ a + b < nx + nz)%Z) /\
  (let e := last l (nx, nz) in (fst e <= s /\ snd e <= s)%Z).
Proof.
  intros Hq H Hs C. remember (nx, nz) as p eqn:Ep. revert nx nz Ep. induction C as [nx nz Hx Hz|nx nz l Hor C IH]; intros nx' nz' [= <- <-] Qx Qz.
  - split; [intros a b []|]. cbn. lia.
  - assert (A1 := coarse_min q nx Hq H Qx). assert (A2 := coarse_min q nz Hq H Qz).
    destruct (IH _ _ eq_refl A1 A2) as [I1 I2].
    assert (B1 := coarse_le nx ltac:(lia)). assert (B2 := coarse_le nz ltac:(lia)).
    assert (B3 : (coarse s f nx + coarse s f nz < nx + nz)%Z).
    { destruct Hor as [Hx|Hz]; [pose proof (coarse_lt nx ltac:(lia) Hx)|pose proof (coarse_lt nz ltac:(lia) Hz)]; lia. }
    split.
    + intros a b [[= <- <-]|Hin]; [lia|]. specialize (I1 a b Hin). lia.
    + assert (LD : forall (l : list (Z * Z)) p d d', last (p :: l) d = last (p :: l) d').
      { clear. induction l as [|q l IH]; intros p d d'; [reflexivity|]. exact (IH q d d'). }
      destruct l as [|p' l']; [exact I2|]. change (last (?a :: p' :: l') ?d) with (last (p' :: l') d).
      rewrite (LD l' p' _ (coarse s f nx, coarse s f nz)). exact I2.
Qed.
End C.

Section E.
Variable pi : Q.
Variable innerR innerZ outerR outerZ : Q -> Q.
Variable inner_theta : Z -> option (Z -> Q).
Variable interpolate : Z -> Z -> Z -> Z -> arr2 -> arr2.
Variable tol : Q.
Variable s : Z.
Variable f : Q.
Variable dzr : Q.
Notation core' := (core pi innerR innerZ outerR outerZ inner_theta interpolate tol s f dzr).
Hypothesis Hf : 1 < f.
Hypothesis Hthetas : forall n, inner_theta n <> None.

Lemma core_terminates fuel : forall nx nz, (Z.to_nat nx + Z.to_nat nz < fuel)%nat -> core' fuel nx nz <> None.
Proof.
  induction fuel as [|fuel IH]; intros nx nz H; [lia|]. cbn [core].
  destruct (Z.ltb_spec 1 nx); [|discriminate]. destruct (Z.ltb_spec 1 nz); [|discriminate]. cbn [negb].
  destruct (too_big s nx nz) eqn:Et.
  - apply orb_true_iff in Et.
    assert (L : (Z.to_nat (coarse s f nx) + Z.to_nat (coarse s f nz) < Z.to_nat nx + Z.to_nat nz)%nat).
    { pose proof (coarse_le s f Hf nx ltac:(lia)). pose proof (coarse_le s f Hf nz ltac:(lia)).
      destruct Et as [E|E]; apply Z.ltb_lt in E; [pose proof (coarse_lt s f Hf nx ltac:(lia) E)|pose proof (coarse_lt s f Hf nz ltac:(lia) E)]; lia. }
    assert (K := IH (coarse s f nx) (coarse s f nz) ltac:(lia)).
    destruct (core' fuel (coarse s f nx) (coarse s f nz)) as [[[Rr Zr]|e]|]; [|discriminate|contradiction].
    destruct (negb _); [discriminate|]. specialize (Hthetas nz). destruct (inner_theta nz); [discriminate|contradiction].
  - specialize (Hthetas nz). destruct (inner_theta nz); [discriminate|contradiction].
Qed.

(** with room for splines no error but non-convergence *)
Lemma core_errors (H4 : 4 * f <= inject_Z (s + 1)) fuel : forall nx nz e, (4 <= nx)%Z -> (4 <= nz)%Z ->
  core' fuel nx nz = Some (Err e) -> e = RuntimeError.
Proof.
  assert (HQ : inject_Z 4 * f <= inject_Z (s + 1)) by exact H4.
  assert (RS : forall nx nz R Z e, run_solver pi tol dzr nx nz R Z = Err e -> e = RuntimeError).
  { intros nx nz. unfold run_solver. generalize (Z.to_nat (Z.max (Z.max nx nz * 10) 300)) as m. intros m.
    induction m as [|m IH]; intros R Z e; cbn [solve]; [now intros [= <-]|].
    destruct (negb _); [now intros [= <-]|]. destruct (small_change _ _ _ _ _ _ _); [discriminate|apply IH]. }
  induction fuel as [|fuel IH]; intros nx nz e Hx Hz; [discriminate|]. cbn [core].
  destruct (Z.ltb_spec 1 nx); [|lia]. destruct (Z.ltb_spec 1 nz); [|lia]. cbn [negb].
  assert (A1 := coarse_min s f Hf 4 nx ltac:(lia) HQ Hx). assert (A2 := coarse_min s f Hf 4 nz ltac:(lia) HQ Hz).
  destruct (too_big s nx nz).
  - destruct (core' fuel (coarse s f nx) (coarse s f nz)) as [[[Rr Zr]|e']|] eqn:E; [|intros [= <-]; eapply IH; [| |exact E]; assumption|discriminate].
    unfold spline_ok. destruct (Z.leb_spec 4 (coarse s f nx)); [|lia]. destruct (Z.leb_spec 3 (coarse s f nz)); [|lia]. cbn [andb negb].
    destruct (inner_theta nz); [|discriminate]. intros [= K]. now apply RS in K.
  - destruct (inner_theta nz); [|discriminate]. intros [= K]. now apply RS in K.
Qed.

(** boundary rows and last step of a successful run *)
Lemma core_ok fuel nx nz R Z : ~ pi == 0 -> core' fuel nx nz = Some (Ok (R, Z)) ->
  (2 <= nx)%Z /\ (2 <= nz)%Z /\
  exists ti, inner_theta nz = Some ti /\
  (forall j, (R 0%Z j == innerR (ti j) /\ Z 0%Z j == innerZ (ti j)) /\
             (R (nx - 1)%Z j == outerR (theta pi nz j) /\ Z (nx - 1)%Z j == outerZ (theta pi nz j))) /\
  exists R0 Z0 : arr2,
    let dx := 1 / inject_Z (nx - 1) in let dz := 2 * pi / inject_Z nz in let k := relax_value dzr in
    (forall i j, (i = 0 \/ i = nx - 1)%Z -> R0 i j == R i j /\ Z0 i j == Z i j) /\
    (forall i j, (1 <= i <= nx - 2)%Z -> (0 <= j < nz)%Z ->
       let d := diag nz dx dz k R0 Z0 i j in ~ d == 0 /\
       (R i j - R0 i j) * d == residual nz dx dz k R0 Z0 R0 i j /\
       (Z i j - Z0 i j) * d == residual nz dx dz k R0 Z0 Z0 i j /\
       dist2 (R i j, Z i j) (R0 i j, Z0 i j) < tol).
Proof.
  intros Hpi. destruct fuel as [|fuel]; [discriminate|]. cbn [core].
  destruct (Z.ltb_spec 1 nx) as [Hx|]; [|discriminate]. destruct (Z.ltb_spec 1 nz) as [Hz|]; [|discriminate]. cbn [negb].
  assert (N1 : ~ inject_Z (nx - 1) == 0) by (apply injz_neq0; lia).
  assert (N2 : ~ inject_Z nz == 0) by (apply injz_neq0; lia).
  assert (Hdx : ~ 1 / inject_Z (nx - 1) == 0) by (apply div_neq0; [discriminate|exact N1]).
  assert (Hdz : ~ 2 * pi / inject_Z nz == 0).
  { apply div_neq0; [|exact N2]. intro C. apply Hpi. lra. }
  assert (M : forall ti Rs Zs, inner_theta nz = Some ti ->
    (forall j, (Rs 0%Z j == innerR (ti j) /\ Zs 0%Z j == innerZ (ti j)) /\
               (Rs (nx - 1)%Z j == outerR (theta pi nz j) /\ Zs (nx - 1)%Z j == outerZ (theta pi nz j))) ->
    run_solver pi tol dzr nx nz Rs Zs = Ok (R, Z) ->
    (2 <= nx)%Z /\ (2 <= nz)%Z /\
    exists ti, inner_theta nz = Some ti /\
    (forall j, (R 0%Z j == innerR (ti j) /\ Z 0%Z j == innerZ (ti j)) /\
             (R (nx - 1)%Z j == outerR (theta pi nz j) /\ Z (nx - 1)%Z j == outerZ (theta pi nz j))) /\
    exists R0 Z0 : arr2,
    let dx := 1 / inject_Z (nx - 1) in let dz := 2 * pi / inject_Z nz in let k := relax_value dzr in
    (forall i j, (i = 0 \/ i = nx - 1)%Z -> R0 i j == R i j /\ Z0 i j == Z i j) /\
    (forall i j, (1 <= i <= nx - 2)%Z -> (0 <= j < nz)%Z ->
       let d := diag nz dx dz k R0 Z0 i j in ~ d == 0 /\
       (R i j - R0 i j) * d == residual nz dx dz k R0 Z0 R0 i j /\
       (Z i j - Z0 i j) * d == residual nz dx dz k R0 Z0 Z0 i j /\
       dist2 (R i j, Z i j) (R0 i j, Z0 i j) < tol)).
  { intros ti Rs Zs Et Hb Hr. split; [lia|]. split; [lia|]. exists ti. split; [exact Et|].
    unfold run_solver in Hr. apply solve_ok in Hr. destruct Hr as (c & _ & Hs & Hreg & Hsm).
    set (st := iter c (pair_step nx nz (1 / inject_Z (nx - 1)) (2 * pi / inject_Z nz) (relax_value dzr)) (Rs, Zs)) in *.
    assert (ER : R = fst (pair_step nx nz (1 / inject_Z (nx - 1)) (2 * pi / inject_Z nz) (relax_value dzr) st)) by exact (f_equal fst Hs).
    assert (EZ : Z = snd (pair_step nx nz (1 / inject_Z (nx - 1)) (2 * pi / inject_Z nz) (relax_value dzr) st)) by exact (f_equal snd Hs).
    assert (B : forall i j, (i = 0 \/ i = nx - 1)%Z -> (R i j = fst st i j /\ Z i j = snd st i j) /\ (fst st i j = Rs i j /\ snd st i j = Zs i j)).
    { intros i j Hi. split.
      - rewrite ER, EZ. apply step_boundary. lia.
      - unfold st. pose proof (iter_boundary nx nz (1 / inject_Z (nx - 1)) (2 * pi / inject_Z nz) (relax_value dzr) c (Rs, Zs) i j ltac:(lia)) as K. exact K. }
    split.
    - intros j. destruct (Hb j) as [[B1 B2] [B3 B4]].
      destruct (B 0%Z j ltac:(lia)) as [[C1 C2] [C3 C4]]. destruct (B (nx - 1)%Z j ltac:(lia)) as [[C5 C6] [C7 C8]].
      rewrite C1, C2, C3, C4, C5, C6, C7, C8. auto.
    - exists (fst st), (snd st). cbv zeta. split.
      + intros i j Hi. destruct (B i j Hi) as [[C1 C2] _]. rewrite C1, C2. split; reflexivity.
      + intros i j Hi Hj. assert (Hd := Hreg i j Hi Hj). split; [exact Hd|].
        assert (EI : interior_row nx i = true) by (unfold interior_row; apply andb_true_iff; split; apply Z.leb_le; lia).
        assert (ERi : R i j = jacobi nz (1 / inject_Z (nx - 1)) (2 * pi / inject_Z nz) (relax_value dzr) (fst st) (snd st) (fst st) i j).
        { rewrite ER. cbn [pair_step fst]. unfold step_arr. now rewrite EI. }
        assert (EZi : Z i j = jacobi nz (1 / inject_Z (nx - 1)) (2 * pi / inject_Z nz) (relax_value dzr) (fst st) (snd st) (snd st) i j).
        { rewrite EZ. cbn [pair_step snd]. unfold step_arr. now rewrite EI. }
        split; [|split].
        * rewrite ERi. apply jacobi_residual; assumption.
        * rewrite EZi. apply jacobi_residual; assumption.
        * apply Hsm; lia. }
  destruct (too_big s nx nz).
  - destruct (core' fuel (coarse s f nx) (coarse s f nz)) as [[[Rr Zr]|e]|]; [|discriminate|discriminate].
    destruct (negb _); [discriminate|]. destruct (inner_theta nz) as [ti|] eqn:Et; [|discriminate]. intros [= K].
    eapply M; [reflexivity| |exact K]. intros j. unfold set_boundary. cbn.
    destruct (Z.eqb_spec (nx - 1) 0); [lia|]. rewrite Z.eqb_refl. repeat split; reflexivity.
  - destruct (inner_theta nz) as [ti|] eqn:Et; [|discriminate]. intros [= K].
    eapply M; [reflexivity| |exact K]. intros j. unfold first_guess, xval. change (inject_Z 0) with 0.
    repeat split; field; exact N1.
Qed.
End E.

Section G.
Variable pi : Q.
Variable innerR innerZ outerR outerZ : Q -> Q.
Variable inner_theta : Z -> option (Z -> Q).
Variable interpolate : Z -> Z -> Z -> Z -> arr2 -> arr2.
Variable tol : Q.
Variable s : Z.
Variable f : Q.
Variable dzr : Q.
Notation ge := (grid_elliptic pi innerR innerZ outerR outerZ inner_theta interpolate tol s f dzr).

Lemma grid_elliptic_inv fuel nx nz o n rc g : ge fuel nx nz o n rc = Some (Ok g) ->
  (0 <= o)%Z /\ (0 <= n)%Z /\ exists R Y,
  core pi innerR innerZ outerR outerZ inner_theta interpolate tol s f dzr fuel (nx - o - n) nz = Some (Ok (R, Y)) /\
  g = {| g_nx := nx; g_nz := nz; g_R := add_guards (nx - o - n) o n R; g_Z := add_guards (nx - o - n) o n Y |}.
Proof.
  unfold grid_elliptic. destruct (Z.eqb_spec o 0), (Z.ltb_spec 0 o); cbn [negb andb]; try discriminate; try lia;
  destruct (Z.eqb_spec n 0), (Z.ltb_spec 0 n); cbn [negb andb]; try discriminate; try lia;
  destruct (core _ _ _ _ _ _ _ _ _ _ _ _ _ _) as [[[R Y]|ex]|]; try discriminate;
  (intros HH; split; [lia|]; split; [lia|]; exists R, Y; split; [reflexivity|];
   assert (En : (nx - o - n + o + n = nx)%Z) by lia; rewrite En in HH;
   destruct rc; [congruence|]; revert HH; unfold struct_init; cbn [g_nx g_nz];
   destruct (4 <? nx)%Z; [|congruence]; destruct (Qle_bool _ _); congruence).
Qed.

Lemma grid_elliptic_ok fuel nx nz o n rc g : ~ pi == 0 -> ge fuel nx nz o n rc = Some (Ok g) ->
  g_nx g = nx /\ g_nz g = nz /\ (0 <= n)%Z /\ (0 <= o)%Z /\ (2 <= nx - o - n)%Z /\
  exists ti, inner_theta nz = Some ti /\
  (forall j,
    g_R g n j == innerR (ti j) /\ g_Z g n j == innerZ (ti j) /\
    g_R g (nx - 1 - o)%Z j == outerR (theta pi nz j) /\ g_Z g (nx - 1 - o)%Z j == outerZ (theta pi nz j)) /\
  (forall j m, (0 <= m <= o)%Z -> let b := (nx - 1 - o)%Z in
    g_R g (b + m)%Z j == g_R g b j + inject_Z m * (g_R g b j - g_R g (b - 1)%Z j) /\
    g_Z g (b + m)%Z j == g_Z g b j + inject_Z m * (g_Z g b j - g_Z g (b - 1)%Z j)) /\
  (forall j m, (0 <= m <= n)%Z ->
    g_R g (n - m)%Z j == g_R g n j + inject_Z m * (g_R g n j - g_R g (n + 1)%Z j) /\
    g_Z g (n - m)%Z j == g_Z g n j + inject_Z m * (g_Z g n j - g_Z g (n + 1)%Z j)).
Proof.
  intros Hpi H. apply grid_elliptic_inv in H. destruct H as (Ho & Hn & R & Y & Hc & ->). cbn [g_nx g_nz g_R g_Z].
  apply core_ok in Hc; [|exact Hpi]. destruct Hc as (Hx & _ & ti & Et & Hb & _).
  split; [reflexivity|]. split; [reflexivity|]. split; [exact Hn|]. split; [exact Ho|]. split; [exact Hx|].
  exists ti. split; [exact Et|].
  assert (GR := fun F => guards_rows (nx - o - n) o n F Hx Ho Hn). cbv zeta in GR.
  split; [|split].
  - intros j. destruct (Hb j) as [[B1 B2] [B3 B4]].
    assert (RW : forall F, add_guards (nx - o - n) o n F n j = F 0%Z j /\ add_guards (nx - o - n) o n F (nx - 1 - o)%Z j = F (nx - o - n - 1)%Z j).
    { intros F. destruct (GR F j) as [G _]. split.
      - rewrite <- (G 0%Z) by lia. now rewrite Z.add_0_l.
      - rewrite <- (G (nx - o - n - 1)%Z) by lia. f_equal. lia. }
    destruct (RW R) as [-> ->]. destruct (RW Y) as [-> ->]. auto.
  - intros j m Hm. set (b := (nx - 1 - o)%Z).
    assert (K : forall F, add_guards (nx - o - n) o n F (b + m)%Z j == add_guards (nx - o - n) o n F b j +
      inject_Z m * (add_guards (nx - o - n) o n F b j - add_guards (nx - o - n) o n F (b - 1)%Z j)).
    { intros F. destruct (GR F j) as (G1 & G2 & _).
      replace (b + m)%Z with (n + (nx - o - n) - 1 + m)%Z by (unfold b; lia). rewrite (G2 m Hm).
      replace b with ((nx - o - n - 1) + n)%Z by (unfold b; lia). rewrite G1 by lia.
      replace (nx - o - n - 1 + n - 1)%Z with ((nx - o - n - 2) + n)%Z by lia. rewrite G1 by lia. reflexivity. }
    split; apply K.
  - intros j m Hm.
    assert (K : forall F, add_guards (nx - o - n) o n F (n - m)%Z j == add_guards (nx - o - n) o n F n j +
      inject_Z m * (add_guards (nx - o - n) o n F n j - add_guards (nx - o - n) o n F (n + 1)%Z j)).
    { intros F. destruct (GR F j) as (G1 & _ & G3). rewrite (G3 m Hm).
      rewrite <- (G1 0%Z), <- (G1 1%Z) by lia. rewrite Z.add_0_l, (Z.add_comm 1 n). reflexivity. }
    split; apply K.
Qed.
End G.

Lemma refused pi innerR innerZ outerR outerZ inner_theta interpolate tol s f dzr fuel nx nz o n rc :
  (o < 0 \/ n < 0 \/ nx - o - n <= 1 \/ nz <= 1)%Z ->
  grid_elliptic pi innerR innerZ outerR outerZ inner_theta interpolate tol s f dzr (S fuel) nx nz o n rc = Some (Err AssertionError).
Proof.
  intros H. unfold grid_elliptic.
  destruct (Z.eqb_spec o 0) as [Eo|Eo], (Z.ltb_spec 0 o) as [Lo|Lo]; cbn [negb andb]; try reflexivity; try lia;
  destruct (Z.eqb_spec n 0) as [En|En], (Z.ltb_spec 0 n) as [Ln|Ln]; cbn [negb andb]; try reflexivity; try lia;
  cbn [core]; destruct (Z.ltb_spec 1 (nx - o - n)) as [L1|L1]; cbn [negb]; try reflexivity;
  destruct (Z.ltb_spec 1 nz) as [L2|L2]; cbn [negb]; try reflexivity; lia.
Qed.
