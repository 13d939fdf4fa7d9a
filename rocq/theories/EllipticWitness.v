(** Witnesses and corollaries for EllipticProps. *)
From Coq Require Import List ZArith QArith Qround Qfield Lia Lqa Bool.
From Verif Require Import Prelude PreludeFacts PolModel PolSpec PolProofs EllipticModel EllipticSpec EllipticProofs EllipticSmooth.
Import ListNotations.
Open Scope Q_scope.

Lemma last_step pi innerR innerZ outerR outerZ inner_theta interpolate tol s f dzr fuel nx nz R Y : ~ pi == 0 ->
  core pi innerR innerZ outerR outerZ inner_theta interpolate tol s f dzr fuel nx nz = Some (Ok (R, Y)) ->
  exists R0 Y0 : arr2,
    let dx := 1 / inject_Z (nx - 1) in let dz := 2 * pi / inject_Z nz in let k := relax_value dzr in
    (forall i j, (i = 0 \/ i = nx - 1)%Z -> R0 i j == R i j /\ Y0 i j == Y i j) /\
    (forall i j, (1 <= i <= nx - 2)%Z -> (0 <= j < nz)%Z ->
       exists d, ~ d == 0 /\
       (R i j - R0 i j) * d == residual nz dx dz k R0 Y0 R0 i j /\
       (Y i j - Y0 i j) * d == residual nz dx dz k R0 Y0 Y0 i j /\
       dist2 (R i j, Y i j) (R0 i j, Y0 i j) < tol).
Proof.
  intros Hpi H. apply core_ok in H; [|exact Hpi]. destruct H as (_ & _ & ti & _ & _ & R0 & Y0 & Hb & Hi).
  exists R0, Y0. cbv zeta in *. split; [exact Hb|]. intros i j H1 H2. eexists. exact (Hi i j H1 H2).
Qed.

Lemma step_fixed_iff nx nz dx dz k R Y F i j : ~ dx == 0 -> ~ dz == 0 -> (1 <= i <= nx - 2)%Z ->
  ~ diag nz dx dz k R Y i j == 0 ->
  (step_arr nx nz dx dz k R Y F i j == F i j <-> residual nz dx dz k R Y F i j == 0).
Proof.
  intros H1 H2 Hi Hd. unfold step_arr. assert (E : interior_row nx i = true) by (apply andb_true_iff; split; apply Z.leb_le; lia).
  rewrite E. now apply fixed_iff.
Qed.

(** *** the resting state *)
Definition wit_r (i : Z) : Q := match i with 0%Z => 17 # 2 | 1%Z => 18 | _ => 57 # 2 end.
Definition wit_c (j : Z) : Q := match j with 0%Z => 1 | 2%Z => -1 | _ => 0 end.
Definition wit_s (j : Z) : Q := match j with 1%Z => 1 | 3%Z => -1 | _ => 0 end.
Definition wit_R : arr2 := fun i j => wit_r i * wit_c j.
Definition wit_Y : arr2 := fun i j => wit_r i * wit_s j.

Ltac qeval := cbv -[Qplus Qmult Qminus Qdiv Qeq].

Lemma wit_diag dx dz : ~ dx == 0 -> ~ dz == 0 -> forall j, (0 <= j < 4)%Z -> ~ diag 4 dx dz (10 # 3) wit_R wit_Y 1 j == 0.
Proof.
  intros Hx Hz j Hj C.
  assert (E : diag 4 dx dz (10 # 3) wit_R wit_Y 1 j * (dx * dx * dz * dz) == 7400).
  { assert (Hj' : (j = 0 \/ j = 1 \/ j = 2 \/ j = 3)%Z) by lia.
    destruct Hj' as [H|[H|[H|H]]]; rewrite H; qeval; field; tauto. }
  rewrite C in E. rewrite Qmult_0_l in E. discriminate E.
Qed.

Lemma wit_res dx dz : ~ dx == 0 -> ~ dz == 0 -> forall j, (0 <= j < 4)%Z ->
  residual 4 dx dz (10 # 3) wit_R wit_Y wit_R 1 j == 0 /\ residual 4 dx dz (10 # 3) wit_R wit_Y wit_Y 1 j == 0.
Proof.
  intros Hx Hz j Hj.
  assert (Hj' : (j = 0 \/ j = 1 \/ j = 2 \/ j = 3)%Z) by lia.
  destruct Hj' as [H|[H|[H|H]]]; rewrite H; split; qeval; field; tauto.
Qed.

Lemma wit_step dx dz : ~ dx == 0 -> ~ dz == 0 -> forall i j, (0 <= i < 3)%Z -> (0 <= j < 4)%Z ->
  step_arr 3 4 dx dz (10 # 3) wit_R wit_Y wit_R i j == wit_R i j /\
  step_arr 3 4 dx dz (10 # 3) wit_R wit_Y wit_Y i j == wit_Y i j.
Proof.
  intros Hx Hz i j Hi Hj. destruct (Z.eq_dec i 1) as [E|N].
  - rewrite E. destruct (wit_res dx dz Hx Hz j Hj) as [A B]. pose proof (wit_diag dx dz Hx Hz j Hj) as D.
    split; apply step_fixed_iff; try assumption; lia.
  - unfold step_arr. assert (E : interior_row 3 i = false).
    { unfold interior_row. apply andb_false_iff. destruct (Z.leb_spec 1 i); [right; apply Z.leb_gt; lia|now left]. }
    rewrite E. split; reflexivity.
Qed.

Lemma resting_not_documented pi : 0 < pi ->
  exists R Y : arr2, let dx := 1 / inject_Z 2 in let dz := 2 * pi / inject_Z 4 in let k := relax_value 0 in
  (forall i j, (0 <= i < 3)%Z -> (0 <= j < 4)%Z -> step_arr 3 4 dx dz k R Y R i j == R i j /\ step_arr 3 4 dx dz k R Y Y i j == Y i j) /\
  (forall tol, 0 < tol -> forall m, exists R' Y', solve 3 4 dx dz k (S m) tol R Y = Ok (R', Y')) /\
  ~ residual 4 dx dz 1 R Y R 1 0 == 0.
Proof.
  intros Hpi. exists wit_R, wit_Y. cbv zeta. change (relax_value 0) with (10 # 3).
  assert (Hx : ~ 1 / inject_Z 2 == 0) by discriminate.
  assert (Hz : ~ 2 * pi / inject_Z 4 == 0).
  { apply div_neq0; [intro C; lra|discriminate]. }
  set (dx := 1 / inject_Z 2) in *. set (dz := 2 * pi / inject_Z 4) in *. clearbody dx dz.
  split; [now apply wit_step|]. split.
  - intros tol Ht m. cbn [solve].
    assert (Er : regular 3 4 dx dz (10 # 3) wit_R wit_Y = true).
    { unfold regular. rewrite all_points_iff. intros i j Hi Hj. apply orb_true_iff.
      destruct (interior_row 3 i) eqn:E; [|now left]. right. apply negb_true_iff. unfold qzero.
      apply andb_true_iff in E. destruct E as [E1 E2]. apply Z.leb_le in E1. apply Z.leb_le in E2. replace i with 1%Z by lia.
      destruct (Qeq_bool _ 0) eqn:Eq; [|reflexivity]. apply Qeq_bool_iff in Eq. exfalso. now apply (wit_diag dx dz Hx Hz j Hj). }
    rewrite Er. cbn [negb].
    assert (Es : small_change 3 4 tol wit_R wit_Y (step_arr 3 4 dx dz (10 # 3) wit_R wit_Y wit_R) (step_arr 3 4 dx dz (10 # 3) wit_R wit_Y wit_Y) = true).
    { unfold small_change. rewrite all_points_iff. intros i j Hi Hj. apply Qlt_bool_iff.
      destruct (wit_step dx dz Hx Hz i j Hi Hj) as [A B]. rewrite A, B.
      assert (Z0 : (wit_R i j - wit_R i j) * (wit_R i j - wit_R i j) + (wit_Y i j - wit_Y i j) * (wit_Y i j - wit_Y i j) == 0) by ring.
      rewrite Z0. exact Ht. }
    rewrite Es. eauto.
  - intros C. assert (E : residual 4 dx dz 1 wit_R wit_Y wit_R 1 0 * (dx * dx * dz * dz) == - 3276) by (qeval; field; tauto).
    rewrite C in E. rewrite Qmult_0_l in E. discriminate E.
Qed.

(** *** coarsening *)
Lemma chain s f q nx nz : 1 < f -> (0 <= s)%Z -> (0 < q)%Z -> inject_Z q * f <= inject_Z (s + 1) ->
  (q <= nx)%Z -> (q <= nz)%Z ->
  exists l, coarsening s f (nx, nz) l /\
  (forall a b, In (a, b) l -> (q <= a <= nx /\ q <= b <= nz /\ a + b < nx + nz)%Z) /\
  (let e := last l (nx, nz) in (fst e <= s /\ snd e <= s)%Z).
Proof.
  intros Hf Hs Hq H Hx Hz. destruct (coarsening_exists s f Hf _ nx nz (le_n _) Hs) as [l Hl].
  exists l. split; [exact Hl|]. now apply (coarsening_sizes s f Hf q nx nz l).
Qed.

Lemma factor_one pi iR iZ oR oZ th ip tol s dzr nx nz fuel : (1 < nx)%Z -> (1 < nz)%Z -> (s < nx)%Z ->
  core pi iR iZ oR oZ th ip tol s 1 dzr fuel nx nz = None.
Proof.
  intros Hx Hz Hs.
  assert (E : forall n, coarse s 1 n = n).
  { intros n. unfold coarse. destruct (s <? n)%Z; [|reflexivity].
    rewrite (Qtrunc_comp _ (inject_Z n)) by field. apply Qtrunc_Z. }
  induction fuel as [|fuel IH]; [reflexivity|]. cbn [core].
  destruct (Z.ltb_spec 1 nx); [|lia]. destruct (Z.ltb_spec 1 nz); [|lia]. cbn [negb].
  assert (T : too_big s nx nz = true) by (apply orb_true_iff; left; apply Z.ltb_lt; exact Hs).
  rewrite T, !E, IH. reflexivity.
Qed.

Lemma thin_grid pi iR iZ oR oZ th ip tol dzr nz fuel R : (20 < nz)%Z ->
  core pi iR iZ oR oZ th ip tol 20 2 dzr fuel 3 nz <> Some (Ok R).
Proof.
  intros Hz. destruct fuel as [|fuel]; [discriminate|]. cbn [core]. change (1 <? 3)%Z with true.
  destruct (Z.ltb_spec 1 nz); [|lia]. cbn [negb].
  assert (T : too_big 20 3 nz = true) by (apply orb_true_iff; right; apply Z.ltb_lt; exact Hz). rewrite T.
  change (coarse 20 2 3) with 3%Z. unfold spline_ok. change (4 <=? 3)%Z with false. cbn [andb negb].
  destruct (core _ _ _ _ _ _ _ _ _ _ _ _ 3 _) as [[[? ?]|]|]; discriminate.
Qed.

(** *** smoothing *)
Lemma laplace_terminates_iff pi n x w : 0 < pi -> (0 < n)%Z -> no_opposite pi n x -> turns pi n x w ->
  ((exists fuel y, laplace pi n fuel x = Some y) <-> (0 < w)%Z).
Proof.
  intros Hpi Hn NO T. split.
  - intros (fuel & y & E). destruct (Z.lt_ge_cases 0 w) as [H|H]; [exact H|].
    rewrite (laplace_loops pi Hpi n Hn x w fuel NO T H) in E. discriminate.
  - now apply laplace_terminates.
Qed.
Lemma laplace_two pi fuel x : 0 < pi -> laplace pi 2 fuel x = None.
Proof. intros Hpi. unfold laplace. destruct (smooth_fac 2) as [fac steps]. now apply two_never. Qed.

Definition noisy : arr1 := fun i => match i with 0%Z => 0 | 1%Z => 2 | 2%Z => 19 # 10 | _ => 4 end.
Definition backwards : arr1 := fun i => match i with 0%Z => 0 | 1%Z => 9 # 2 | 2%Z => 3 | _ => 3 # 2 end.

Lemma gap_all pi n x (P : Q -> Prop) : (0 < n)%Z -> (forall q r, q == r -> P q -> P r) ->
  (forall i, (0 <= i < n)%Z -> P (gap pi n x i)) -> forall i, P (gap pi n x i).
Proof.
  intros Hn HP H i. apply (HP (gap pi n x (i mod n))).
  - symmetry. apply (periodic_mod n Hn). now apply gap_periodic.
  - apply H. now apply Z.mod_pos_bound.
Qed.
Lemma cases4 (P : Z -> Prop) : P 0%Z -> P 1%Z -> P 2%Z -> P 3%Z -> forall i, (0 <= i < 4)%Z -> P i.
Proof. intros. assert (i = 0 \/ i = 1 \/ i = 2 \/ i = 3)%Z as [->|[->|[->| ->]]] by lia; assumption. Qed.

Lemma noisy_ok : no_opposite 3 4 noisy /\ turns 3 4 noisy 1 /\ ~ (forall i, 0 < gap 3 4 noisy i).
Proof.
  split; [|split].
  - unfold no_opposite. apply (gap_all 3 4 noisy (fun q => - 3 < q)); [lia|intros q r E; rewrite E; auto|].
    apply cases4; reflexivity.
  - reflexivity.
  - intros H. specialize (H 1%Z). revert H. vm_compute. discriminate.
Qed.
Lemma backwards_ok : no_opposite 3 4 backwards /\ turns 3 4 backwards (-1).
Proof.
  split; [|reflexivity]. unfold no_opposite. apply (gap_all 3 4 backwards (fun q => - 3 < q)); [lia|intros q r E; rewrite E; auto|].
  apply cases4; reflexivity.
Qed.
Lemma default_sizes : inject_Z 4 * 2 <= inject_Z (20 + 1) /\ coarsening 20 2 (68, 256)%Z [(34, 128); (17, 64); (17, 32); (17, 16)]%Z.
Proof.
  split; [discriminate|].
  apply (again 20 2 68 256); [lia|]. change (coarse 20 2 68, coarse 20 2 256) with (34, 128)%Z.
  apply (again 20 2 34 128); [lia|]. change (coarse 20 2 34, coarse 20 2 128) with (17, 64)%Z.
  apply (again 20 2 17 64); [lia|]. change (coarse 20 2 17, coarse 20 2 64) with (17, 32)%Z.
  apply (again 20 2 17 32); [lia|]. change (coarse 20 2 17, coarse 20 2 32) with (17, 16)%Z.
  apply base; lia.
Qed.

(** square points at the angles 0, 3/2, 3, 9/2 (pi = 3) *)
Definition sq_R (t : Q) : Q := if Qeq_bool t 0 then 1 else if Qeq_bool t 3 then -1 else 0.
Definition sq_Z (t : Q) : Q := if Qeq_bool t (3 # 2) then 1 else if Qeq_bool t (9 # 2) then -1 else 0.
Definition sq2_R (t : Q) : Q := 2 * sq_R t.
Definition sq2_Z (t : Q) : Q := 2 * sq_Z t.
Definition sq_theta (nz : Z) : option (Z -> Q) := Some (theta 3 nz).
Definition run_check : bool :=
  match grid_elliptic 3 sq_R sq_Z sq2_R sq2_Z sq_theta (fun _ _ _ _ F => F) 1 20 2 1 5 4 4 1 0 true with
  | Some (Ok g) => ((g_nx g =? 4)%Z && Qeq_bool (g_R g 0%Z 0%Z) 1 && Qeq_bool (g_R g 2%Z 0%Z) 2
                   && Qlt_bool 1 (g_R g 1%Z 0%Z) && Qlt_bool (g_R g 1%Z 0%Z) (3 # 2))%bool
  | _ => false
  end.
Lemma runs : exists g, grid_elliptic 3 sq_R sq_Z sq2_R sq2_Z sq_theta (fun _ _ _ _ F => F) 1 20 2 1 5 4 4 1 0 true = Some (Ok g) /\
  g_nx g = 4%Z /\ g_R g 0%Z 0%Z == 1 /\ g_R g 2%Z 0%Z == 2 /\ 1 < g_R g 1%Z 0%Z < 3 # 2.
Proof.
  assert (H : run_check = true) by (vm_compute; reflexivity). unfold run_check in H.
  destruct (grid_elliptic _ _ _ _ _ _ _ _ _ _ _ _ _ _ _ _ _) as [[g|e]|]; try discriminate.
  exists g. split; [reflexivity|]. rewrite !andb_true_iff in H. destruct H as [[[[H1 H2] H3] H4] H5].
  apply Z.eqb_eq in H1. apply Qeq_bool_iff in H2. apply Qeq_bool_iff in H3. apply Qlt_bool_iff in H4. apply Qlt_bool_iff in H5. tauto.
Qed.
