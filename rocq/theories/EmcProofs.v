(** Proofs about EMC3FieldTracer. *)
From Coq Require Import List ZArith QArith Qround Qfield Qabs Lia Lqa Bool Setoid.
From Verif Require Import Prelude PreludeFacts EmcModel.
Import ListNotations.
Open Scope Q_scope.

Lemma raise_spec fuel : forall pmin d phi n phi' n', raise_phi fuel pmin d phi n = Some (phi', n') ->
  phi' == phi + inject_Z (n' - n) * d /\ pmin <= phi' /\ (n <= n')%Z /\ (n' <> n -> 0 < d -> phi' < pmin + d) /\ (n' = n -> phi' = phi).
Proof.
  induction fuel as [|fuel IH]; intros pmin d phi n phi' n' H; [discriminate|]. cbn [raise_phi] in H. destruct (Qlt_bool phi pmin) eqn:E.
  - apply Qlt_bool_iff in E. destruct (IH _ _ _ _ _ _ H) as (A & B & C & D & D'). split; [rewrite A; unfold Z.sub; rewrite !inject_Z_plus, !inject_Z_opp, ?inject_Z_plus; change (inject_Z 1) with 1; ring|].
    split; [exact B|]. split; [lia|]. split; [|lia]. intros _ Hd. destruct (Z.eq_dec n' (n + 1)) as [->|N]; [rewrite (D' eq_refl); lra|now apply D].
  - apply Qlt_bool_false_iff in E. injection H as <- <-. rewrite Z.sub_diag. split; [change (inject_Z 0) with 0; ring|]. split; [exact E|]. split; [lia|]. split; [contradiction|reflexivity].
Qed.
Lemma lower_spec fuel : forall pmax d phi n phi' n', lower_phi fuel pmax d phi n = Some (phi', n') ->
  phi' == phi + inject_Z (n' - n) * d /\ phi' <= pmax /\ (n' <= n)%Z /\ (n' <> n -> 0 < d -> pmax - d < phi') /\ (n' = n -> phi' = phi).
Proof.
  induction fuel as [|fuel IH]; intros pmax d phi n phi' n' H; [discriminate|]. cbn [lower_phi] in H. destruct (Qlt_bool pmax phi) eqn:E.
  - apply Qlt_bool_iff in E. destruct (IH _ _ _ _ _ _ H) as (A & B & C & D & D'). split; [rewrite A; unfold Z.sub; rewrite !inject_Z_plus, !inject_Z_opp, ?inject_Z_plus, ?inject_Z_opp; change (inject_Z 1) with 1; ring|].
    split; [exact B|]. split; [lia|]. split; [|lia]. intros _ Hd. destruct (Z.eq_dec n' (n - 1)) as [->|N]; [rewrite (D' eq_refl); lra|now apply D].
  - apply Qlt_bool_false_iff in E. injection H as <- <-. rewrite Z.sub_diag. split; [change (inject_Z 0) with 0; ring|]. split; [exact E|]. split; [lia|]. split; [contradiction|reflexivity].
Qed.
(** whenever the loops end *)
Lemma wrap_spec fuel pmin pmax phi phi' n : pmin <= pmax -> wrap_phi fuel pmin pmax phi = Some (phi', n) ->
  phi' == phi + inject_Z n * (pmax - pmin) /\ pmin <= phi' <= pmax.
Proof.
  intros Hp. unfold wrap_phi. destruct (Qlt_bool pmin phi && Qlt_bool phi pmax) eqn:E.
  - apply andb_true_iff in E. destruct E as [E1 E2]. apply Qlt_bool_iff in E1. apply Qlt_bool_iff in E2. intros [= <- <-]. change (inject_Z 0) with 0. split; [ring|lra].
  - destruct (raise_phi fuel pmin (pmax - pmin) phi 0) as [[phi1 n1]|] eqn:R; [|discriminate]. intros L.
    destruct (raise_spec _ _ _ _ _ _ _ R) as (A & B & C & _). destruct (lower_spec _ _ _ _ _ _ _ L) as (A' & B' & C' & D' & E').
    split. { rewrite A', A. unfold Z.sub. rewrite !inject_Z_plus, !inject_Z_opp. change (inject_Z 0) with 0. ring. }
    split; [|exact B']. destruct (Z.eq_dec n n1) as [->|N]; [rewrite (E' eq_refl); exact B|].
    destruct (Qlt_le_dec 0 (pmax - pmin)) as [P|P]; [specialize (D' N P); lra|].
    assert (Z0 : pmax - pmin == 0) by lra. rewrite A'. rewrite Z0. lra.
Qed.
Lemma raise_ends fuel : forall pmin d phi n, 0 < d -> pmin - phi <= inject_Z (Z.of_nat fuel) * d -> exists r, raise_phi (S fuel) pmin d phi n = Some r.
Proof.
  induction fuel as [|fuel IH]; intros pmin d phi n Hd H; cbn [raise_phi]; destruct (Qlt_bool phi pmin) eqn:E; eauto; apply Qlt_bool_iff in E.
  - cbn [Z.of_nat] in H. change (inject_Z 0) with 0 in H. lra.
  - apply IH; [exact Hd|]. rewrite Nat2Z.inj_succ in H. unfold Z.succ in H. rewrite inject_Z_plus in H. change (inject_Z 1) with 1 in H. lra.
Qed.
Lemma lower_ends fuel : forall pmax d phi n, 0 < d -> phi - pmax <= inject_Z (Z.of_nat fuel) * d -> exists r, lower_phi (S fuel) pmax d phi n = Some r.
Proof.
  induction fuel as [|fuel IH]; intros pmax d phi n Hd H; cbn [lower_phi]; destruct (Qlt_bool pmax phi) eqn:E; eauto; apply Qlt_bool_iff in E.
  - cbn [Z.of_nat] in H. change (inject_Z 0) with 0 in H. lra.
  - apply IH; [exact Hd|]. rewrite Nat2Z.inj_succ in H. unfold Z.succ in H. rewrite inject_Z_plus in H. change (inject_Z 1) with 1 in H. lra.
Qed.
Lemma wrap_ends pmin pmax phi : pmin < pmax -> exists fuel0, forall fuel, (fuel0 <= fuel)%nat -> exists phi' n, wrap_phi fuel pmin pmax phi = Some (phi', n).
Proof.
  intros Hp. set (d := pmax - pmin). assert (Hd : 0 < d) by (unfold d; lra).
  set (k := Z.to_nat (Qceiling (Qabs (phi - pmin) / d + Qabs (phi - pmax) / d))). exists (S k). intros fuel Hf.
  assert (K : Qabs (phi - pmin) / d + Qabs (phi - pmax) / d <= inject_Z (Z.of_nat (fuel - 1))).
  { eapply Qle_trans; [apply Qle_ceiling|]. rewrite <- Zle_Qle. unfold k in *. lia. }
  assert (P1 : 0 <= Qabs (phi - pmin) / d) by (apply Qle_shift_div_l; [exact Hd|]; pose proof (Qabs_nonneg (phi - pmin)); lra).
  assert (P2 : 0 <= Qabs (phi - pmax) / d) by (apply Qle_shift_div_l; [exact Hd|]; pose proof (Qabs_nonneg (phi - pmax)); lra).
  unfold wrap_phi. destruct (_ && _)%bool; [eauto|]. fold d. replace fuel with (S (fuel - 1)) by lia.
  assert (M1 : Qabs (phi - pmin) == Qabs (phi - pmin) / d * d) by (field; lra). assert (M2 : Qabs (phi - pmax) == Qabs (phi - pmax) / d * d) by (field; lra).
  set (u := Qabs (phi - pmin) / d) in *. set (v := Qabs (phi - pmax) / d) in *. set (N := inject_Z (Z.of_nat (fuel - 1))) in *.
  destruct (raise_ends (fuel - 1) pmin d phi 0 Hd) as [[phi1 n1] R]. { fold N. pose proof (Qle_Qabs (pmin - phi)). rewrite Qabs_Qminus in H. nra. }
  rewrite R. destruct (raise_spec _ _ _ _ _ _ _ R) as (A & B & C & D & E).
  destruct (lower_ends (fuel - 1) pmax d phi1 n1 Hd) as [[phi2 n2] L]; [|eauto]. fold N.
  destruct (Z.eq_dec n1 0) as [->|Nn]; [rewrite (E eq_refl); pose proof (Qle_Qabs (phi - pmax)); nra|]. specialize (D Nn Hd). unfold d in D.
  assert (0 <= N * d) by nra. lra.
Qed.
Lemma wrap_never p phi fuel : ~ phi == p -> wrap_phi fuel p p phi = None.
Proof.
  intros N. unfold wrap_phi. destruct (Qlt_bool p phi && Qlt_bool phi p) eqn:E.
  { apply andb_true_iff in E. destruct E as [E1 E2]. apply Qlt_bool_iff in E1. apply Qlt_bool_iff in E2. lra. }
  set (d := p - p). assert (Z0 : d == 0) by (unfold d; ring). clearbody d.
  destruct (raise_phi fuel p d phi 0) as [[phi1 n1]|] eqn:R; [|reflexivity].
  destruct (raise_spec _ _ _ _ _ _ _ R) as (A & B & _). rewrite Z0 in A. assert (A' : phi1 == phi) by lra.
  destruct (lower_phi fuel p d phi1 n1) as [[phi2 n2]|] eqn:L; [|reflexivity].
  destruct (lower_spec _ _ _ _ _ _ _ L) as (C & D & _). rewrite Z0 in C. lra.
Qed.

(** ** cells *)
Lemma ab_fun grid nz ij rz ab : let '(A, a, b, c) := corners grid nz ij in
  let f := cell_fun (psub2 rz A) a b c ab in let r := ab_to_rz ab grid nz ij in fst r == fst rz - fst f /\ snd r == snd rz - snd f.
Proof.
  unfold ab_to_rz. destruct (corners grid nz ij) as [[[A a] b] c]. destruct ab as [al be]. cbn. split; ring.
Qed.
Lemma cell_newton_spec n tol rz0 a b c : forall ab fb r, cell_newton n tol rz0 a b c ab fb = Ok r -> fb = Ok r \/
  (let f := cell_fun rz0 a b c r in fst f * fst f + snd f * snd f < tol).
Proof.
  induction n as [|n IH]; intros ab fb r H; cbn [cell_newton] in H; [now left|]. destruct (newton_step rz0 a b c ab) as [ab'|]; [|discriminate].
  cbv zeta in H. destruct (Qlt_bool _ tol) eqn:E; [right; injection H as <-; now apply Qlt_bool_iff in E|now apply (IH ab')].
Qed.
(** a cell that is a parallelogram: one step is exact *)
Lemma parallelogram n tol rz0 a b c ab fb : 0 < tol -> fst c == 0 -> snd c == 0 -> ~ fst a * snd b - fst b * snd a == 0 -> (1 <= n)%nat ->
  exists r, cell_newton n tol rz0 a b c ab fb = Ok r /\ let f := cell_fun rz0 a b c r in fst f == 0 /\ snd f == 0.
Proof.
  intros Ht C1 C2 Hd Hn. destruct n as [|n]; [lia|]. cbn [cell_newton]. unfold newton_step. destruct ab as [al be].
  set (det := _ * _ - _ * _). assert (Ed : det == fst a * snd b - fst b * snd a) by (unfold det; rewrite C1, C2; ring).
  destruct (Qeq_bool det 0) eqn:E; [apply Qeq_bool_iff in E; rewrite Ed in E; contradiction|]. cbv zeta.
  set (f := cell_fun rz0 a b c (al, be)).
  set (al' := Qred _). set (be' := Qred _).
  assert (Al : al' == al + (snd b * fst f - fst b * snd f) / (fst a * snd b - fst b * snd a)).
  { unfold al'. rewrite Qred_correct, Ed, C1, C2. field. exact Hd. }
  assert (Be : be' == be + (fst a * snd f - snd a * fst f) / (fst a * snd b - fst b * snd a)).
  { unfold be'. rewrite Qred_correct, Ed, C1, C2. field. exact Hd. }
  assert (Z0 : let f := cell_fun rz0 a b c (al', be') in fst f == 0 /\ snd f == 0).
  { cbn [cell_fun psub2 pscale fst snd]. assert (F1 : fst f == fst rz0 - al * fst a - be * fst b) by (unfold f; cbn; rewrite C1; ring).
    assert (F2 : snd f == snd rz0 - al * snd a - be * snd b) by (unfold f; cbn; rewrite C2; ring). rewrite C1, C2, Al, Be, F1, F2. split; field; exact Hd. }
  cbv zeta in Z0. destruct Z0 as [Z1 Z2].
  assert (T : Qlt_bool (fst (cell_fun rz0 a b c (al', be')) * fst (cell_fun rz0 a b c (al', be')) + snd (cell_fun rz0 a b c (al', be')) * snd (cell_fun rz0 a b c (al', be'))) tol = true).
  { apply Qlt_bool_iff. rewrite Z1, Z2. lra. }
  rewrite T. eexists. split; [reflexivity|]. split; assumption.
Qed.

(** ** following *)
Section F.
Variable cell : Type.
Variable locate : Q -> pt -> res cell.
Variable place : Q -> cell -> pt.
Variable pmin pmax : Q.
Notation follow_point := (follow_point cell locate place pmin pmax).
(** the period crossings never reach the result *)
Lemma follow_point_actual meshes rz out : follow_point meshes rz = Ok out ->
  exists m0 ms c0, meshes = m0 :: ms /\ locate (fst m0) rz = Ok c0 /\ out = rz :: map (fun m => place (fst m) c0) ms.
Proof.
  unfold EmcModel.follow_point. destruct meshes as [|m0 ms]; [discriminate|]. destruct (locate (fst m0) rz) as [c0|] eqn:E0; [|discriminate]. cbn [bind].
  match goal with |- context [foldM ?f ms ?s] => set (F := f); set (s0 := s) end.
  assert (G : forall ms cur cache o r, (forall k c, find_cell cell k cache = Some c -> c = c0) -> foldM F ms (cur, cache, o) = Ok r -> snd r = o ++ map (fun m => place (fst m) c0) ms).
  { clear ms s0. induction ms as [|mj ms IH]; intros cur cache o r Hc H; cbn [foldM map] in H |- *; [injection H as <-; cbn; now rewrite app_nil_r|].
    unfold F at 1 in H. cbv beta iota zeta in H. set (per := (snd mj - snd m0)%Z) in *.
    destruct (find_cell cell per cache) as [c1|] eqn:Ef.
    - cbn [bind] in H. rewrite Ef in H. cbn [bind] in H. apply IH in H; [|exact Hc]. rewrite H, <- app_assoc. cbn. now rewrite (Hc _ _ Ef).
    - destruct (cross_n _ _ _ _ _ _ _ cur) as [cx|]; [|discriminate]. cbn [bind find_cell] in H. rewrite Z.eqb_refl in H. cbn [bind] in H.
      apply IH in H; [rewrite H, <- app_assoc; reflexivity|]. intros k c. cbn [find_cell]. destruct (k =? per)%Z; [now intros [= <-]|apply Hc]. }
  intros H. destruct (foldM F ms s0) as [r|] eqn:Ef; [|discriminate]. cbn [bind] in H. injection H as <-. exists m0, ms, c0. split; [reflexivity|]. split; [exact E0|].
  rewrite (G ms c0 [(0%Z, c0)] [rz] r); [reflexivity| |exact Ef]. intros k c. cbn. destruct (k =? 0)%Z; [now intros [= <-]|discriminate].
Qed.
(** inside one period it is the line with the start point's cell coordinates *)
Lemma follow_point_period m0 ms rz c0 : locate (fst m0) rz = Ok c0 -> (forall m, In m ms -> snd m = snd m0) ->
  follow_point (m0 :: ms) rz = Ok (rz :: map (fun m => place (fst m) c0) ms).
Proof.
  intros E0 Hp. assert (X : exists out, follow_point (m0 :: ms) rz = Ok out).
  { unfold EmcModel.follow_point. rewrite E0. cbn [bind]. match goal with |- context [foldM ?f ms ?s] => set (F := f) end.
    assert (G : forall cur o, exists cur' o', foldM F ms (cur, [(0%Z, c0)], o) = Ok (cur', [(0%Z, c0)], o')).
    { induction ms as [|mj ms IH]; intros cur o; cbn [foldM]; [eauto|]. unfold F at 1. cbv beta iota zeta. rewrite (Hp mj (or_introl eq_refl)), Z.sub_diag. cbn [find_cell bind]. change (0 =? 0)%Z with true. cbn [bind].
      apply IH. intros m Hm. apply Hp. now right. }
    destruct (G c0 [rz]) as (cur' & o' & ->). cbn. eauto. }
  destruct X as [out X]. rewrite X. destruct (follow_point_actual _ _ _ X) as (m0' & ms' & c0' & [= <- <-] & E & ->). rewrite E0 in E. now injection E as <-.
Qed.
Lemma emc_scalar meshes rz rest : emc_follow cell locate place pmin pmax [] meshes (rz :: rest) =
  Err (match meshes with [] => IndexError | m0 :: _ => match locate (fst m0) rz with Ok _ => TypeError | Err e => e end end).
Proof. unfold emc_follow. cbn [foldM]. destruct meshes as [|m0 ms]; cbn; [reflexivity|]. destruct (locate (fst m0) rz); reflexivity. Qed.
End F.

Lemma cell_tolerance least_squares rz grid nz ij ab : rz_to_ab_cell least_squares rz grid nz ij = Ok ab ->
  (let '(A, a, b, c) := corners grid nz ij in ab = least_squares a b c (psub2 rz A)) \/
  let r := ab_to_rz ab grid nz ij in (fst rz - fst r) * (fst rz - fst r) + (snd rz - snd r) * (snd rz - snd r) < 1 # 10000000000000.
Proof.
  unfold rz_to_ab_cell. pose proof (ab_fun grid nz ij rz ab) as K. destruct (corners grid nz ij) as [[[A a] b] c]. intros H.
  destruct (cell_newton_spec _ _ _ _ _ _ _ _ _ H) as [E|E]; [left; now injection E as <-|right]. cbv zeta in *. destruct K as [K1 K2].
  setoid_replace (fst rz - fst (ab_to_rz ab grid nz ij)) with (fst (cell_fun (psub2 rz A) a b c ab)) by (rewrite K1; ring).
  setoid_replace (snd rz - snd (ab_to_rz ab grid nz ij)) with (snd (cell_fun (psub2 rz A) a b c ab)) by (rewrite K2; ring). exact E.
Qed.
Lemma cell_parallelogram least_squares rz grid nz ij : (let '(A, a, b, c) := corners grid nz ij in fst c == 0 /\ snd c == 0 /\ ~ fst a * snd b - fst b * snd a == 0) ->
  exists ab, rz_to_ab_cell least_squares rz grid nz ij = Ok ab /\ fst (ab_to_rz ab grid nz ij) == fst rz /\ snd (ab_to_rz ab grid nz ij) == snd rz.
Proof.
  unfold rz_to_ab_cell. pose proof (fun ab => ab_fun grid nz ij rz ab) as K. destruct (corners grid nz ij) as [[[A a] b] c]. intros (C1 & C2 & D).
  destruct (parallelogram 100 (1 # 10000000000000) (psub2 rz A) a b c (1 # 2, 1 # 2) (Ok (least_squares a b c (psub2 rz A))) ltac:(reflexivity) C1 C2 D ltac:(lia)) as (ab & E & Z1 & Z2).
  exists ab. split; [exact E|]. destruct (K ab) as [K1 K2]. rewrite K1, K2, Z1, Z2. split; ring.
Qed.

(** the unit square goes to the four grid points of the cell, and its edges to straight lines *)
Lemma cell_corner_points grid nz i j t : (0 <= j < nz)%Z -> let ij := (i * nz + j)%Z in
  let same p q := fst p == fst q /\ snd p == snd q in
  let between p q := (fst p + t * (fst q - fst p), snd p + t * (snd q - snd p)) in
  same (ab_to_rz (t, 0) grid nz ij) (between (grid i j) (grid i (j + 1)%Z)) /\
  same (ab_to_rz (t, 1) grid nz ij) (between (grid (i + 1)%Z j) (grid (i + 1)%Z (j + 1)%Z)) /\
  same (ab_to_rz (0, t) grid nz ij) (between (grid i j) (grid (i + 1)%Z j)) /\
  same (ab_to_rz (1, t) grid nz ij) (between (grid i (j + 1)%Z) (grid (i + 1)%Z (j + 1)%Z)).
Proof.
  intros Hj ij same between.
  assert (E1 : (ij / nz = i)%Z) by (unfold ij; rewrite Z.div_add_l by lia; rewrite Z.div_small by lia; lia).
  assert (E2 : (ij mod nz = j)%Z) by (unfold ij; rewrite Z.add_comm, Z.mod_add by lia; apply Z.mod_small; lia).
  unfold same, between, ab_to_rz, corners. rewrite E1, E2. cbn [padd2 psub2 pscale fst snd].
  repeat split; ring.
Qed.

(** ** the iteration step by step *)
(** the distance squared between the wanted position and that of the cell coordinates *)
Definition miss2 (rz : pt) (grid : Z -> Z -> pt) (nz ij : Z) (ab : pt) : Q :=
  let r := ab_to_rz ab grid nz ij in (fst rz - fst r) * (fst rz - fst r) + (snd rz - snd r) * (snd rz - snd r).
Lemma newton_solves rz0 a b c ab ab' : newton_step rz0 a b c ab = Some ab' ->
  let '(al, be) := ab in let u := fst ab' - al in let v := snd ab' - be in
  u * (fst a + be * fst c) + v * (fst b + al * fst c) == fst (cell_fun rz0 a b c ab) /\
  u * (snd a + be * snd c) + v * (snd b + al * snd c) == snd (cell_fun rz0 a b c ab).
Proof.
  unfold newton_step. destruct ab as [al be]. set (f := cell_fun rz0 a b c (al, be)).
  match goal with |- (if Qeq_bool ?d 0 then _ else _) = _ -> _ => destruct (Qeq_bool d 0) eqn:E; [discriminate|]; apply Qeq_bool_neq in E end.
  cbv zeta. set (n1 := (_ - _) / _). set (n2 := (_ - _) / _). intros H.
  assert (E' : ab' = (Qred (al - n1), Qred (be - n2))) by congruence. clear H. rewrite E'. clear E'. cbn [fst snd].
  split; rewrite (Qred_correct (al - n1)), (Qred_correct (be - n2)); unfold n1, n2; field; exact E.
Qed.
Lemma newton_singular rz0 a b c al be : newton_step rz0 a b c (al, be) = None <->
  (fst a + be * fst c) * (snd b + al * snd c) - (fst b + al * fst c) * (snd a + be * snd c) == 0.
Proof.
  unfold newton_step. match goal with |- (if Qeq_bool ?d 0 then _ else _) = _ <-> ?e == 0 => assert (K : d == e) by ring; destruct (Qeq_bool d 0) eqn:E end.
  - apply Qeq_bool_iff in E. rewrite K in E. split; auto.
  - apply Qeq_bool_neq in E. rewrite K in E. split; [discriminate|contradiction].
Qed.
Lemma newton_runs n tol rz0 a b c fb (u : nat -> pt) m : (m <= n)%nat ->
  (forall k, (k < m)%nat -> newton_step rz0 a b c (u k) = Some (u (S k))) ->
  (forall k, (k < m)%nat -> let f := cell_fun rz0 a b c (u (S k)) in tol <= fst f * fst f + snd f * snd f) ->
  cell_newton n tol rz0 a b c (u O) fb = cell_newton (n - m) tol rz0 a b c (u m) fb.
Proof.
  revert n u. induction m as [|m IH]; intros n u Hm Hs Ht; [now rewrite Nat.sub_0_r|].
  destruct n as [|n]; [lia|]. cbn [cell_newton]. rewrite (Hs 0%nat) by lia. cbv zeta.
  rewrite (proj2 (Qlt_bool_false_iff _ _)) by (apply (Ht 0%nat); lia).
  rewrite (IH n (fun k => u (S k))); [reflexivity|lia| |]; intros k Hk; [apply Hs|apply Ht]; lia.
Qed.
Lemma iterations least_squares rz grid nz ij (u : nat -> pt) m : (m <= 100)%nat ->
  let '(A, a, b, c) := corners grid nz ij in
  let step := newton_step (psub2 rz A) a b c in
  u 0%nat = (1#2, 1#2) -> (forall k, (k < m)%nat -> step (u k) = Some (u (S k))) ->
  (forall k, (k < m)%nat -> (1 # 10000000000000) <= miss2 rz grid nz ij (u (S k))) ->
  (m = 100%nat -> rz_to_ab_cell least_squares rz grid nz ij = Ok (least_squares a b c (psub2 rz A))) /\
  ((m < 100)%nat -> step (u m) = None -> rz_to_ab_cell least_squares rz grid nz ij = Err OtherError) /\
  (forall ab, (m < 100)%nat -> step (u m) = Some ab -> miss2 rz grid nz ij ab < 1 # 10000000000000 -> rz_to_ab_cell least_squares rz grid nz ij = Ok ab).
Proof.
  intros Hm. unfold rz_to_ab_cell. pose proof (fun ab => ab_fun grid nz ij rz ab) as K. unfold miss2.
  destruct (corners grid nz ij) as [[[A a] b] c]. cbv zeta. intros H0 Hs Ht.
  assert (M : forall ab, (let r := ab_to_rz ab grid nz ij in (fst rz - fst r) * (fst rz - fst r) + (snd rz - snd r) * (snd rz - snd r)) ==
     (let f := cell_fun (psub2 rz A) a b c ab in fst f * fst f + snd f * snd f)).
  { intros ab. cbv zeta. destruct (K ab) as [K1 K2]. cbv zeta in K1, K2. rewrite K1, K2. ring. }
  cbv zeta in M.
  rewrite <- H0, (newton_runs 100 _ _ _ _ _ _ u m Hm Hs) by (intros k Hk; cbv zeta; rewrite <- M; now apply Ht).
  split; [|split].
  - intros ->. reflexivity.
  - intros L E. destruct (100 - m)%nat as [|n] eqn:En; [lia|]. cbn [cell_newton]. rewrite E. reflexivity.
  - intros ab L E Hab. destruct (100 - m)%nat as [|n] eqn:En; [lia|]. cbn [cell_newton]. rewrite E. cbv zeta.
    rewrite (proj2 (Qlt_bool_iff _ _)) by (rewrite <- M; exact Hab). reflexivity.
Qed.
