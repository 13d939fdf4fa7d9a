(** A twisted grid on which the perpendicular operator is not symmetric and a minimum sinks, and one on which a peak grows. *)
From Coq Require Import List ZArith QArith Qround Bool Lia Lqa.
From Verif Require Import Prelude PreludeFacts PolModel DagpModel DagpSpec DagpProofs DagpLinear DagpThms DagpVolume DagpRect DagpDoit DagpWitness PerpSpec.
Import ListNotations.
Open Scope Q_scope.

(** ** the square root does not matter *)
Definition in_range (n ny nz i j k : Z) : Prop := (0 <= i < n)%Z /\ (0 <= j < ny)%Z /\ (0 <= k < nz)%Z.
Lemma solve2_same dx dz b b' c : same_point b b' -> solve2 dx dz b = Some c -> exists c', solve2 dx dz b' = Some c' /\ same_point c c'.
Proof.
  intros [E1 E2]. unfold solve2. destruct (Qeq_bool _ 0); [discriminate|]. intros H. injection H as <-. eexists. split; [reflexivity|].
  split; cbn [fst snd]; rewrite E1, E2; reflexivity.
Qed.
Lemma solve_same n ny nz dx dz b b' c : (forall i j k, in_range n ny nz i j k -> same_point (b i j k) (b' i j k)) -> solve n ny nz dx dz b = Ok c ->
  exists c', solve n ny nz dx dz b' = Ok c' /\ forall i j k, in_range n ny nz i j k -> same_point (c i j k) (c' i j k).
Proof.
  intros H. unfold solve. destruct (forallb _ _) eqn:F in |- *; [|discriminate]. intros E. injection E as <-.
  assert (S : forall i j k, in_range n ny nz i j k -> exists c c', solve2 (dx i j k) (dz i j k) (b i j k) = Some c /\ solve2 (dx i j k) (dz i j k) (b' i j k) = Some c' /\ same_point c c').
  { intros i j k R. rewrite forallb_forall in F. assert (X := F (i, j, k) (proj2 (in_indices n ny nz i j k) R)). cbv beta iota in X.
    destruct (solve2 (dx i j k) (dz i j k) (b i j k)) as [c|] eqn:E; [|discriminate]. destruct (solve2_same _ _ _ _ _ (H i j k R) E) as (c' & E' & Sm). exists c, c'. tauto. }
  destruct (forallb (fun ijk => match ijk with (i, j, k) => match solve2 (dx i j k) (dz i j k) (b' i j k) with Some _ => true | None => false end end) (indices n ny nz)) eqn:F'.
  - eexists. split; [reflexivity|]. intros i j k R. cbv beta. destruct (S i j k R) as (c & c' & E & E' & Sm). now rewrite E, E'.
  - exfalso. apply Bool.not_true_iff_false in F'. apply F'. apply forallb_forall. intros [[i j] k] I. apply in_indices in I. destruct (S i j k I) as (c & c' & _ & E' & _). now rewrite E'.
Qed.
Lemma coefficients_same sqrt sqrt' s p cX cZ : root_like sqrt -> root_like sqrt' -> structured p -> (4 <= p_nx p)%Z ->
  coefficients sqrt s None (p_nx p) 1 (p_nz p) (pol_of [p]) = Ok (cX, cZ) ->
  exists cX' cZ', coefficients sqrt' s None (p_nx p) 1 (p_nz p) (pol_of [p]) = Ok (cX', cZ') /\
    (forall i k, (0 <= i < p_nx p - 1)%Z -> (0 <= k < p_nz p)%Z -> same_point (cX i 0%Z k) (cX' i 0%Z k)) /\
    (forall i k, (0 <= i < p_nx p - 2)%Z -> (0 <= k < p_nz p)%Z -> same_point (cZ i 0%Z k) (cZ' i 0%Z k)).
Proof.
  intros R R' (_ & E & _ & Fp) Hx H. destruct (coefficients_spec _ _ _ _ _ _ _ _ _ H) as [HX HZ].
  assert (P0 : forall j, (0 <= j < 1)%Z -> pol_of [p] j = p) by (intros j Hj; assert (j = 0%Z) as -> by lia; reflexivity).
  assert (NX : forall i j k, in_range (p_nx p - 1) 1 (p_nz p) i j k -> same_point (normal sqrt s rot_x (face_x (pol_of [p] j) i k)) (normal sqrt' s rot_x (face_x (pol_of [p] j) i k))).
  { intros i j k (Ri & Rj & Rk). rewrite (P0 j Rj). apply (same_trans _ _ _ (face_normal_x p E sqrt s i k R Fp Ri Rk)). apply same_sym. exact (face_normal_x p E sqrt' s i k R' Fp Ri Rk). }
  assert (NZ : forall i j k, in_range (p_nx p - 2) 1 (p_nz p) i j k -> same_point (normal sqrt s rot_z (face_z (pol_of [p] j) i k)) (normal sqrt' s rot_z (face_z (pol_of [p] j) i k))).
  { intros i j k (Ri & Rj & Rk). rewrite (P0 j Rj). apply (same_trans _ _ _ (face_normal_z p E sqrt s i k R Fp Ri Rk)). apply same_sym. exact (face_normal_z p E sqrt' s i k R' Fp Ri Rk). }
  destruct (solve_same _ _ _ _ _ _ (fun i j k => normal sqrt' s rot_x (face_x (pol_of [p] j) i k)) _ NX HX) as (cX' & EX & SX).
  destruct (solve_same _ _ _ _ _ _ (fun i j k => normal sqrt' s rot_z (face_z (pol_of [p] j) i k)) _ NZ HZ) as (cZ' & EZ & SZ).
  exists cX', cZ'. split; [|split].
  - unfold coefficients. cbv zeta. rewrite EX. cbn [bind]. rewrite EZ. reflexivity.
  - intros i k Hi Hk. apply SX. unfold in_range. lia.
  - intros i k Hi Hk. apply SZ. unfold in_range. lia.
Qed.
Lemma op_same nx nz cX cZ cX' cZ' f i k : (0 < nz)%Z ->
  (forall i k, (0 <= i < nx - 1)%Z -> (0 <= k < nz)%Z -> same_point (cX i 0%Z k) (cX' i 0%Z k)) ->
  (forall i k, (0 <= i < nx - 2)%Z -> (0 <= k < nz)%Z -> same_point (cZ i 0%Z k) (cZ' i 0%Z k)) ->
  (1 <= i < nx - 1)%Z -> (0 <= k < nz)%Z -> apply_op nx nz cX cZ f i 0 k == apply_op nx nz cX' cZ' f i 0 k.
Proof.
  intros Hz SX SZ Hi Hk. rewrite !apply_op_cell by exact Hi. unfold flux_through_x, flux_through_z. cbv zeta.
  destruct (SX i k ltac:(lia) Hk) as [A1 A2]. destruct (SX (i - 1)%Z k ltac:(lia) Hk) as [B1 B2]. destruct (SZ (i - 1)%Z k ltac:(lia) Hk) as [C1 C2].
  destruct (SZ (i - 1)%Z ((k - 1) mod nz)%Z ltac:(lia) (Z.mod_pos_bound _ _ Hz)) as [D1 D2]. rewrite A1, A2, B1, B2, C1, C2, D1, D2. reflexivity.
Qed.
Lemma doit_same sqrt junk junk0 s p : root_like sqrt -> structured p -> (0 < p_nz p)%Z -> is_ok (doit root0 junk0 [p] s) = true ->
  exists vol0 vol cX cZ cX' cZ', doit root0 junk0 [p] s = Ok (vol0, cX', cZ') /\ doit sqrt junk [p] s = Ok (vol, cX, cZ) /\
  forall f i k, (1 <= i < p_nx p - 1)%Z -> (0 <= k < p_nz p)%Z -> apply_op (p_nx p) (p_nz p) cX cZ f i 0 k == apply_op (p_nx p) (p_nz p) cX' cZ' f i 0 k.
Proof.
  intros R St Hz H. assert (L0 : p_Lz p = None) by apply St.
  assert (EL : common_Lz [p] = Ok None) by (unfold common_Lz; cbn [map]; unfold is_rect; rewrite L0; reflexivity).
  destruct (doit root0 junk0 [p] s) as [[[vol0 cX'] cZ']|] eqn:E; [|discriminate]. clear H.
  destruct (doit_inv _ _ _ _ _ _ _ E) as (Lz & nx & nz & EL' & _ & Hx & Hsz & Hc & Hv). rewrite EL in EL'. injection EL' as <-.
  destruct (Hsz p (or_introl eq_refl)) as [<- <-]. change (Z.of_nat (List.length [p])) with 1%Z in Hc.
  destruct (coefficients_same _ sqrt _ _ _ _ root0_like R St Hx Hc) as (cX & cZ & Ec & SX & SZ).
  exists vol0. eexists. exists cX, cZ, cX', cZ'. split; [reflexivity|]. split.
  - unfold doit in E |- *. rewrite EL in E |- *. cbn [bind] in E |- *. change (pol_of [p] 0) with p in *. cbn [forallb] in E |- *. rewrite !Z.eqb_refl in *. cbn [andb negb] in E |- *.
    destruct (p_nx p <? 2)%Z; [discriminate|]. destruct (negb _); [discriminate|]. change (Z.of_nat (List.length [p])) with 1%Z in *.
    rewrite Hc in E. rewrite Ec. cbn [bind fst snd] in E |- *. injection E as <-. reflexivity.
  - intros f i k Hi Hk. apply op_same; try assumption; intros; apply same_sym; auto.
Qed.

(** ** a wave of parabolas with period 8 *)
Definition mod8 (z : Q) : Q := z - 8 * inject_Z (Qfloor (z / 8)).
Definition arc (z : Q) : Q := let u := mod8 z in if Qle_bool u 4 then u * (4 - u) / 4 else - ((u - 4) * (8 - u) / 4).
Definition spiral_coord (x z : Q) : Q * Q := let w := z + x / 4 in (Qred (10 + (x + 2) * arc (w + 2)), Qred ((x + 2) * arc w)).
Definition spiral : pol :=
  {| p_nx := 4; p_nz := 8; p_coord := spiral_coord;
     p_R := fun i k => fst (spiral_coord (inject_Z i) (inject_Z k));
     p_Z := fun i k => snd (spiral_coord (inject_Z i) (inject_Z k));
     p_Lz := None |}.
Definition peak (a b : Z) : Z -> Z -> Z -> Q := fun i _ k => if ((a =? i) && (b =? k))%Z then 1 else 0.
Definition entry (p : pol) (a b c d : Z) : Q := match doit root0 (fun _ _ _ => 0) [p] true with Ok (_, x, z) => apply_op (p_nx p) (p_nz p) x z (peak a b) c 0%Z d | Err _ => 0 end.
Lemma mod8_ext z z' : z == z' -> mod8 z == mod8 z'.
Proof. intros E. unfold mod8. assert (F : Qfloor (z / 8) = Qfloor (z' / 8)) by (apply Qfloor_comp; rewrite E; reflexivity). rewrite F, E. reflexivity. Qed.
Lemma mod8_period z : mod8 (z + 8) == mod8 z.
Proof.
  unfold mod8. assert (F : Qfloor ((z + 8) / 8) = (Qfloor (z / 8) + 1)%Z).
  { rewrite <- Qfloor_plus_Z. apply Qfloor_comp. change (inject_Z 1) with 1. field. }
  rewrite F, inject_Z_plus. change (inject_Z 1) with 1. ring.
Qed.
Lemma arc_mod z z' : mod8 z == mod8 z' -> arc z == arc z'.
Proof.
  intros E. unfold arc. cbv zeta. set (u := mod8 z) in *. set (v := mod8 z') in *. destruct (Qle_bool u 4) eqn:A, (Qle_bool v 4) eqn:B; rewrite ?Qle_bool_iff, ?Qle_bool_false_iff in *; try (rewrite E; reflexivity); exfalso; lra.
Qed.
Lemma spiral_ext : extensional (p_coord spiral).
Proof.
  intros x x' z z' Hx Hz. cbn [p_coord spiral]. unfold spiral_coord. cbv zeta. split; cbn [fst snd]; rewrite !Qred_correct.
  - rewrite (arc_mod (z + x / 4 + 2) (z' + x' / 4 + 2)) by (apply mod8_ext; rewrite Hx, Hz; reflexivity). rewrite Hx. reflexivity.
  - rewrite (arc_mod (z + x / 4) (z' + x' / 4)) by (apply mod8_ext; rewrite Hx, Hz; reflexivity). rewrite Hx. reflexivity.
Qed.
Lemma spiral_closes : closes spiral.
Proof.
  intros x z. cbn [p_coord spiral p_nz]. unfold spiral_coord. change (inject_Z 8) with 8. cbv zeta. split; cbn [fst snd]; rewrite !Qred_correct.
  - rewrite (arc_mod (z + 8 + x / 4 + 2) (z + x / 4 + 2)); [reflexivity|]. transitivity (mod8 (z + x / 4 + 2 + 8)); [apply mod8_ext; ring | apply mod8_period].
  - rewrite (arc_mod (z + 8 + x / 4) (z + x / 4)); [reflexivity|]. transitivity (mod8 (z + x / 4 + 8)); [apply mod8_ext; ring | apply mod8_period].
Qed.
Definition apart (a b : Q * Q) : bool := negb (Qeq_bool (fst a) (fst b)) || negb (Qeq_bool (snd a) (snd b)).
Lemma apart_ok a b : apart a b = true -> ~ same_point a b.
Proof. intros H [E1 E2]. unfold apart in H. apply Qeq_bool_iff in E1. apply Qeq_bool_iff in E2. rewrite E1, E2 in H. discriminate. Qed.
Definition faces_check (p : pol) : bool := forallb (fun ikm => let '(i, (k, m)) := ikm in
    apart (p_coord p (inject_Z i + (1#2)) (inject_Z k - (1#2) + eleventh m)) (p_coord p (inject_Z i + (1#2)) (inject_Z k - (1#2) + eleventh (S m)))
    && apart (p_coord p (inject_Z i + (1#2) + eleventh m) (inject_Z k + (1#2))) (p_coord p (inject_Z i + (1#2) + eleventh (S m)) (inject_Z k + (1#2))))
  (list_prod (zrange 0 (p_nx p - 1)) (list_prod (zrange 0 (p_nz p)) (seq 0 11))).
Lemma faces_ok p : faces_check p = true -> faces_proper p.
Proof.
  intros H i k m Hi Hk Hm. unfold faces_check in H. rewrite forallb_forall in H. specialize (H (i, (k, m))).
  assert (X : In (i, (k, m)) (list_prod (zrange 0 (p_nx p - 1)) (list_prod (zrange 0 (p_nz p)) (seq 0 11)))).
  { apply in_prod; [now apply in_zrange|]. apply in_prod; [now apply in_zrange|]. apply in_seq. lia. }
  specialize (H X). cbv beta iota in H. apply andb_true_iff in H. destruct H as [A B]. split; [now apply apart_ok|]. intros _. now apply apart_ok.
Qed.
Lemma spiral_structured : structured spiral.
Proof. split; [reflexivity|]. split; [exact spiral_ext|]. split; [exact spiral_closes|]. apply faces_ok. vm_compute. reflexivity. Qed.
Definition weak_check (p : pol) (i k : Z) (c : Q * Q) : bool :=
  forallb (fun m => Qlt_bool (turn c (boundary_point p i k m) (boundary_point p i k ((m + 1) mod 44))) 0) (seq 0 44).
Lemma weak_ok p i k c : weak_check p i k c = true -> right_handed p i k.
Proof.
  unfold weak_check. intros H. rewrite forallb_forall in H. exists c.
  assert (T : forall m, (m < 44)%nat -> turn c (boundary_point p i k m) (boundary_point p i k ((m + 1) mod 44)) < 0) by (intros m Hm; apply Qlt_bool_iff, H, in_seq; lia).
  split; [intros m Hm; apply Qlt_le_weak, T, Hm|]. exists 0%nat. split; [lia|]. apply T. lia.
Qed.
Lemma spiral_right i k : (1 <= i < 3)%Z -> (0 <= k < 8)%Z -> right_handed spiral i k.
Proof.
  intros Hi Hk. apply (weak_ok _ _ _ (p_coord spiral (inject_Z i) (inject_Z k))).
  assert (H : forallb (fun ik => weak_check spiral (fst ik) (snd ik) (p_coord spiral (inject_Z (fst ik)) (inject_Z (snd ik)))) (list_prod (zrange 1 3) (zrange 0 8)) = true) by (vm_compute; reflexivity).
  rewrite forallb_forall in H. apply (H (i, k)). apply in_prod; now apply in_zrange.
Qed.
Lemma spiral_doit : is_ok (doit root0 (fun _ _ _ => 0) [spiral] true) = true.
Proof. vm_compute. reflexivity. Qed.
Lemma spiral_sinks : entry spiral 1 0 2 1 < 0.
Proof. apply Qlt_bool_iff. lazy. reflexivity. Qed.

(** ** nested diamonds, twisted *)
Definition swirl_coord (x z : Q) : Q * Q := let w := z + x / 2 in (Qred (10 + (x + 2) * tri w), Qred ((x + 2) * tri (w - 1))).
Definition swirl : pol :=
  {| p_nx := 4; p_nz := 4; p_coord := swirl_coord;
     p_R := fun i k => fst (swirl_coord (inject_Z i) (inject_Z k));
     p_Z := fun i k => snd (swirl_coord (inject_Z i) (inject_Z k));
     p_Lz := None |}.
Lemma swirl_ext : extensional (p_coord swirl).
Proof.
  intros x x' z z' Hx Hz. cbn [p_coord swirl]. unfold swirl_coord. cbv zeta. split; cbn [fst snd]; rewrite !Qred_correct.
  - rewrite (tri_ext (z + x / 2) (z' + x' / 2)) by (rewrite Hx, Hz; reflexivity). rewrite Hx. reflexivity.
  - rewrite (tri_ext (z + x / 2 - 1) (z' + x' / 2 - 1)) by (rewrite Hx, Hz; reflexivity). rewrite Hx. reflexivity.
Qed.
Lemma swirl_closes : closes swirl.
Proof.
  intros x z. cbn [p_coord swirl p_nz]. unfold swirl_coord. change (inject_Z 4) with 4. cbv zeta. split; cbn [fst snd]; rewrite !Qred_correct.
  - rewrite (tri_ext (z + 4 + x / 2) (z + x / 2 + 4)) by ring. now rewrite tri_period.
  - rewrite (tri_ext (z + 4 + x / 2 - 1) (z + x / 2 - 1 + 4)) by ring. now rewrite tri_period.
Qed.
Lemma swirl_structured : structured swirl.
Proof. split; [reflexivity|]. split; [exact swirl_ext|]. split; [exact swirl_closes|]. apply faces_ok. vm_compute. reflexivity. Qed.
Lemma swirl_doit : is_ok (doit root0 (fun _ _ _ => 0) [swirl] true) = true.
Proof. vm_compute. reflexivity. Qed.
Lemma swirl_volumes i k : (1 <= i < 3)%Z -> (0 <= k < 4)%Z -> 0 < cell_volume true swirl i k.
Proof.
  intros Hi Hk.
  assert (H : forallb (fun ik => Qlt_bool 0 (cell_volume true swirl (fst ik) (snd ik))) (list_prod (zrange 1 3) (zrange 0 4)) = true) by (vm_compute; reflexivity).
  rewrite forallb_forall in H. apply Qlt_bool_iff. apply (H (i, k)). apply in_prod; now apply in_zrange.
Qed.
Lemma swirl_grows : 0 < entry swirl 2 0 2 0.
Proof. apply Qlt_bool_iff. lazy. reflexivity. Qed.
Lemma swirl_forth : entry swirl 2 0 2 1 < 0.
Proof. apply Qlt_bool_iff. lazy. reflexivity. Qed.
Lemma swirl_back : 0 < entry swirl 2 1 2 0.
Proof. apply Qlt_bool_iff. lazy. reflexivity. Qed.

(** ** for every square root *)
Lemma entry_any sqrt junk p : root_like sqrt -> structured p -> (0 < p_nz p)%Z -> is_ok (doit root0 (fun _ _ _ => 0) [p] true) = true ->
  exists vol cX cZ, doit sqrt junk [p] true = Ok (vol, cX, cZ) /\
  forall a b c d, (1 <= c < p_nx p - 1)%Z -> (0 <= d < p_nz p)%Z -> apply_op (p_nx p) (p_nz p) cX cZ (peak a b) c 0 d == entry p a b c d.
Proof.
  intros R St Hz H. destruct (doit_same sqrt junk (fun _ _ _ => 0) true p R St Hz H) as (vol0 & vol & cX & cZ & cX' & cZ' & E0 & E & Same).
  exists vol, cX, cZ. split; [exact E|]. intros a b c d Hc Hd. unfold entry. rewrite E0. now apply Same.
Qed.
Lemma sinks sqrt junk : root_like sqrt -> exists vol cX cZ, doit sqrt junk [spiral] true = Ok (vol, cX, cZ) /\
  (forall i j k, 0 <= peak 1 0 i j k) /\ peak 1 0 2%Z 0%Z 1%Z == 0 /\ apply_op 4 8 cX cZ (peak 1 0) 2 0 1 < 0.
Proof.
  intros R. destruct (entry_any sqrt junk spiral R spiral_structured eq_refl spiral_doit) as (vol & cX & cZ & E & H). exists vol, cX, cZ. split; [exact E|]. split; [|split].
  - intros i j k. unfold peak. destruct (_ && _); lra.
  - reflexivity.
  - change 4%Z with (p_nx spiral). change 8%Z with (p_nz spiral). rewrite H by (cbn; lia). exact spiral_sinks.
Qed.
Lemma plane44 u : over_plane 4 4 u == u 1%Z 0%Z + u 1%Z 1%Z + u 1%Z 2%Z + u 1%Z 3%Z + u 2%Z 0%Z + u 2%Z 1%Z + u 2%Z 2%Z + u 2%Z 3%Z.
Proof. cbv [over_plane sum_over zrange map qsum fold_right Z.sub Z.add Z.opp Z.pos_sub Pos.pred_double Z.to_nat Pos.to_nat Pos.iter_op seq Z.of_nat Pos.of_succ_nat Pos.succ Pos.add Nat.add]. ring. Qed.
Lemma plane_peak a b u : (a = 1 \/ a = 2)%Z -> (b = 0 \/ b = 1)%Z -> over_plane 4 4 (fun i k => peak a b i 0%Z k * u i k) == u a b.
Proof. intros [-> | ->] [-> | ->]; rewrite plane44; cbn; ring. Qed.
Lemma peak_edges a b : (a = 1 \/ a = 2)%Z -> zero_edges 4 4 0 (peak a b).
Proof. intros [-> | ->] k Hk; split; reflexivity. Qed.
Lemma swirls sqrt junk : root_like sqrt -> exists vol cX cZ, doit sqrt junk [swirl] true = Ok (vol, cX, cZ) /\
  0 < over_plane 4 4 (fun i k => peak 2 0 i 0%Z k * apply_op 4 4 cX cZ (peak 2 0) i 0 k) /\
  over_plane 4 4 (fun i k => peak 2 1 i 0%Z k * apply_op 4 4 cX cZ (peak 2 0) i 0 k) < 0 /\
  0 < over_plane 4 4 (fun i k => peak 2 0 i 0%Z k * apply_op 4 4 cX cZ (peak 2 1) i 0 k).
Proof.
  intros R. destruct (entry_any sqrt junk swirl R swirl_structured eq_refl swirl_doit) as (vol & cX & cZ & E & H). exists vol, cX, cZ. split; [exact E|].
  assert (H' : forall a b c d, (1 <= c < 3)%Z -> (0 <= d < 4)%Z -> apply_op 4 4 cX cZ (peak a b) c 0 d == entry swirl a b c d) by (intros; apply H; assumption).
  rewrite !plane_peak by tauto. rewrite !H' by lia. split; [exact swirl_grows|]. split; [exact swirl_forth | exact swirl_back].
Qed.
