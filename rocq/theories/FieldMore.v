(** More proofs about FieldModel.v: the damping factor, the radial average, the W7X services. *)
From Coq Require Import String List ZArith QArith Qabs Qminmax Bool Lia Lqa Qfield.
From Verif Require Import Prelude PreludeFacts SmoothModel SmoothProofs DiffModel DiffSpec DiffProofs FieldModel FieldSpec FieldProofs.
Import ListNotations.
Open Scope Q_scope.

Lemma smooth_range b x z : nested b -> 0 <= smooth_field_line b x z <= 1.
Proof.
  intros H. rewrite smooth_blend by exact H. unfold blend.
  match goal with |- 0 <= Qmax 0 (Qmin 1 ?m) <= 1 => generalize m end. intros m.
  split; [apply Q.le_max_l|]. apply Q.max_lub; [lra|apply Q.le_min_l].
Qed.

Lemma smooth_one b x z : nested b -> (smooth_field_line b x z == 1 <-> inside_inner b x z).
Proof.
  intros H. rewrite smooth_blend by exact H. unfold blend, inside_inner.
  destruct H as [H1 [H2 [H3 [H4 [H5 H6]]]]].
  destruct (ramp_low (xl_inner b) (xl_outer b) x H1) as [_ [L1 _]].
  destruct (ramp_high (xr_inner b) (xr_outer b) x H3) as [_ [R1 _]].
  destruct (ramp_low (zb_inner b) (zb_outer b) z H4) as [_ [B1 _]].
  destruct (ramp_high (zt_inner b) (zt_outer b) z H6) as [_ [T1 _]].
  remember (ramp (xl_inner b) (xl_outer b) x) as rl. remember (ramp (xr_inner b) (xr_outer b) x) as rr.
  remember (ramp (zb_inner b) (zb_outer b) z) as rb. remember (ramp (zt_inner b) (zt_outer b) z) as rt.
  rewrite <- L1, <- R1, <- B1, <- T1. split.
  - intros E.
    assert (M : 1 <= Qmin (Qmin rl rr) (Qmin rb rt)).
    { apply Qnot_lt_le. intros F. remember (Qmin (Qmin rl rr) (Qmin rb rt)) as m.
      assert (Qmax 0 (Qmin 1 m) < 1); [|lra]. apply Q.max_lub_lt; [lra|]. eapply Qle_lt_trans; [apply Q.le_min_r|exact F]. }
    apply Q.min_glb_iff in M as [M1 M2]. apply Q.min_glb_iff in M1 as [? ?]. apply Q.min_glb_iff in M2 as [? ?].
    repeat split; assumption.
  - intros [[? ?] [? ?]].
    assert (M : 1 <= Qmin (Qmin rl rr) (Qmin rb rt)) by (repeat apply Q.min_glb; assumption).
    rewrite Q.min_l by exact M. apply Q.max_r. lra.
Qed.

Lemma smooth_zero b x z : nested b -> (smooth_field_line b x z == 0 <-> outside_outer b x z).
Proof.
  intros H. rewrite smooth_blend by exact H. unfold blend, outside_outer.
  destruct H as [H1 [H2 [H3 [H4 [H5 H6]]]]].
  destruct (ramp_low (xl_inner b) (xl_outer b) x H1) as [L1 _].
  destruct (ramp_high (xr_inner b) (xr_outer b) x H3) as [R1 _].
  destruct (ramp_low (zb_inner b) (zb_outer b) z H4) as [B1 _].
  destruct (ramp_high (zt_inner b) (zt_outer b) z H6) as [T1 _].
  remember (ramp (xl_inner b) (xl_outer b) x) as rl. remember (ramp (xr_inner b) (xr_outer b) x) as rr.
  remember (ramp (zb_inner b) (zb_outer b) z) as rb. remember (ramp (zt_inner b) (zt_outer b) z) as rt.
  rewrite <- L1, <- R1, <- B1, <- T1. split.
  - intros E.
    assert (M : Qmin 1 (Qmin (Qmin rl rr) (Qmin rb rt)) <= 0) by (assert (T := Q.le_max_r 0 (Qmin 1 (Qmin (Qmin rl rr) (Qmin rb rt)))); lra).
    apply Q.min_le in M as [M|M]; [lra|].
    apply Q.min_le in M as [M|M]; apply Q.min_le in M as [M|M]; tauto.
  - intros E. apply Q.max_l. eapply Qle_trans; [apply Q.le_min_r|].
    destruct E as [E|[E|[E|E]]].
    + eapply Qle_trans; [apply Q.le_min_l|]. eapply Qle_trans; [apply Q.le_min_l|exact E].
    + eapply Qle_trans; [apply Q.le_min_l|]. eapply Qle_trans; [apply Q.le_min_r|exact E].
    + eapply Qle_trans; [apply Q.le_min_r|]. eapply Qle_trans; [apply Q.le_min_l|exact E].
    + eapply Qle_trans; [apply Q.le_min_r|]. eapply Qle_trans; [apply Q.le_min_r|exact E].
Qed.

(** without jumps: in between it is the smallest ramp *)
Lemma smooth_between b x z : nested b -> ~ outside_outer b x z ->
  smooth_field_line b x z == Qmin 1 (Qmin (Qmin (ramp (xl_inner b) (xl_outer b) x) (ramp (xr_inner b) (xr_outer b) x))
                       (Qmin (ramp (zb_inner b) (zb_outer b) z) (ramp (zt_inner b) (zt_outer b) z))).
Proof.
  intros H N. assert (Z := smooth_zero b x z H). assert (P := smooth_range b x z H).
  rewrite smooth_blend in * by exact H. unfold blend in *.
  remember (Qmin 1 (Qmin (Qmin (ramp (xl_inner b) (xl_outer b) x) (ramp (xr_inner b) (xr_outer b) x)) (Qmin (ramp (zb_inner b) (zb_outer b) z) (ramp (zt_inner b) (zt_outer b) z)))) as m.
  destruct (Qlt_le_dec m 0) as [C|C]; [|now apply Q.max_r].
  exfalso. apply N, Z. apply Q.max_l. lra.
Qed.

(** * The radial average *)
Lemma rolling_spec f : (3 <= len f)%Z -> exists out, rolling_average f = Ok out /\ len out = len f /\
  forall i, (0 <= i < len f)%Z -> at_ out i ==
    if (i =? len f - 1)%Z then 2 * at_ f (len f - 2) - at_ f (len f - 3)
    else if (i =? 0)%Z then at_ f 1 - (1 # 2) * at_ f 2
    else if ((2 <=? i) && (i <? len f - 2))%Z%bool then (1 # 2) * (at_ f i + at_ f (i + 1)) else 0.
Proof.
  intros Hn. unfold rolling_average. set (n := len f) in *.
  assert (C2 : clip n 2 = 2%Z) by (unfold clip; zb). assert (C3 : clip n 3 = 3%Z) by (unfold clip; zb).
  assert (Cm1 : clip n (-1) = (n - 1)%Z) by (unfold clip; zb). assert (Cm2 : clip n (-2) = (n - 2)%Z) by (unfold clip; zb).
  rewrite (getz_at f 1), (getz_at f 2) by (fold n; lia). cbn [bind].
  assert (Le : len (repeat 0 (length f)) = n) by (unfold len, n, len; now rewrite repeat_length).
  destruct (setz_at (repeat 0 (length f)) 0 (at_ f 1 - (1 # 2) * at_ f 2)) as (o1 & E1 & L1 & N1); [lia|].
  rewrite E1. cbn [bind]. rewrite Le in *.
  assert (S1 : len (slice_of f (Some 2%Z) (Some (-2)%Z)) = Z.max 0 (n - 4)). { rewrite slice_len; fold n; cbn [lo_of hi_of]; rewrite ?C2, ?Cm2; lia. }
  assert (S2 : len (slice_of f (Some 3%Z) (Some (-1)%Z)) = Z.max 0 (n - 4)). { rewrite slice_len; fold n; cbn [lo_of hi_of]; rewrite ?C3, ?Cm1; lia. }
  destruct (zip_with_at Qplus (slice_of f (Some 2%Z) (Some (-2)%Z)) (slice_of f (Some 3%Z) (Some (-1)%Z))) as (d & Ed & Ld & Nd); [lia|].
  rewrite Ed. cbn [bind].
  set (h := fun v : Q => (1 # 2) * v). assert (Lh : len (map h d) = Z.max 0 (n - 4)) by (unfold len in *; rewrite map_length; lia).
  destruct (set_slice_at o1 (Some 2%Z) (Some (-2)%Z) (map h d)) as (o2 & E2 & L2 & N2);
    [rewrite L1; cbn [lo_of hi_of]; rewrite ?C2, ?Cm2; lia ..|]. rewrite E2. cbn [bind]. rewrite L1 in *. cbn [lo_of hi_of] in N2. rewrite C2, Cm2 in N2.
  rewrite (getz_neg f (-2)), (getz_neg f (-3)) by (fold n; lia). cbn [bind].
  destruct (setz_at o2 (-1) (2 * at_ f (-2 + len f) - at_ f (-3 + len f))) as (o3 & E3 & L3 & N3); [lia|].
  rewrite E3. exists o3. split; [reflexivity|]. split; [lia|].
  intros i Hi. rewrite N3 by lia. fold n. cbn [Z.ltb Z.compare]. rewrite L2.
  replace (-1 + n)%Z with (n - 1)%Z by lia. replace (-2 + n)%Z with (n - 2)%Z by lia. replace (-3 + n)%Z with (n - 3)%Z by lia.
  destruct (Z.eqb_spec i (n - 1)) as [->|N]; [reflexivity|].
  rewrite N2 by lia.
  destruct (Z.eqb_spec i 0) as [->|N0].
  - zb; rewrite N1 by lia; reflexivity.
  - destruct (Z.leb_spec 2 i) as [A|A]; cbn [andb].
    + destruct (Z.ltb_spec i (Z.max 2 (n - 2))) as [A'|A']; destruct (Z.ltb_spec i (n - 2)) as [A2|A2]; try lia.
      * assert (Em : at_ (map h d) (i - 2) = h (at_ d (i - 2))).
        { unfold at_. rewrite (nth_indep _ 0 (h 0)) by (rewrite map_length; unfold len in *; lia). apply map_nth. }
        rewrite Em. unfold h. rewrite Nd by lia.
        rewrite slice_at by (fold n; cbn [lo_of hi_of]; rewrite ?C2, ?Cm2; lia).
        rewrite slice_at by (fold n; cbn [lo_of hi_of]; rewrite ?C3, ?Cm1; lia).
        fold n. cbn [lo_of]. rewrite C2, C3. replace (2 + (i - 2))%Z with i by lia. replace (3 + (i - 2))%Z with (i + 1)%Z by lia. reflexivity.
      * rewrite N1 by lia. cbn [Z.ltb Z.compare]. destruct (Z.eqb_spec i 0); [lia|].
        unfold at_. rewrite nth_repeat. reflexivity.
    + rewrite N1 by lia. cbn [Z.ltb Z.compare]. destruct (Z.eqb_spec i 0); [lia|].
      unfold at_. rewrite nth_repeat. reflexivity.
Qed.
Lemma rolling_short f : (len f < 3)%Z -> rolling_average f = Err IndexError.
Proof.
  destruct f as [|a [|b [|c f]]]; intros H; try reflexivity. unfold len in H. cbn [length] in H. lia.
Qed.

Lemma half_mesh_at n g i : (0 <= i < Z.of_nat n)%Z -> at_ (half_mesh n g) i = g (inject_Z i - (1 # 2)).
Proof.
  intros H. unfold at_, half_mesh. rewrite (nth_indep _ 0 (g (inject_Z (Z.of_nat 0) - (1 # 2)))) by (rewrite map_length, seq_length; lia).
  rewrite (map_nth (fun i => g (inject_Z (Z.of_nat i) - (1 # 2)))), seq_nth by lia. cbn [Nat.add]. now rewrite Z2Nat.id by lia.
Qed.
Lemma half_mesh_len n g : len (half_mesh n g) = Z.of_nat n.
Proof. unfold len, half_mesh. now rewrite map_length, seq_length. Qed.

Lemma rolling_linear n a b : (3 <= n)%nat -> exists out, rolling_average (half_mesh n (fun s => a + b * s)) = Ok out /\ length out = n /\
  (forall i, (2 <= i)%nat -> (i + 2 < n)%nat -> nth i out 0 == a + b * inject_Z (Z.of_nat i)) /\
  nth 0 out 0 == (a + b * 0) / 2 - b * (1 # 4) /\
  nth 1 out 0 == 0 /\ ((3 < n)%nat -> nth (n - 2) out 0 == 0) /\
  nth (n - 1) out 0 == a + b * inject_Z (Z.of_nat (n - 1)) - b * (1 # 2).
Proof.
  intros Hn. assert (Ln := half_mesh_len n (fun s => a + b * s)).
  destruct (rolling_spec (half_mesh n (fun s => a + b * s))) as [out [E [L N]]]; [lia|].
  rewrite Ln in *. exists out. split; [exact E|]. split; [unfold len in L; lia|].
  assert (AT : forall i, nth i out 0 = at_ out (Z.of_nat i)) by (intros; unfold at_; now rewrite Nat2Z.id).
  split; [|split; [|split; [|split]]].
  - intros i H1 H2. rewrite AT, N by lia. zb. rewrite !half_mesh_at by lia. rewrite inject_Z_plus. ring.
  - rewrite AT, N by lia. zb. rewrite !half_mesh_at by lia. change (inject_Z 1) with 1. change (inject_Z 2) with 2. field.
  - rewrite AT, N by lia. zb; reflexivity.
  - intros H. rewrite AT, N by lia. zb; reflexivity.
  - rewrite AT, N by lia. zb. rewrite !half_mesh_at by lia.
    replace (Z.of_nat n - 2)%Z with (Z.of_nat (n - 1) + -1)%Z by lia. replace (Z.of_nat n - 3)%Z with (Z.of_nat (n - 1) + -2)%Z by lia.
    rewrite !inject_Z_plus. change (inject_Z (-1)) with (-1). change (inject_Z (-2)) with (-2). ring.
Qed.

(** * The W7X services *)
Lemma calc_chunk_eq {A} (call : nat -> res A) : calc_chunk call =
  match call 0%nat with
  | Ok a => Some (Ok a, 1%nat, [])
  | Err _ => Some (call 1%nat, 2%nat, [(6 # 10) - (4 # 10) * inject_Z 1])
  end.
Proof. unfold calc_chunk. cbn. destruct (call 0%nat); [reflexivity|]. destruct (call 1%nat); reflexivity. Qed.

Lemma set_config_ok c r : set_config c = Ok r ->
  match r with
  | ConfigId i => c = CInt i /\ (0 <= i)%Z
  | Coils ids currents => length ids = 70%nat /\ length currents = 70%nat /\ NoDup ids /\
      forall k j, (k < 70)%nat -> (j < 70)%nat -> (k / 10 = j / 10)%nat -> nth k currents 0%Z = nth j currents 0%Z
  end.
Proof.
  assert (ND : NoDup (firstn 70 all_coils)).
  { cbn. repeat constructor; cbn; intuition discriminate. }
  assert (G : forall l k j, length l = 7%nat -> (k < 70)%nat -> (j < 70)%nat -> (k / 10 = j / 10)%nat -> nth k (ten_times l) 0%Z = nth j (ten_times l) 0%Z).
  { assert (T : forall l k, (k < 10 * length l)%nat -> nth k (ten_times l) 0%Z = nth (k / 10) l 0%Z).
    { induction l as [|a l IH]; intros k H; [cbn in H; lia|].
      unfold ten_times in *. cbn [flat_map]. cbn [length] in H. destruct (Nat.lt_ge_cases k 10) as [C|C].
      - rewrite app_nth1 by (rewrite repeat_length; exact C). rewrite Nat.div_small by exact C. cbn [nth].
        rewrite (nth_indep _ 0%Z a) by (rewrite repeat_length; exact C). apply nth_repeat.
      - rewrite app_nth2 by (rewrite repeat_length; exact C). rewrite repeat_length, IH by lia.
        replace (k / 10)%nat with (S ((k - 10) / 10)); [reflexivity|].
        replace k with ((k - 10) + 1 * 10)%nat at 2 by lia. rewrite Nat.div_add by lia. lia. }
    intros l k j L Hk Hj E. rewrite !T by lia. now rewrite E. }
  assert (K : forall k r, length k = 7%nat -> (let* k := Ok k in
      let currents := map (fun p => fst p * snd p)%Z (combine windings k) in
      let currents := if (length currents =? 7)%nat then ten_times currents else currents in
      Ok (Coils (if (length currents =? 70)%nat then firstn 70 all_coils else all_coils) currents)) = Ok r ->
     exists ids currents, r = Coils ids currents /\ length ids = 70%nat /\ length currents = 70%nat /\ NoDup ids /\
      forall k j, (k < 70)%nat -> (j < 70)%nat -> (k / 10 = j / 10)%nat -> nth k currents 0%Z = nth j currents 0%Z).
  { intros k r0 Lk. cbn [bind]. cbv zeta.
    assert (L : length (map (fun p => fst p * snd p)%Z (combine windings k)) = 7%nat) by (rewrite map_length, combine_length, Lk; reflexivity).
    rewrite L. cbn [Nat.eqb].
    assert (L70 : length (ten_times (map (fun p => fst p * snd p)%Z (combine windings k))) = 70%nat).
    { destruct (map (fun p => fst p * snd p)%Z (combine windings k)) as [|a0 [|a1 [|a2 [|a3 [|a4 [|a5 [|a6 [|a7 l]]]]]]]]; try discriminate L. reflexivity. }
    rewrite L70. rewrite Nat.eqb_refl. intros [= <-]. eexists _, _. split; [reflexivity|].
    split; [reflexivity|]. split; [exact L70|]. split; [exact ND|]. intros. apply G; auto. }
  destruct c as [i|s]; unfold set_config.
  - destruct (Z.leb_spec 0 i) as [C|C].
    + intros [= <-]. split; [reflexivity|exact C].
    + unfold coil_config, known. destruct i as [|p|[p|p|]]; try discriminate.
      intros H. apply K in H as (ids & cur & -> & H); [exact H|reflexivity].
  - unfold coil_config, known. destruct (String.eqb s "FMM002"); [|discriminate].
    intros H. apply K in H as (ids & cur & -> & H); [exact H|reflexivity].
Qed.
Lemma set_config_ids c ids currents : set_config c = Ok (Coils ids currents) ->
  forall g k, (k < 10)%nat -> ((g < 5)%nat -> nth (10 * g + k) ids 0%Z = (160 + 5 * Z.of_nat k + Z.of_nat g)%Z) /\
    ((g < 2)%nat -> nth (50 + 10 * g + k) ids 0%Z = (210 + 2 * Z.of_nat k + Z.of_nat g)%Z).
Proof.
  intros H. assert (E : ids = firstn 70 all_coils).
  { destruct c as [i|s]; unfold set_config in H.
    - destruct (0 <=? i)%Z; [discriminate|]. unfold coil_config, known in H. destruct i as [|p|[p|p|]]; try discriminate. cbn in H. injection H as <- _. reflexivity.
    - unfold coil_config, known in H. destruct (String.eqb s "FMM002"); [|discriminate]. cbn in H. injection H as <- _. reflexivity. }
  subst ids. clear H. intros g k Hk.
  split; intros Hg; do 10 (destruct k as [|k]; [do 5 (destruct g as [|g]; [try reflexivity; lia|]); lia|]); lia.
Qed.
Lemma set_config_err c e : set_config c = Err e -> e = KeyError /\ match c with CInt i => (i < -1)%Z | CName s => s <> "FMM002"%string end.
Proof.
  destruct c as [i|s]; unfold set_config, coil_config, known.
  - destruct (Z.leb_spec 0 i) as [C|C]; [discriminate|].
    destruct i as [|p|[p|p|]]; cbn [bind]; intros [= <-]; (split; [reflexivity|lia]).
  - destruct (String.eqb_spec s "FMM002") as [C|C]; cbn [bind]; [discriminate|]. intros [= <-]. split; [reflexivity|exact C].
Qed.

(** * Forms used in FieldProps.v *)
Lemma direction_pair_ok f x z y : length x = length z -> x <> [] -> ~ small_By f x z y ->
  exists dx dz, field_direction_pair f [x; z] y = Ok [dx; dz] /\ length dx = length x /\ length dz = length x /\
  forall k, (k < length x)%nat ->
    along_B f (nth k x 0) (nth k z 0) y (nth k dx 0) (nth k dz 0) /\
    let '(bx, by_, bz) := B_at f (nth k x 0) (nth k z 0) y in
    nth k dx 0 == R_at f (nth k x 0) (nth k z 0) y * bx / by_ /\ nth k dz 0 == R_at f (nth k x 0) (nth k z 0) y * bz / by_.
Proof.
  intros L N S. destruct (direction_ok f x z y L N S) as (dx & dz & E & H). exists dx, dz. split; [|exact H].
  unfold field_direction_pair. cbn [length Nat.even negb]. rewrite E. reflexivity.
Qed.
Lemma direction_pair_small f x z y : length x = length z -> x = [] \/ small_By f x z y -> field_direction_pair f [x; z] y = Err ValueError.
Proof. intros L H. unfold field_direction_pair. cbn [length Nat.even negb]. now rewrite (direction_small f x z y L H). Qed.
Lemma flat_pair_ok f x z y : length x = length z ->
  match field_direction_pair f [x; z] y with
  | Ok [dx; dz] => field_direction_flat f (interleave x z) y = Ok (interleave dx dz)
  | Ok _ => False
  | Err e => field_direction_flat f (interleave x z) y = Err e
  end.
Proof.
  intros L. rewrite (flat_pair f x z y L). unfold field_direction_pair. cbn [length Nat.even negb].
  destruct (direction f x z y) as [[dx dz]|e]; reflexivity.
Qed.
Lemma direction_odd f pos y : Nat.even (length pos) = false -> field_direction_flat f pos y = Err AssertionError.
Proof. intros H. unfold field_direction_flat. now rewrite H. Qed.
Lemma slab_direction By Bz xc Bzp Rm x z y : 1 # 100000000 <= Qabs By ->
  (exists dx dz, field_direction_pair (slab By Bz xc Bzp) [[x]; [z]] y = Ok [[dx]; [dz]] /\ dx == 0 /\ dz == (Bz + (x - xc) * Bzp) / By) /\
  (exists dx dz, field_direction_pair (curved_slab By Bz xc Bzp Rm) [[x]; [z]] y = Ok [[dx]; [dz]] /\ dx == 0 /\ dz == Rm * (Bz + (x - xc) * Bzp) / By).
Proof.
  intros H. assert (N : ~ By == 0). { intros E. rewrite E in H. cbn in H. lra. }
  assert (C : Qlt_bool (Qabs By) (1 # 100000000) = false) by (apply Qlt_bool_false_iff; exact H).
  unfold field_direction_pair, direction, slab, curved_slab. cbn [length Nat.even negb Nat.eqb combine map fst snd Bxyzfunc Bxfunc Byfunc Bzfunc Rfunc amin bind].
  rewrite C. cbn [bind fst snd]. split; (eexists _, _; split; [reflexivity|]; split; field; exact N).
Qed.
Lemma geqdsk_everywhere w psi i : nth_error (objects w) i = Some None ->
  exists d, attributes (create w (Geqdsk psi)) i = Some d /\ dict_get d "psi" = Some (fun x z _ => psi x z).
Proof. intros H. eexists. split; [exact (proj2 (create_geqdsk w psi i H))|apply dict_get_set]. Qed.
Lemma shared_witness : ~ forall ks k i, (i < length ks)%nat -> attributes (created (ks ++ [k])) i = attributes (created ks) i.
Proof.
  intros H. specialize (H [Plain] (Geqdsk (fun x _ => x)) 0%nat ltac:(cbn; lia)). cbn in H. discriminate H.
Qed.
Lemma rolling_inner n a b : (3 <= n)%nat -> exists out, rolling_average (half_mesh n (fun s => a + b * s)) = Ok out /\ length out = n /\
  forall i, (2 <= i)%nat -> (i + 2 < n)%nat -> nth i out 0 == a + b * inject_Z (Z.of_nat i).
Proof. intros H. destruct (rolling_linear n a b H) as (out & E & L & N & _). exists out. auto. Qed.
Lemma rolling_ends n a b : (4 <= n)%nat -> exists out, rolling_average (half_mesh n (fun s => a + b * s)) = Ok out /\
  nth 0 out 0 == a / 2 - b / 4 /\ nth 1 out 0 == 0 /\ nth (n - 2) out 0 == 0 /\
  nth (n - 1) out 0 == a + b * inject_Z (Z.of_nat (n - 1)) - b / 2.
Proof.
  intros H. destruct (rolling_linear n a b ltac:(lia)) as (out & E & _ & _ & N0 & N1 & N2 & N3). exists out.
  split; [exact E|]. split; [rewrite N0; field|]. split; [exact N1|]. split; [apply N2; lia|]. rewrite N3. field.
Qed.
Lemma rolling_few f : (length f < 3)%nat -> rolling_average f = Err IndexError.
Proof. intros H. apply rolling_short. unfold len. lia. Qed.

Lemma windings k : (k < 70)%nat ->
  (exists ids currents, set_config (CName "FMM002") = Ok (Coils ids currents) /\ nth k currents 0%Z = if (k <? 50)%nat then (108 * 13423)%Z else (36 * -3544)%Z) /\
  (exists ids currents, set_config (CInt (-1)) = Ok (Coils ids currents) /\ nth k currents 0%Z = if (k <? 50)%nat then 108%Z else 36%Z).
Proof.
  intros H. split; (eexists _, _; split; [reflexivity|]); do 70 (destruct k as [|k]; [vm_compute; reflexivity|]); lia.
Qed.
