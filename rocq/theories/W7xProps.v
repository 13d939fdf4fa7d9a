(** Theorems about W7X_vacuum and W7X_VMEC of field.py (C101-C103). *)
From Coq Require Import String List ZArith QArith Qabs Lia Lqa Bool.
From Verif Require Import Prelude PreludeFacts NamingModel FieldModel PolModel W7xModel W7xSpec W7xNames W7xHist W7xInterp W7xWitness.
Import ListNotations.
Open Scope Q_scope.

(** ** C101: a saved field is the field that was asked for *)

(** For any history of calls in an empty directory whose ranges rounding to two decimals does not mix up, every
    answer is the one the service gives.  Missing: ranges closer than that, and files of the old kind. *)
Theorem C101_history_partial : forall service l,
  (forall q, In q l -> exists k, set_config (q_cfg q) = Ok k) ->
  (forall a b, In a l -> In b l -> told_apart a b) ->
  (forall q, In q l -> sizes_pos q) ->
  calls service no_files l = map (fun q => service (q_cfg q) (mesh_of q)) l.
Proof. exact fresh_history. Qed.
Print Assumptions C101_history_partial.
Example C101_history_applies : calls positions no_files apart = map (fun q => positions (q_cfg q) (mesh_of q)) apart.
Proof. destruct apart_ok as (A & B & C). exact (C101_history_partial positions apart A B C). Qed.

(** Ranges that agree to two decimals share one file: the second call gets the field of the first. *)
Theorem C101_close_ranges_refuted :
  (forall service st a b d, cfg_str (q_cfg a) = cfg_str (q_cfg b) -> q_n a = q_n b -> sizes_pos a -> Forall2 same_cents (bounds a) (bounds b) ->
     fst (field_values service st (q_cfg a) (mesh_of a)) = Ok d ->
     fst (field_values service (snd (field_values service st (q_cfg a) (mesh_of a))) (q_cfg b) (mesh_of b)) = Ok d) /\
  (exists service a b, q_cfg a = q_cfg b /\ exists got asked, nth 1 (calls service no_files [a; b]) (Err OtherError) = Ok got /\
     service (q_cfg b) (mesh_of b) = Ok asked /\ ~ Br_of (got 0%nat 0%nat 0%nat) == Br_of (asked 0%nat 0%nat 0%nat)).
Proof.
  split; [exact confused|]. exists positions, first, second. split; [reflexivity|].
  destruct near_refuted as (g & Eg & d & Ed & N). exists g, d. auto.
Qed.
Print Assumptions C101_close_ranges_refuted.

(** A file of the old kind answers for every configuration, and is then kept under that configuration's name. *)
Theorem C101_old_refuted : forall service st m o d, fname_old m = Ok o -> st o = Some d ->
  forall c, (forall n, fname c m = Ok n -> st n = None) ->
  exists n, fname c m = Ok n /\ fst (field_values service st c m) = Ok d /\ snd (field_values service st c m) n = Some d.
Proof.
  intros service st m o d Eo Es c Hn. destruct (old_file service st c m o d Eo Es Hn) as (n & En & E). exists n. rewrite E. cbn [fst snd].
  split; [exact En|]. split; [reflexivity|]. unfold save. now rewrite String.eqb_refl.
Qed.
Print Assumptions C101_old_refuted.
Example C101_old_applies : exists o, fname_old (mesh_of first) = Ok o /\
  forall d n c, fname c (mesh_of first) = Ok n -> save no_files o d n = None.
Proof.
  destruct (fname_old (mesh_of first)) as [o|] eqn:E; [|discriminate E]. exists o. split; [reflexivity|]. intros d n c En. unfold save.
  rewrite (proj2 (String.eqb_neq n o)); [reflexivity|]. exact (fname_not_old _ _ _ _ _ En E).
Qed.

(** One name is used for one configuration and one rounded box, and the three kinds of files never share a name. *)
Theorem C101_names :
  (forall a b k k' n, set_config (q_cfg a) = Ok k -> set_config (q_cfg b) = Ok k' -> fname (q_cfg a) (mesh_of a) = Ok n -> fname (q_cfg b) (mesh_of b) = Ok n ->
     q_cfg a = q_cfg b /\ q_n a = q_n b /\ Forall2 same_cents (bounds a) (bounds b)) /\
  (forall c m m' m'' n o p, fname c m = Ok n -> fname_old m' = Ok o -> fname_plasma m'' = Ok p -> n <> o /\ n <> p /\ o <> p).
Proof.
  split.
  - intros a b k k' n K K' E E'. destruct (fname_inj _ _ _ _ n (accepted_no_dot _ k K) (accepted_no_dot _ k' K') E E') as [A B].
    split; [exact (accepted_inj _ _ k k' K K' A)|]. destruct (same_label_bounds a b B) as (C & _ & D). auto.
  - intros c m m' m'' n o p En Eo Ep. split; [exact (fname_not_old _ _ _ _ _ En Eo)|].
    split; [exact (plasma_not_fname _ _ _ _ _ En Ep)|exact (plasma_not_old _ _ _ _ Eo Ep)].
Qed.
Print Assumptions C101_names.
Example C101_names_applies : fname (CName "FMM002") (mesh_of first) = Ok "B.w7x.FMM002.128.32.128.4.05-6.55.0.00-6.28.-1.35-1.35.nc"%string.
Proof. vm_compute. reflexivity. Qed.

(** A saved file is read back unchanged; a failing service leaves the directory as it is; an axis without points is an IndexError. *)
(** The numbers in the names: the sign, then the hundredths nearest to the modulus, ties to the even one. *)
Theorem C101_hundredths : forall q, exists n : N, fmt2 q = ((if Qlt_bool q 0 then "-" else "") ++ dec (n / 100) ++ "." ++ (if (n mod 100 <? 10)%N then "0" else "") ++ dec (n mod 100))%string /\
  Qabs (inject_Z (Z.of_N n) - Qabs q * 100) <= 1#2 /\ (Qabs (inject_Z (Z.of_N n) - Qabs q * 100) == 1#2 -> N.even n = true).
Proof. exact fmt2_near. Qed.
Print Assumptions C101_hundredths.

Theorem C101_saved : forall service st c m n d, fname c m = Ok n -> st n = Some d -> field_values service st c m = (Ok d, st).
Proof. exact saved_file. Qed.
Print Assumptions C101_saved.
Theorem C101_failing : forall service st c m e, fst (field_values service st c m) = Err e -> snd (field_values service st c m) = st.
Proof. exact failing. Qed.
Print Assumptions C101_failing.
Theorem C101_no_points : forall service st q, ~ sizes_pos q -> field_values service st (q_cfg q) (mesh_of q) = (Err IndexError, st).
Proof. exact no_points. Qed.
Print Assumptions C101_no_points.
Example C101_no_points_applies : ~ sizes_pos {| q_cfg := CInt 0; q_n := (3, 0, 3)%nat; q_r := (4, 6); q_phi := (0, 6); q_z := (0, 1) |}.
Proof. unfold sizes_pos. cbn. lia. Qed.

(** ** C102: the field functions interpolate the samples *)

(** At the points of the mesh the functions return the samples, whole turns away too. *)
Theorem C102_nodes : forall twopi, 0 < twopi -> forall w, proper (w_mesh w) -> forall i j k phi,
  (i < length (ax_r (w_mesh w)))%nat -> (j < length (ax_phi (w_mesh w)))%nat -> (k < length (ax_z (w_mesh w)))%nat ->
  0 <= nth j (ax_phi (w_mesh w)) 0 -> nth j (ax_phi (w_mesh w)) 0 < twopi -> (exists n, phi == nth j (ax_phi (w_mesh w)) 0 + inject_Z n * twopi) ->
  w_Bx twopi w (nth i (ax_r (w_mesh w)) 0) (nth k (ax_z (w_mesh w)) 0) phi == Br_of (w_B w i j k)
  /\ w_By twopi w (nth i (ax_r (w_mesh w)) 0) (nth k (ax_z (w_mesh w)) 0) phi == Bphi_of (w_B w i j k)
  /\ w_Bz twopi w (nth i (ax_r (w_mesh w)) 0) (nth k (ax_z (w_mesh w)) 0) phi == Bz_of (w_B w i j k).
Proof. exact functions_node. Qed.
Print Assumptions C102_nodes.

(** Samples of a field that is affine in each coordinate are reproduced everywhere in the box. *)
Theorem C102_affine : forall twopi, 0 < twopi -> forall w, proper (w_mesh w) -> forall fr fp fz x z phi,
  0 <= phi -> phi < twopi -> within_box (w_mesh w) x phi z -> multi_affine fr -> multi_affine fp -> multi_affine fz ->
  (forall i j k, (i < length (ax_r (w_mesh w)))%nat -> (j < length (ax_phi (w_mesh w)))%nat -> (k < length (ax_z (w_mesh w)))%nat ->
     let at_ (f : Q -> Q -> Q -> Q) := f (nth i (ax_r (w_mesh w)) 0) (nth j (ax_phi (w_mesh w)) 0) (nth k (ax_z (w_mesh w)) 0) in
     Br_of (w_B w i j k) == at_ fr /\ Bphi_of (w_B w i j k) == at_ fp /\ Bz_of (w_B w i j k) == at_ fz) ->
  w_Bx twopi w x z phi == fr x phi z /\ w_By twopi w x z phi == fp x phi z /\ w_Bz twopi w x z phi == fz x phi z.
Proof. exact functions_affine. Qed.
Print Assumptions C102_affine.
Example C102_affine_applies : w_By (628#100) from_positions (45#10) (1#3) (25#10) == (25#10) * (45#10).
Proof.
  refine (proj1 (proj2 (C102_affine (628#100) eq_refl from_positions small_proper (fun r _ _ => r) (fun r p _ => p * r) (fun _ _ z => z) (45#10) (1#3) (25#10) _ eq_refl _ _ _ _ _))).
  - unfold Qle. cbn. lia.
  - unfold within_box. cbn [from_positions w_mesh small ax_r ax_phi ax_z]. rewrite !linspace_within by lia. repeat split; unfold Qle; cbn; lia.
  - exists 0, 1, 0, 0, 0, 0, 0, 0. intros. ring.
  - exists 0, 0, 0, 0, 1, 0, 0, 0. intros. ring.
  - exists 0, 0, 0, 1, 0, 0, 0, 0. intros. ring.
  - intros i j k _ _ _. cbv zeta. split; [|split]; reflexivity.
Qed.

(** In the box no value leaves the range of the samples. *)
Theorem C102_between : forall twopi, 0 < twopi -> forall w, proper (w_mesh w) -> forall (part : Q * Q * Q -> Q) lo hi x z phi,
  part = Br_of \/ part = Bphi_of \/ part = Bz_of -> 0 <= phi -> phi < twopi -> within_box (w_mesh w) x phi z ->
  (forall i j k, (i < length (ax_r (w_mesh w)))%nat -> (j < length (ax_phi (w_mesh w)))%nat -> (k < length (ax_z (w_mesh w)))%nat -> lo <= part (w_B w i j k) <= hi) ->
  (part = Br_of -> lo <= w_Bx twopi w x z phi <= hi) /\ (part = Bphi_of -> lo <= w_By twopi w x z phi <= hi) /\ (part = Bz_of -> lo <= w_Bz twopi w x z phi <= hi).
Proof. exact functions_bounds. Qed.
Print Assumptions C102_between.

(** Outside the box the field is toroidal and of size one; turning by 2 pi changes nothing. *)
Theorem C102_outside : forall twopi, 0 < twopi -> forall w, proper (w_mesh w) -> forall x z phi, 0 <= phi -> phi < twopi -> ~ within_box (w_mesh w) x phi z ->
  w_Bx twopi w x z phi == 0 /\ w_By twopi w x z phi == 1 /\ w_Bz twopi w x z phi == 0.
Proof. exact functions_outside. Qed.
Print Assumptions C102_outside.
Theorem C102_period : forall twopi, 0 < twopi -> forall w x z phi n,
  w_Bx twopi w x z (phi + inject_Z n * twopi) == w_Bx twopi w x z phi
  /\ w_By twopi w x z (phi + inject_Z n * twopi) == w_By twopi w x z phi /\ w_Bz twopi w x z (phi + inject_Z n * twopi) == w_Bz twopi w x z phi.
Proof. exact functions_period. Qed.
Print Assumptions C102_period.

(** The mesh has nx, ny, nz equally spaced points between the first and the last entry of the ranges. *)
Theorem C102_mesh : forall service extender st nx ny nz xr zr x0 x1 z0 z1 phimax c wout v st',
  range xr x0 x1 -> range zr z0 z1 -> (2 <= nx)%nat -> (2 <= ny)%nat -> (2 <= nz)%nat -> x0 < x1 -> z0 < z1 -> 0 < phimax ->
  field_values service st c (mesh_of {| q_cfg := c; q_n := (nx, ny, nz); q_r := (x0, x1); q_phi := (0, phimax); q_z := (z0, z1) |}) = (Ok v, st') ->
  exists w, w7x_vacuum service extender st nx ny nz xr zr phimax c false wout = (Ok w, st') /\ proper (w_mesh w) /\
    (length (ax_r (w_mesh w)) = nx /\ length (ax_phi (w_mesh w)) = ny /\ length (ax_z (w_mesh w)) = nz) /\
    (forall i, (i < nx)%nat -> nth i (ax_r (w_mesh w)) 0 == x0 + inject_Z (Z.of_nat i) * ((x1 - x0) / inject_Z (Z.of_nat (nx - 1)))) /\
    (forall j, (j < ny)%nat -> nth j (ax_phi (w_mesh w)) 0 == inject_Z (Z.of_nat j) * (phimax / inject_Z (Z.of_nat (ny - 1)))) /\
    (forall k, (k < nz)%nat -> nth k (ax_z (w_mesh w)) 0 == z0 + inject_Z (Z.of_nat k) * ((z1 - z0) / inject_Z (Z.of_nat (nz - 1)))) /\
    (forall i j k, Br_of (w_B w i j k) == Br_of (v i j k) /\ Bphi_of (w_B w i j k) == Bphi_of (v i j k) /\ Bz_of (w_B w i j k) == Bz_of (v i j k)).
Proof.
  intros service extender st nx ny nz xr zr x0 x1 z0 z1 phimax c wout v st' Hx Hz Nx Ny Nz Lx Lz Lp F.
  destruct (built service extender st nx ny nz xr zr x0 x1 z0 z1 phimax c false wout v st' (fun _ _ _ => (0, 0, 0)) st' Hx Hz F (conj eq_refl eq_refl) Lx Lz Lp)
    as (w & E & M & B).
  exists w. rewrite M. unfold proper. cbn [ax_r ax_phi ax_z]. rewrite !linspace_length.
  split; [exact E|]. split; [repeat split; try assumption; now apply linspace_increasing|]. split; [auto|].
  split; [intros i Hi; now apply linspace_nth|]. split.
  { intros j Hj. rewrite linspace_nth by assumption. setoid_replace (phimax - 0) with phimax by ring. ring. }
  split; [intros k Hk; now apply linspace_nth|]. intros i j k. destruct (B i j k) as (-> & -> & ->).
  unfold Br_of, Bphi_of, Bz_of. cbn [fst snd]. split; [|split]; ring.
Qed.
Print Assumptions C102_mesh.
Example C102_mesh_applies : range default_x_range (405#100) (655#100) /\ range default_z_range (-(135#100)) 35.
Proof. split; eexists; split; reflexivity. Qed.

(** Ranges that do not increase are refused, with a ValueError unless a service failed before. *)
Theorem C102_refused : forall service extender st nx ny nz xr zr x0 x1 z0 z1 phimax c plasma wout, range xr x0 x1 -> range zr z0 z1 ->
  (2 <= nx)%nat -> (2 <= ny)%nat -> (2 <= nz)%nat -> x1 <= x0 \/ z1 <= z0 \/ phimax <= 0 ->
  exists e, fst (w7x_vacuum service extender st nx ny nz xr zr phimax c plasma wout) = Err e /\
    ((forall m, (exists d, service c m = Ok d)) -> (forall u m, exists d, extender u m = Ok d) -> e = ValueError).
Proof. exact not_increasing. Qed.
Print Assumptions C102_refused.

(** With phimax below 2 pi the samples are not used beyond phimax: the field there is (0, 1, 0) for every field. *)
Theorem C102_phimax_refuted : forall twopi w x z phi n, 0 < twopi -> proper (w_mesh w) ->
  nth (length (ax_phi (w_mesh w)) - 1) (ax_phi (w_mesh w)) 0 < phi -> 0 <= phi -> phi < twopi ->
  w_Bx twopi w x z (phi + inject_Z n * twopi) == 0 /\ w_By twopi w x z (phi + inject_Z n * twopi) == 1 /\ w_Bz twopi w x z (phi + inject_Z n * twopi) == 0.
Proof.
  intros twopi w x z phi n Ht Hp L H0 H1. destruct (functions_period twopi Ht w x z phi n) as (-> & -> & ->).
  apply (functions_outside twopi Ht w Hp x z phi H0 H1). intros (_ & [_ A] & _). lra.
Qed.
Print Assumptions C102_phimax_refuted.
Example C102_phimax_applies : w_By (628#100) from_positions 5 0 (61#10) == 1.
Proof.
  assert (E : w_By (628#100) from_positions 5 0 ((61#10) + inject_Z 0 * (628#100)) == 1).
  { apply (C102_phimax_refuted (628#100) from_positions 5 0 (61#10) 0 eq_refl small_proper); [reflexivity|unfold Qle; cbn; lia|reflexivity]. }
  rewrite <- E. symmetry. apply (C102_period (628#100) eq_refl).
Qed.

(** The default z_range, written (-1.35, 1, 35), puts 118 of the 128 planes above 1.35 and the last at 35. *)
Theorem C102_default_range_refuted : range default_z_range (-(135#100)) 35 /\
  forall k, (k < 128)%nat -> (nth k (linspace (-(135#100)) 35 128) 0 <= 135#100 <-> (k < 10)%nat).
Proof. split; [eexists; split; reflexivity|exact default_few]. Qed.
Print Assumptions C102_default_range_refuted.

(** ** C103: the plasma's field, and W7X_VMEC *)

(** With include_plasma_field the samples are the sums. *)
Theorem C103_sum : forall service extender st nx ny nz xr zr x0 x1 z0 z1 phimax c wout v st' p st'',
  range xr x0 x1 -> range zr z0 z1 -> x0 < x1 -> z0 < z1 -> 0 < phimax ->
  let m := mesh_of {| q_cfg := c; q_n := (nx, ny, nz); q_r := (x0, x1); q_phi := (0, phimax); q_z := (z0, z1) |} in
  field_values service st c m = (Ok v, st') -> plasma_field extender st' m wout = (Ok p, st'') ->
  exists w, w7x_vacuum service extender st nx ny nz xr zr phimax c true wout = (Ok w, st'') /\ w_mesh w = m /\
    forall i j k, Br_of (w_B w i j k) == Br_of (v i j k) + Br_of (p i j k) /\ Bphi_of (w_B w i j k) == Bphi_of (v i j k) + Bphi_of (p i j k)
      /\ Bz_of (w_B w i j k) == Bz_of (v i j k) + Bz_of (p i j k).
Proof.
  intros service extender st nx ny nz xr zr x0 x1 z0 z1 phimax c wout v st' p st'' Hx Hz Lx Lz Lp m F P.
  exact (built service extender st nx ny nz xr zr x0 x1 z0 z1 phimax c true wout v st' p st'' Hx Hz F P Lx Lz Lp).
Qed.
Print Assumptions C103_sum.

(** A saved plasma field is read; without one the service is asked, for one fixed equilibrium, and its answer kept. *)
Theorem C103_saved : forall extender st m wout, let vmecURL := "http://svvmec1.ipp-hgw.mpg.de:8080/vmecrest/v1/w7x_ref_1/wout.nc"%string in
  (exists n, fname_plasma m = Ok n /\ (forall d, st n = Some d -> plasma_field extender st m wout = (Ok d, st)) /\
    (st n = None -> fst (plasma_field extender st m wout) = extender vmecURL m /\
       (forall d, extender vmecURL m = Ok d -> snd (plasma_field extender st m wout) n = Some d /\ forall n', n' <> n -> snd (plasma_field extender st m wout) n' = st n')))
  \/ (plasma_field extender st m wout = (Err IndexError, st) /\ (ax_r m = [] \/ ax_phi m = [] \/ ax_z m = [])).
Proof. exact plasma_spec. Qed.
Print Assumptions C103_saved.

(** The equilibrium file that is named has no effect. *)
Theorem C103_wout_refuted : forall service extender st nx ny nz xr zr phimax c plasma wout wout',
  w7x_vacuum service extender st nx ny nz xr zr phimax c plasma wout = w7x_vacuum service extender st nx ny nz xr zr phimax c plasma wout'.
Proof. exact wout_ignored. Qed.
Print Assumptions C103_wout_refuted.

(** W7X_VMEC cannot be built. *)
Theorem C103_vmec_refuted : forall answer nx ny nz xr zr pr, xr <> [] -> zr <> [] -> pr <> [] -> w7x_vmec answer nx ny nz xr zr pr = Err OtherError.
Proof. exact vmec_never. Qed.
Print Assumptions C103_vmec_refuted.
Example C103_vmec_applies : w7x_vmec (fun m => Ok (fun _ _ _ => (0, 1, 0))) 512 32 512 default_x_range default_z_range [0; 628#100] = Err OtherError.
Proof. apply C103_vmec_refuted; discriminate. Qed.
