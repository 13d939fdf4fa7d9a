(** Proofs about calc_curvilinear_curvature. *)
From Coq Require Import List Reals Lra Lia.
From Verif Require Import CurvModel.
Import ListNotations.
Open Scope R_scope.

Section Proofs.
Variable deriv : list R -> list R.
Variable Bxfunc Byfunc Bzfunc : R -> R -> R -> R.
Variable nx ny nz : nat.
Variable polR polZ : nat -> nat -> nat -> R.
Variable dx dz g_xx g_yy g_zz g_xz : arr3.
Variable B fR dy : arr3.
Notation Rx := (dRdx deriv nx polR dx).
Notation Rz := (dRdz deriv nz polR dz).
Notation Zx := (dZdx deriv nx polZ dx).
Notation Zz := (dZdz deriv nz polZ dz).
(** inside the grid *)
Definition inside (x y z : nat) : Prop := (x < nx)%nat /\ (y < ny)%nat /\ (z < nz)%nat.
(** the metric belongs to the positions: the poloidal part is that of the derivatives, and cells are not degenerate *)
Definition poloidal_metric : Prop := forall x y z, inside x y z ->
  g_xx x y z = Rx x y z ^ 2 + Zx x y z ^ 2 /\ g_zz x y z = Rz x y z ^ 2 + Zz x y z ^ 2 /\ g_xz x y z = Rx x y z * Rz x y z + Zx x y z * Zz x y z /\
  fR x y z <> 0 /\ Zz x y z * Rx x y z - Zx x y z * Rz x y z <> 0.
Hypothesis HM : poloidal_metric.

(** covariant components of b/B, with the cylindrical components of the field taken from [BR], [BZ], [Bphi] and
    the length of the toroidal basis vector [tor] *)
Definition cov_x (BR BZ : arr3) : arr3 := fun x y z => (BR x y z * Rx x y z + BZ x y z * Zx x y z) / B x y z ^ 2.
Definition cov_z (BR BZ : arr3) : arr3 := fun x y z => (BR x y z * Rz x y z + BZ x y z * Zz x y z) / B x y z ^ 2.
Definition cov_y (Bphi tor : arr3) : arr3 := fun x y z => Bphi x y z * tor x y z / B x y z ^ 2.
(** components of the curl of a vector with covariant components [vx], [vy], [vz] *)
Definition curl_x (vy vz : arr3) : arr3 := fun x y z =>
  (deriv_y deriv ny vz x y z / dy x y z - deriv_z deriv nz vy x y z / dz x y z) / (fR x y z * (Rx x y z * Zz x y z - Rz x y z * Zx x y z)).
Definition curl_y (vx vz : arr3) : arr3 := fun x y z =>
  (deriv_z deriv nz vx x y z / dz x y z - deriv_x deriv nx vz x y z / dx x y z) / (fR x y z * (Rx x y z * Zz x y z - Rz x y z * Zx x y z)).
Definition curl_z (vx vy : arr3) : arr3 := fun x y z =>
  (deriv_x deriv nx vy x y z / dx x y z - deriv_y deriv ny vx x y z / dy x y z) / (fR x y z * (Rx x y z * Zz x y z - Rz x y z * Zx x y z)).

(** the components as calc_curvilinear_curvature takes them *)
Definition at_index (f : R -> R -> R -> R) : arr3 := fun x y z => f (polR y x z) (INR y) (polZ y x z).

Lemma Gx_cov x y z : inside x y z -> B x y z <> 0 ->
  G_x deriv Bxfunc Byfunc Bzfunc nx nz polR polZ dx dz g_xx g_xz B fR x y z = cov_x (at_index Bxfunc) (at_index Bzfunc) x y z.
Proof.
  intros H HB. destruct (HM x y z H) as (H1 & H2 & H3 & H4 & H5). unfold G_x, Gx, Gz, GR, GZ, J, cov_x, at_index. rewrite H1, H3. field. repeat split; try assumption.
Qed.
Lemma Gz_cov x y z : inside x y z -> B x y z <> 0 ->
  G_z deriv Bxfunc Byfunc Bzfunc nx nz polR polZ dx dz g_zz g_xz B fR x y z = cov_z (at_index Bxfunc) (at_index Bzfunc) x y z.
Proof.
  intros H HB. destruct (HM x y z H) as (H1 & H2 & H3 & H4 & H5). unfold G_z, Gx, Gz, GR, GZ, J, cov_z, at_index. rewrite H2, H3. field. repeat split; try assumption.
Qed.
Lemma Gy_cov x y z :
  G_y deriv Bxfunc Byfunc Bzfunc nx nz polR polZ dx dz g_yy B fR x y z = cov_y (at_index Byfunc) g_yy x y z.
Proof. unfold G_y, Gphi, cov_y, at_index, Rdiv. ring. Qed.

Lemma deriv_x_ext a b x y z : (forall i, (i < nx)%nat -> a i y z = b i y z) -> deriv_x deriv nx a x y z = deriv_x deriv nx b x y z.
Proof. intros H. unfold deriv_x. f_equal. f_equal. apply map_ext_in. intros i Hi. apply in_seq in Hi. apply H. lia. Qed.
Lemma deriv_y_ext a b x y z : (forall i, (i < ny)%nat -> a x i z = b x i z) -> deriv_y deriv ny a x y z = deriv_y deriv ny b x y z.
Proof. intros H. unfold deriv_y. f_equal. f_equal. apply map_ext_in. intros i Hi. apply in_seq in Hi. apply H. lia. Qed.
Lemma deriv_z_ext a b x y z : (forall i, (i < nz)%nat -> a x y i = b x y i) -> deriv_z deriv nz a x y z = deriv_z deriv nz b x y z.
Proof. intros H. unfold deriv_z. f_equal. f_equal. apply map_ext_in. intros i Hi. apply in_seq in Hi. apply H. lia. Qed.

Lemma J_form x y z : J deriv nx nz polR polZ dx dz fR x y z = fR x y z * (Rx x y z * Zz x y z - Rz x y z * Zx x y z).
Proof. unfold J. ring. Qed.

Hypothesis HB : forall x y z, inside x y z -> B x y z <> 0.

Lemma bxcv_curl x y z : inside x y z ->
  bxcvx deriv Bxfunc Byfunc Bzfunc nx ny nz polR polZ dx dz g_yy g_zz g_xz B fR dy x y z =
    curl_x (cov_y (at_index Byfunc) g_yy) (cov_z (at_index Bxfunc) (at_index Bzfunc)) x y z /\
  bxcvy deriv Bxfunc Byfunc Bzfunc nx nz polR polZ dx dz g_xx g_zz g_xz B fR x y z =
    curl_y (cov_x (at_index Bxfunc) (at_index Bzfunc)) (cov_z (at_index Bxfunc) (at_index Bzfunc)) x y z /\
  bxcvz deriv Bxfunc Byfunc Bzfunc nx ny nz polR polZ dx dz g_xx g_yy g_xz B fR dy x y z =
    curl_z (cov_x (at_index Bxfunc) (at_index Bzfunc)) (cov_y (at_index Byfunc) g_yy) x y z.
Proof.
  intros (H1 & H2 & H3). unfold bxcvx, bxcvy, bxcvz, curl_x, curl_y, curl_z. rewrite J_form. split; [|split]; f_equal; f_equal; f_equal.
  - apply deriv_y_ext. intros i Hi. apply Gz_cov; [|apply HB]; repeat split; assumption.
  - apply deriv_z_ext. intros i Hi. apply Gy_cov.
  - apply deriv_z_ext. intros i Hi. apply Gx_cov; [|apply HB]; repeat split; assumption.
  - apply deriv_x_ext. intros i Hi. apply Gz_cov; [|apply HB]; repeat split; assumption.
  - apply deriv_x_ext. intros i Hi. apply Gy_cov.
  - apply deriv_y_ext. intros i Hi. apply Gx_cov; [|apply HB]; repeat split; assumption.
Qed.
End Proofs.

(** ** A purely toroidal vacuum field on a rectangular grid *)
(** central differences, one-sided at the ends *)
Definition w_deriv (l : list R) : list R :=
  map (fun i => if (i =? 0)%nat then nth 1 l 0 - nth 0 l 0
                else if (i =? length l - 1)%nat then nth i l 0 - nth (i - 1) l 0
                else (nth (i + 1) l 0 - nth (i - 1) l 0) / 2) (seq 0 (length l)).
Definition w_R (y x z : nat) : R := 1 + INR x.
Definition w_Z (y x z : nat) : R := INR z.
Definition one3 : arr3 := fun _ _ _ => 1.
Definition zero3 : arr3 := fun _ _ _ => 0.
Definition w_B : arr3 := fun x _ _ => / (1 + INR x).
Definition w_g22 : arr3 := fun x _ _ => (1 + INR x) ^ 2.
Definition w_fR : arr3 := fun x _ _ => 1 + INR x.
Definition w_By (x z phi : R) : R := / x.

Ltac pts := repeat match goal with H : (?n < 3)%nat |- _ => destruct n as [|[|[|n]]]; [| | |exfalso; lia]; clear H end.
Ltac calc := unfold inside, dRdx, dRdz, dZdx, dZdz, deriv_x, deriv_y, deriv_z, w_deriv, w_R, w_Z, one3, zero3, w_B, w_g22, w_fR, w_By; cbn -[Rdiv]; unfold Rdiv.

Lemma w_metric : poloidal_metric w_deriv 3 3 3 w_R w_Z one3 one3 one3 one3 zero3 w_fR.
Proof. intros x y z (H1 & H2 & H3). pts; calc; repeat split; lra. Qed.

(** the contravariant z component of the curl, at R = 2: code, and with the length R of the toroidal basis vector *)
Lemma w_code : bxcvz w_deriv (fun _ _ _ => 0) w_By (fun _ _ _ => 0) 3 3 3 w_R w_Z one3 one3 one3 w_g22 zero3 w_B w_fR one3 1 1 1 = 13 / 2.
Proof. unfold bxcvz, G_y, G_x, Gx, Gz, GR, GZ, Gphi, J. calc. field. Qed.
Lemma w_right : curl_z w_deriv 3 3 3 w_R w_Z one3 one3 w_fR one3
   (cov_x w_deriv 3 w_R w_Z one3 w_B zero3 zero3) (cov_y w_B (fun x y z => w_By (w_R y x z) (w_Z y x z) 0) w_fR) 1 1 1 = 2.
Proof. unfold curl_z, cov_x, cov_y. calc. field. Qed.

(** ** Bx as a function of the height: B = (z, 1, 0) *)
Definition w_Bx (x z phi : R) : R := z.
Definition w_B2 : arr3 := fun x y z => sqrt (INR z ^ 2 + 1).
Lemma w_B2_nz x y z : w_B2 x y z <> 0.
Proof. unfold w_B2. assert (0 < sqrt (INR z ^ 2 + 1)) by (apply sqrt_lt_R0; nra). lra. Qed.
Lemma w_B2_sq x y z : w_B2 x y z ^ 2 = INR z ^ 2 + 1.
Proof. unfold w_B2. rewrite <- Rsqr_pow2. apply Rsqr_sqrt. nra. Qed.
Lemma w_arguments :
  bxcvy w_deriv w_Bx (fun _ _ _ => 1) (fun _ _ _ => 0) 3 3 w_R w_Z one3 one3 one3 one3 zero3 w_B2 w_fR 1 1 1 = - (1 / 5) /\
  curl_y w_deriv 3 3 w_R w_Z one3 one3 w_fR
   (cov_x w_deriv 3 w_R w_Z one3 w_B2 (fun x y z => w_Bx (w_R y x z) (w_Z y x z) 0) zero3)
   (cov_z w_deriv 3 w_R w_Z one3 w_B2 (fun x y z => w_Bx (w_R y x z) (w_Z y x z) 0) zero3) 1 1 1 = 1 / 10.
Proof.
  split.
  - destruct (bxcv_curl w_deriv w_Bx (fun _ _ _ => 1) (fun _ _ _ => 0) 3 3 3 w_R w_Z one3 one3 one3 one3 one3 zero3 w_B2 w_fR one3) with (x := 1%nat) (y := 1%nat) (z := 1%nat) as (_ & E & _).
    + exact w_metric.
    + intros. apply w_B2_nz.
    + repeat split; lia.
    + rewrite E. unfold curl_y, deriv_z at 1, deriv_x at 1. unfold cov_x at 1, cov_z at 1. cbn [map seq]. rewrite !w_B2_sq. unfold at_index, w_Bx. calc. field.
  - unfold curl_y, deriv_z at 1, deriv_x at 1. unfold cov_x at 1, cov_z at 1. cbn [map seq]. rewrite !w_B2_sq. unfold w_Bx. calc. field.
Qed.

(** ** Slanted grids: positions affine in the indices *)
(** a difference formula that is right for straight lines *)
Definition exact_on_lines (deriv : list R -> list R) : Prop := forall a b n i, (i < n)%nat -> (3 <= n)%nat ->
  nth i (deriv (map (fun k => a + b * INR k) (seq 0 n))) 0 = b.
Lemma slanted deriv nx nz (R0 Z0 : nat -> R) rx rz zx zz hx hz fR x y z :
  exact_on_lines deriv -> (3 <= nx)%nat -> (3 <= nz)%nat -> (x < nx)%nat -> (z < nz)%nat -> hx <> 0 -> hz <> 0 ->
  let polR := fun y x z => R0 y + rx * (hx * INR x) + rz * (hz * INR z) in
  let polZ := fun y x z => Z0 y + zx * (hx * INR x) + zz * (hz * INR z) in
  let dx := fun _ _ _ => hx in let dz := fun _ _ _ => hz in
  dRdx deriv nx polR dx x y z = rx /\ dRdz deriv nz polR dz x y z = rz /\
  dZdx deriv nx polZ dx x y z = zx /\ dZdz deriv nz polZ dz x y z = zz /\
  J deriv nx nz polR polZ dx dz fR x y z = fR x y z * (rx * zz - rz * zx).
Proof.
  intros HD H3x H3z Hx Hz Hhx Hhz polR polZ dx dz.
  assert (E1 : dRdx deriv nx polR dx x y z = rx).
  { unfold dRdx, deriv_x, polR, dx. rewrite (map_ext _ (fun k => (R0 y + rz * (hz * INR z)) + (rx * hx) * INR k)) by (intros; ring).
    rewrite HD by assumption. field. assumption. }
  assert (E2 : dRdz deriv nz polR dz x y z = rz).
  { unfold dRdz, deriv_z, polR, dz. rewrite (map_ext _ (fun k => (R0 y + rx * (hx * INR x)) + (rz * hz) * INR k)) by (intros; ring).
    rewrite HD by assumption. field. assumption. }
  assert (E3 : dZdx deriv nx polZ dx x y z = zx).
  { unfold dZdx, deriv_x, polZ, dx. rewrite (map_ext _ (fun k => (Z0 y + zz * (hz * INR z)) + (zx * hx) * INR k)) by (intros; ring).
    rewrite HD by assumption. field. assumption. }
  assert (E4 : dZdz deriv nz polZ dz x y z = zz).
  { unfold dZdz, deriv_z, polZ, dz. rewrite (map_ext _ (fun k => (Z0 y + zx * (hx * INR x)) + (zz * hz) * INR k)) by (intros; ring).
    rewrite HD by assumption. field. assumption. }
  repeat split; try assumption. unfold J. rewrite E1, E2, E3, E4. ring.
Qed.
Lemma w_exact : exact_on_lines w_deriv.
Proof.
  intros a b n i Hi Hn. unfold w_deriv. rewrite map_length, seq_length.
  match goal with |- nth i (map ?f _) 0 = _ => rewrite (nth_indep _ 0 (f 0%nat)) by (rewrite map_length, seq_length; exact Hi); rewrite (map_nth f), seq_nth by exact Hi end.
  cbn [plus].
  assert (N : forall k, (k < n)%nat -> nth k (map (fun k => a + b * INR k) (seq 0 n)) 0 = a + b * INR k).
  { intros k Hk. rewrite (nth_indep _ 0 ((fun k => a + b * INR k) 0%nat)) by (rewrite map_length, seq_length; exact Hk). rewrite (map_nth (fun k => a + b * INR k)), seq_nth by exact Hk. reflexivity. }
  destruct (Nat.eqb_spec i 0); [|destruct (Nat.eqb_spec i (n - 1))]; rewrite !N by lia.
  - cbn. ring.
  - replace (INR i) with (INR (i - 1) + 1) by (rewrite <- S_INR; f_equal; lia). ring.
  - replace (INR (i + 1)) with (INR (i - 1) + 2) by (replace 2 with (INR 2) by (cbn; ring); rewrite <- plus_INR; f_equal; lia). field.
Qed.
