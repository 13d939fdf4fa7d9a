(** Proofs about the analytic fields: stellarators, screw pinch, equilibrium files, rotations. *)
From Coq Require Import List Reals Lra Lia.
From Verif Require Import Prelude FieldReal CoilSpec CoilProofs.
Import ListNotations.
Open Scope R_scope.

(** * Stellarators *)
Lemma stell_flux p x z phi : away (coil_list p phi) x z ->
  d_z (Afunc p) x z phi (- Bxfunc p x z phi) /\ d_x (Afunc p) x z phi (Bzfunc p x z phi).
Proof. intros H. exact (flux_function _ x z H). Qed.

Lemma stell_divergence p x z phi : away (coil_list p phi) x z -> cartesian_divergence (Bxfunc p) one (Bzfunc p) x z phi 0.
Proof.
  intros H. destruct (no_sources _ x z H) as (d & D1 & D2). exists d, 0, (- d).
  split; [exact D1|]. split; [exact (d_const 1 phi)|]. split; [exact D2|]. ring.
Qed.

Lemma stell_frozen p phi By Rm X Z a b : a <= b ->
  field_line (fun x z _ => Bxfunc p x z phi) By (fun x z _ => Bzfunc p x z phi) Rm X Z a b ->
  (forall s, a <= s <= b -> away (coil_list p phi) (X s) (Z s)) -> Afunc p (X b) (Z b) phi = Afunc p (X a) (Z a) phi.
Proof.
  intros L F W. apply (constant_on (fun s => Afunc p (X s) (Z s) phi) a b L). intros s Hs.
  destruct (F s Hs) as (N & HX & HZ).
  eapply d_eq; [|apply (d_A_fixed (coil_list p phi) X Z s _ _ HX HZ (W s Hs))].
  fold (Bxfunc p (X s) (Z s) phi). fold (Bzfunc p (X s) (Z s) phi). field. exact N.
Qed.

Lemma stell_helical p X Z a b : a <= b -> field_line (Bxfunc p) one (Bzfunc p) one X Z a b ->
  (forall s, a <= s <= b -> away (coil_list p s) (X s) (Z s)) -> helical p (X b) (Z b) b = helical p (X a) (Z a) a.
Proof.
  intros L F W. apply (constant_on (fun s => helical p (X s) (Z s) s) a b L). intros s Hs.
  destruct (F s Hs) as (_ & HX & HZ). unfold one in HX, HZ. rewrite Rmult_1_l in HX, HZ. unfold Rdiv in HX, HZ. rewrite Rinv_1, Rmult_1_r in HX, HZ.
  specialize (W s Hs).
  set (cl := fun (i : nat) (t : R) => coil p (INR i / 2 * PI) ((-1) ^ (i mod 2) * I_coil p) t).
  assert (D := d_A_coils cl (seq 0 4) X Z s _ _ (fun i => (- iota p * (snd (fst (cl i s)) - zcentre p), iota p * (fst (fst (cl i s)) - xcentre p))) HX HZ).
  unfold helical. eapply d_eq; [|apply d_sub; [apply D|apply d_scal, d_add; apply d_sq, d_sub; [exact HX|apply d_const|exact HZ|apply d_const]]].
  - assert (W' : away (map (fun i => cl i s) (seq 0 4)) (X s) (Z s)) by exact W.
    assert (EX : Bxfunc p (X s) (Z s) s = rsum (map (fun i => snd (cl i s) * (2 / 10) * (Z s - snd (fst (cl i s))) / r2 (cl i s) (X s) (Z s)) (seq 0 4))).
    { unfold Bxfunc. change (coil_list p s) with (map (fun i => cl i s) (seq 0 4)). rewrite Bx_coils_eq by exact W'. now rewrite map_map. }
    assert (EZ : Bzfunc p (X s) (Z s) s = rsum (map (fun i => - (snd (cl i s) * (2 / 10) * (X s - fst (fst (cl i s))) / r2 (cl i s) (X s) (Z s))) (seq 0 4))).
    { unfold Bzfunc. change (coil_list p s) with (map (fun i => cl i s) (seq 0 4)). rewrite Bz_coils_eq by exact W'. now rewrite map_map. }
    remember (Bxfunc p (X s) (Z s) s) as bx. remember (Bzfunc p (X s) (Z s) s) as bz. clear Heqbx Heqbz.
    cbn [fst snd].
    rewrite (rsum_ext _ (fun i =>
        (bx - iota p * (Z s - zcentre p) * -1) * (- (snd (cl i s) * (2 / 10) * (X s - fst (fst (cl i s))) / r2 (cl i s) (X s) (Z s)))
        + (- (bz - iota p * (X s - xcentre p))) * (snd (cl i s) * (2 / 10) * (Z s - snd (fst (cl i s))) / r2 (cl i s) (X s) (Z s)))).
    + rewrite rsum_plus, !rsum_scale, <- EX, <- EZ. field.
    + intros i Hi. field. apply Rgt_not_eq, r2_pos, W', (in_map (fun i => cl i s)), Hi.
  - intros i _. unfold cl, coil. cbn [fst snd]. split; [|split].
    + eapply d_eq; [|apply d_add; [apply d_const|apply d_scal, d_cos, d_add; [apply d_const|apply d_scal, d_id]]]. cbv beta. cbv beta. ring.
    + eapply d_eq; [|apply d_add; [apply d_const|apply d_scal, d_sin, d_add; [apply d_const|apply d_scal, d_id]]]. cbv beta. cbv beta. ring.
    + reflexivity.
  - exact W.
Qed.

Lemma ellipse_divergence p Btor x z phi : away (coil_list p phi) x z -> x <> 0 ->
  cylindrical_divergence (Bxfunc p) (ellipse_Byfunc Btor) (Bzfunc p) x z phi (Bxfunc p x z phi / x).
Proof.
  intros H N. destruct (no_sources _ x z H) as (d & D1 & D2).
  exists (1 * Bxfunc p x z phi + x * d), 0, (- d). split; [|split; [exact (d_const (Btor / x) phi)|split; [exact D2|]]].
  - apply (d_mul (fun t => t) (fun x' => Bxfunc p x' z phi)); [apply d_id|exact D1].
  - field. exact N.
Qed.

(** the four coils at the start *)
Lemma coil_list_0 x0 z0 r yp I : coil_list {| xcentre := x0; zcentre := z0; radius := r; yperiod := yp; I_coil := I |} 0 =
  [(x0 + r, z0, I); (x0, z0 + r, - I); (x0 - r, z0, I); (x0, z0 - r, - I)].
Proof.
  unfold coil_list, coil, iota. cbn [map seq xcentre zcentre radius yperiod I_coil Nat.modulo Nat.divmod fst snd Nat.sub].
  replace (INR 0 / 2 * PI + 2 * PI / yp * 0) with 0 by (cbn [INR]; unfold Rdiv; ring).
  replace (INR 1 / 2 * PI + 2 * PI / yp * 0) with (PI / 2) by (cbn [INR]; unfold Rdiv; ring).
  replace (INR 2 / 2 * PI + 2 * PI / yp * 0) with PI by (cbn [INR]; unfold Rdiv; rewrite Rmult_0_r; field).
  replace (INR 3 / 2 * PI + 2 * PI / yp * 0) with (PI + PI / 2) by (cbn [INR]; unfold Rdiv; rewrite Rmult_0_r; field).
  rewrite cos_0, sin_0, cos_PI2, sin_PI2, cos_PI, sin_PI.
  rewrite (Rplus_comm PI (PI / 2)), neg_cos, neg_sin, cos_PI2, sin_PI2.
  cbn [pow]. assert (T : forall a b c a' b' c' : R, a = a' -> b = b' -> c = c' -> (a, b, c) = (a', b', c')) by (intros; subst; reflexivity).
  repeat (apply f_equal2; [apply T; ring|]). reflexivity.
Qed.

Definition w_stell : stellarator := {| xcentre := 2; zcentre := 0; radius := 1; yperiod := 1; I_coil := 1 |}.
Lemma w_away : away (coil_list w_stell 0) 2 (1 / 2).
Proof. unfold w_stell. rewrite coil_list_0. intros c [<-|[<-|[<-|[<-|[]]]]]; cbn [fst snd]; right; lra. Qed.
Lemma w_Bx : Bxfunc w_stell 2 (1 / 2) 0 = 32 / 75.
Proof.
  unfold Bxfunc. rewrite Bx_coils_eq by exact w_away. unfold w_stell. rewrite coil_list_0.
  cbn [map rsum fold_right]. unfold r2. cbn [fst snd]. field.
Qed.

Lemma ellipse_sources : ~ forall p Btor x z phi, away (coil_list p phi) x z -> x <> 0 ->
  cylindrical_divergence (Bxfunc p) (ellipse_Byfunc Btor) (Bzfunc p) x z phi 0.
Proof.
  intros H. specialize (H w_stell 1 2 (1 / 2) 0 w_away ltac:(lra)).
  destruct (ellipse_divergence w_stell 1 2 (1 / 2) 0 w_away ltac:(lra)) as (dx & dy & dz & D1 & D2 & D3 & E).
  destruct H as (dx' & dy' & dz' & D1' & D2' & D3' & E').
  assert (dx = dx') by exact (uniqueness_limite _ _ _ _ D1 D1').
  assert (dy = dy') by exact (uniqueness_limite _ _ _ _ D2 D2').
  assert (dz = dz') by exact (uniqueness_limite _ _ _ _ D3 D3').
  subst dx' dy' dz'. rewrite w_Bx in E. lra.
Qed.

(** * Screw pinch *)
Lemma sp_off_centre p x z : (x - sp_x p) ^ 2 + (z - sp_z p) ^ 2 = 0 -> x - sp_x p = 0 /\ z - sp_z p = 0.
Proof.
  intros H. assert (0 <= (x - sp_x p) ^ 2) by apply pow2_ge_0. assert (0 <= (z - sp_z p) ^ 2) by apply pow2_ge_0.
  assert ((x - sp_x p) ^ 2 = 0) by lra. assert ((z - sp_z p) ^ 2 = 0) by lra.
  rewrite <- Rsqr_pow2 in *. split; now apply Rsqr_0_uniq.
Qed.
Lemma sp_r_sq p x z : sp_r p x z * sp_r p x z = (x - sp_x p) ^ 2 + (z - sp_z p) ^ 2.
Proof. unfold sp_r. apply sqrt_sqrt. assert (0 <= (x - sp_x p) ^ 2) by apply pow2_ge_0. assert (0 <= (z - sp_z p) ^ 2) by apply pow2_ge_0. lra. Qed.
Lemma sp_comp p x z phi : sp_Bx p x z phi = - shear p * sp_r p x z * (z - sp_z p) /\ sp_Bz p x z phi = shear p * sp_r p x z * (x - sp_x p).
Proof.
  unfold sp_Bx, sp_Bz, sp_theta.
  assert (S := sp_r_sq p x z). destruct (Req_dec ((x - sp_x p) ^ 2 + (z - sp_z p) ^ 2) 0) as [E|N].
  - rewrite E in S. assert (Z : sp_r p x z = 0) by (apply Rsqr_0_uniq; exact S). rewrite Z. split; ring.
  - assert (D : x - sp_x p <> 0 \/ z - sp_z p <> 0).
    { destruct (Req_dec (x - sp_x p) 0) as [E1|]; [|now left]. destruct (Req_dec (z - sp_z p) 0) as [E2|]; [|now right].
      exfalso. apply N. rewrite E1, E2. ring. }
    rewrite (atan2_sin _ _ D), (atan2_cos _ _ D). fold (sp_r p x z).
    assert (sp_r p x z <> 0). { intros F. rewrite F in S. apply N. lra. }
    split; field; assumption.
Qed.
Lemma sp_A_eq p x z phi : sp_A p x z phi = shear p * ((x - sp_x p) ^ 2 + (z - sp_z p) ^ 2).
Proof. unfold sp_A. rewrite <- sp_r_sq. ring. Qed.

Lemma sp_circles p By Rm X Z a b : a <= b -> field_line (sp_Bx p) By (sp_Bz p) Rm X Z a b ->
  sp_r p (X b) (Z b) = sp_r p (X a) (Z a) /\ sp_A p (X b) (Z b) b = sp_A p (X a) (Z a) a.
Proof.
  intros L F.
  assert (E : (fun s => (X s - sp_x p) ^ 2 + (Z s - sp_z p) ^ 2) b = (fun s => (X s - sp_x p) ^ 2 + (Z s - sp_z p) ^ 2) a).
  { apply (constant_on (fun s => (X s - sp_x p) ^ 2 + (Z s - sp_z p) ^ 2) a b L). intros s Hs. destruct (F s Hs) as (N & HX & HZ).
    eapply d_eq; [|apply d_add; apply d_sq, d_sub; [exact HX|apply d_const|exact HZ|apply d_const]].
    destruct (sp_comp p (X s) (Z s) s) as [-> ->]. field. exact N. }
  cbv beta in E. split; [unfold sp_r; now rewrite E|]. rewrite !sp_A_eq. now rewrite E.
Qed.
Lemma sp_dA p x z phi : d_x (sp_A p) x z phi (2 * shear p * (x - sp_x p)) /\ d_z (sp_A p) x z phi (2 * shear p * (z - sp_z p)).
Proof.
  split.
  - apply derivable_pt_lim_ext with (f := fun x' => shear p * ((x' - sp_x p) ^ 2 + (z - sp_z p) ^ 2)); [intros; symmetry; apply sp_A_eq|].
    eapply d_eq; [|apply d_scal, d_add; [apply d_sq, d_sub; [apply d_id|apply d_const]|apply d_const]]. cbv beta. ring.
  - apply derivable_pt_lim_ext with (f := fun z' => shear p * ((x - sp_x p) ^ 2 + (z' - sp_z p) ^ 2)); [intros; symmetry; apply sp_A_eq|].
    eapply d_eq; [|apply d_scal, d_add; [apply d_const|apply d_sq, d_sub; [apply d_id|apply d_const]]]. cbv beta. ring.
Qed.
(** with the distance to the centre over two, A would be the flux function *)
Lemma sp_ratio p x z phi : exists ax az, d_x (sp_A p) x z phi ax /\ d_z (sp_A p) x z phi az /\
  sp_Bx p x z phi = sp_r p x z / 2 * (- az) /\ sp_Bz p x z phi = sp_r p x z / 2 * ax.
Proof.
  destruct (sp_dA p x z phi) as [D1 D2]. eexists _, _. split; [exact D1|]. split; [exact D2|].
  destruct (sp_comp p x z phi) as [-> ->]. split; field.
Qed.
Definition w_sp : screwpinch := {| sp_x := 0; sp_z := 0; shear := 1; sp_Btor := 1 |}.
Lemma sp_not_flux : ~ forall p x z phi, d_x (sp_A p) x z phi (sp_Bz p x z phi).
Proof.
  intros H. specialize (H w_sp 1 0 0). destruct (sp_dA w_sp 1 0 0) as [D _].
  assert (E := uniqueness_limite _ _ _ _ H D). rewrite (proj2 (sp_comp w_sp 1 0 0)) in E.
  unfold sp_r in E. cbn [sp_x sp_z shear w_sp] in E. replace ((1 - 0) ^ 2 + (0 - 0) ^ 2) with 1 in E by ring. rewrite sqrt_1 in E. lra.
Qed.

Lemma d_sqrt (f : R -> R) x d : 0 < f x -> derivable_pt_lim f x d -> derivable_pt_lim (fun t => sqrt (f t)) x (d / (2 * sqrt (f x))).
Proof.
  intros P H. replace (d / (2 * sqrt (f x))) with (/ (2 * sqrt (f x)) * d) by (unfold Rdiv; ring).
  apply (derivable_pt_lim_comp f sqrt); [exact H|]. now apply derivable_pt_lim_sqrt.
Qed.
Lemma sp_divergence p x z phi : x <> sp_x p \/ z <> sp_z p -> x <> 0 ->
  cylindrical_divergence (sp_Bx p) (sp_By p) (sp_Bz p) x z phi (sp_Bx p x z phi / x).
Proof.
  intros H N.
  assert (P : 0 < (x - sp_x p) ^ 2 + (z - sp_z p) ^ 2).
  { assert (T := r2_pos (sp_x p, sp_z p, 0) x z H). exact T. }
  assert (S : 0 < sp_r p x z) by now apply sqrt_lt_R0.
  assert (DX : derivable_pt_lim (fun x' => sp_r p x' z) x ((x - sp_x p) / sp_r p x z)).
  { eapply d_eq; [|apply d_sqrt; [exact P|apply d_add; [apply d_sq, d_sub; [apply d_id|apply d_const]|apply d_const]]].
    cbv beta. fold (sp_r p x z). field. lra. }
  assert (DZ : derivable_pt_lim (fun z' => sp_r p x z') z ((z - sp_z p) / sp_r p x z)).
  { eapply d_eq; [|apply d_sqrt; [exact P|apply d_add; [apply d_const|apply d_sq, d_sub; [apply d_id|apply d_const]]]].
    cbv beta. fold (sp_r p x z). field. lra. }
  eexists _, 0, _. split; [|split; [exact (d_const (sp_Btor p / x) phi)|split]].
  - apply derivable_pt_lim_ext with (f := fun x' => x' * ((- shear p * (z - sp_z p)) * sp_r p x' z)).
    { intros t. rewrite (proj1 (sp_comp p t z phi)). ring. }
    apply d_mul; [apply d_id|apply d_scal, DX].
  - apply derivable_pt_lim_ext with (f := fun z' => (shear p * (x - sp_x p)) * sp_r p x z').
    { intros t. rewrite (proj2 (sp_comp p x t phi)). ring. }
    apply d_scal, DZ.
  - rewrite (proj1 (sp_comp p x z phi)). field. split; [lra|exact N].
Qed.

(** * Equilibrium files *)
Lemma chain2 (psi : R -> R -> R) (X Z : R -> R) s X' Z' px pz : differentiable2 psi (X s) (Z s) px pz ->
  derivable_pt_lim X s X' -> derivable_pt_lim Z s Z' -> derivable_pt_lim (fun t => psi (X t) (Z t)) s (px * X' + pz * Z').
Proof.
  intros D HX HZ eps He.
  set (M := Rabs X' + Rabs Z' + 2). assert (PM : 0 < M) by (unfold M; assert (0 <= Rabs X') by apply Rabs_pos; assert (0 <= Rabs Z') by apply Rabs_pos; lra).
  set (K := Rabs px + Rabs pz + 1). assert (PK : 0 < K) by (unfold K; assert (0 <= Rabs px) by apply Rabs_pos; assert (0 <= Rabs pz) by apply Rabs_pos; lra).
  destruct (D (eps / (2 * M))) as (del & Pd & Hd). { apply Rdiv_lt_0_compat; lra. }
  set (e1 := Rmin 1 (eps / (4 * K))). assert (Pe1 : 0 < e1). { apply Rmin_glb_lt; [lra|]. apply Rdiv_lt_0_compat; lra. }
  destruct (HX e1 Pe1) as [dX HdX]. destruct (HZ e1 Pe1) as [dZ HdZ].
  assert (Pm : 0 < Rmin (Rmin dX dZ) (del / M)).
  { apply Rmin_glb_lt; [apply Rmin_glb_lt; [apply cond_pos|apply cond_pos]|apply Rdiv_lt_0_compat; lra]. }
  exists (mkposreal _ Pm). intros h Nh Hh. cbn [pos] in Hh.
  assert (h1 : Rabs h < dX). { eapply Rlt_le_trans; [exact Hh|]. eapply Rle_trans; [apply Rmin_l|apply Rmin_l]. }
  assert (h2 : Rabs h < dZ). { eapply Rlt_le_trans; [exact Hh|]. eapply Rle_trans; [apply Rmin_l|apply Rmin_r]. }
  assert (h3 : Rabs h < del / M). { eapply Rlt_le_trans; [exact Hh|]. apply Rmin_r. }
  specialize (HdX h Nh h1). specialize (HdZ h Nh h2).
  assert (Ph : 0 < Rabs h) by now apply Rabs_pos_lt.
  set (u := X (s + h) - X s) in *. set (v := Z (s + h) - Z s) in *.
  assert (E1 : e1 <= 1) by apply Rmin_l. assert (E2 : e1 <= eps / (4 * K)) by apply Rmin_r.
  assert (U : Rabs (u - X' * h) <= e1 * Rabs h).
  { replace (u - X' * h) with ((u / h - X') * h) by (field; exact Nh). rewrite Rabs_mult. apply Rmult_le_compat_r; lra. }
  assert (V : Rabs (v - Z' * h) <= e1 * Rabs h).
  { replace (v - Z' * h) with ((v / h - Z') * h) by (field; exact Nh). rewrite Rabs_mult. apply Rmult_le_compat_r; lra. }
  assert (Ub : Rabs u <= (Rabs X' + 1) * Rabs h).
  { replace u with ((u - X' * h) + X' * h) by ring. eapply Rle_trans; [apply Rabs_triang|]. rewrite Rabs_mult. nra. }
  assert (Vb : Rabs v <= (Rabs Z' + 1) * Rabs h).
  { replace v with ((v - Z' * h) + Z' * h) by ring. eapply Rle_trans; [apply Rabs_triang|]. rewrite Rabs_mult. nra. }
  assert (Mh : M * Rabs h < del). { apply (Rmult_lt_compat_r M) in h3; [|exact PM]. unfold Rdiv in h3. rewrite Rmult_assoc, Rinv_l, Rmult_1_r in h3 by lra. lra. }
  assert (BX : 0 <= Rabs X') by apply Rabs_pos. assert (BZ : 0 <= Rabs Z') by apply Rabs_pos.
  assert (Dh := Hd u v). replace (X s + u) with (X (s + h)) in Dh by (unfold u; ring). replace (Z s + v) with (Z (s + h)) in Dh by (unfold v; ring).
  specialize (Dh ltac:(unfold M in Mh; nra) ltac:(unfold M in Mh; nra)).
  set (rem := psi (X (s + h)) (Z (s + h)) - psi (X s) (Z s) - px * u - pz * v) in *.
  replace ((psi (X (s + h)) (Z (s + h)) - psi (X s) (Z s)) / h - (px * X' + pz * Z')) with ((rem + px * (u - X' * h) + pz * (v - Z' * h)) / h) by (unfold rem; field; exact Nh).
  unfold Rdiv. rewrite Rabs_mult, Rabs_inv.
  apply (Rmult_lt_reg_r (Rabs h)); [exact Ph|]. rewrite Rmult_assoc, Rinv_l, Rmult_1_r by lra.
  eapply Rle_lt_trans; [eapply Rle_trans; [apply Rabs_triang|apply Rplus_le_compat_r, Rabs_triang]|].
  rewrite !Rabs_mult.
  assert (T1 : Rabs rem <= eps / 2 * Rabs h).
  { eapply Rle_trans; [exact Dh|]. assert (Rabs u + Rabs v <= M * Rabs h) by (unfold M; lra).
    apply Rle_trans with (eps / (2 * M) * (M * Rabs h)).
    - apply Rmult_le_compat_l; [|assumption]. left. apply Rdiv_lt_0_compat; lra.
    - right. field. lra. }
  assert (T2 : Rabs px * Rabs (u - X' * h) + Rabs pz * Rabs (v - Z' * h) <= eps / 4 * Rabs h).
  { apply Rle_trans with ((Rabs px + Rabs pz) * (e1 * Rabs h)).
    - assert (0 <= Rabs px) by apply Rabs_pos. assert (0 <= Rabs pz) by apply Rabs_pos. nra.
    - apply Rle_trans with (K * (eps / (4 * K) * Rabs h)).
      + assert (0 <= Rabs px) by apply Rabs_pos. assert (0 <= Rabs pz) by apply Rabs_pos.
        apply Rmult_le_compat; [lra|nra|unfold K; lra|]. apply Rmult_le_compat_r; lra.
      + right. field. lra. }
  nra.
Qed.

Lemma gq_psi g X Z a b : a <= b -> field_line (gq_Bx g) (gq_By g) (gq_Bz g) (gq_R g) X Z a b ->
  (forall s, a <= s <= b -> X s <> 0 /\ differentiable2 (psi_func g) (X s) (Z s) (psi_dx g (X s) (Z s)) (psi_dy g (X s) (Z s))) ->
  psi_func g (X b) (Z b) = psi_func g (X a) (Z a).
Proof.
  intros L F D. apply (constant_on (fun s => psi_func g (X s) (Z s)) a b L). intros s Hs.
  destruct (F s Hs) as (N & HX & HZ). destruct (D s Hs) as [NX DP].
  eapply d_eq; [|apply (chain2 _ X Z s _ _ _ _ DP HX HZ)].
  unfold gq_Bx, gq_Bz, gq_R, gq_By in *. field. split; [exact NX|]. intros E. apply N. rewrite E. field. exact NX.
Qed.
Lemma gq_divergence g x z phi m : x <> 0 ->
  derivable_pt_lim (fun x' => psi_dy g x' z) x m -> derivable_pt_lim (fun z' => psi_dx g x z') z m ->
  cylindrical_divergence (gq_Bx g) (gq_By g) (gq_Bz g) x z phi 0.
Proof.
  intros N D1 D2. exists (- m), 0, (m / x). split; [|split; [exact (d_const (gq_By g x z phi) phi)|split]].
  - apply (d_local (fun x' => - psi_dy g x' z) _ _ _ (x - Rabs x / 2) (x + Rabs x / 2)).
    + assert (0 < Rabs x) by now apply Rabs_pos_lt. lra.
    + intros t T. unfold gq_Bx. field. intros ->. unfold Rabs in T. destruct (Rcase_abs x); lra.
    + apply d_opp, D1.
  - unfold gq_Bz, d_z. eapply d_eq; [|apply d_div; [exact D2|apply d_const|exact N]]. unfold Rsqr. field. exact N.
  - field. exact N.
Qed.

(** * Rotations *)
Lemma rotate_strength b phi : Bmag (Br_of b phi) (Bphi_of b phi) (snd b) = Bmag (fst (fst b)) (snd (fst b)) (snd b).
Proof.
  unfold Bmag, Br_of, Bphi_of. f_equal. assert (S := sin2_cos2 phi). unfold Rsqr in S.
  replace ((fst (fst b) * cos phi + snd (fst b) * sin phi) ^ 2 + (- fst (fst b) * sin phi + snd (fst b) * cos phi) ^ 2 + snd b ^ 2)
    with ((sin phi * sin phi + cos phi * cos phi) * (fst (fst b) ^ 2 + snd (fst b) ^ 2) + snd b ^ 2) by ring.
  rewrite S. ring.
Qed.
Lemma rotate_back b phi : Br_of b phi * cos phi - Bphi_of b phi * sin phi = fst (fst b) /\ Br_of b phi * sin phi + Bphi_of b phi * cos phi = snd (fst b).
Proof.
  unfold Br_of, Bphi_of. assert (S := sin2_cos2 phi). unfold Rsqr in S. split.
  - replace (_ - _) with (fst (fst b) * (sin phi * sin phi + cos phi * cos phi)) by ring. rewrite S. ring.
  - replace (_ + _) with (snd (fst b) * (sin phi * sin phi + cos phi * cos phi)) by ring. rewrite S. ring.
Qed.
(** ** the coils after a quarter of the period *)
Lemma coil_quarter p i c c' phi : yperiod p <> 0 -> fst (coil p (INR i / 2 * PI) c (phi + yperiod p / 4)) = fst (coil p (INR (S i) / 2 * PI) c' phi).
Proof.
  intros H. unfold coil. cbn [fst]. replace (INR i / 2 * PI + iota p * (phi + yperiod p / 4)) with (INR (S i) / 2 * PI + iota p * phi); [reflexivity|].
  unfold iota. rewrite S_INR. field. exact H.
Qed.
Lemma coil_turn p c c' phi : fst (coil p (INR 4 / 2 * PI) c phi) = fst (coil p (INR 0 / 2 * PI) c' phi).
Proof.
  unfold coil. cbn [fst]. replace (INR 4 / 2 * PI + iota p * phi) with (INR 0 / 2 * PI + iota p * phi + 2 * PI) by (cbn [INR]; field).
  assert (C : forall a, cos (a + 2 * PI) = cos a) by (intros a; pose proof (cos_period a 1) as E; cbn [INR] in E; rewrite Rmult_1_r in E; exact E).
  assert (S : forall a, sin (a + 2 * PI) = sin a) by (intros a; pose proof (sin_period a 1) as E; cbn [INR] in E; rewrite Rmult_1_r in E; exact E).
  now rewrite C, S.
Qed.
Lemma stell_quarter p x z phi : yperiod p <> 0 ->
  Afunc p x z (phi + yperiod p / 4) = - Afunc p x z phi /\ Bxfunc p x z (phi + yperiod p / 4) = - Bxfunc p x z phi /\ Bzfunc p x z (phi + yperiod p / 4) = - Bzfunc p x z phi.
Proof.
  intros H. unfold Afunc, Bxfunc, Bzfunc, A_coils, Bx_coils, Bz_coils, coil_list.
  cbn [map seq fold_left]. unfold B, r2, theta.
  rewrite !(coil_quarter p _ _ 0 phi H), !(coil_turn p 0 0 phi).
  replace (fst (coil p (INR 0 / 2 * PI) ((-1) ^ (0 mod 2) * I_coil p) phi)) with (fst (coil p (INR 0 / 2 * PI) 0 phi)) by reflexivity.
  replace (fst (coil p (INR 1 / 2 * PI) ((-1) ^ (1 mod 2) * I_coil p) phi)) with (fst (coil p (INR 1 / 2 * PI) 0 phi)) by reflexivity.
  replace (fst (coil p (INR 2 / 2 * PI) ((-1) ^ (2 mod 2) * I_coil p) phi)) with (fst (coil p (INR 2 / 2 * PI) 0 phi)) by reflexivity.
  replace (fst (coil p (INR 3 / 2 * PI) ((-1) ^ (3 mod 2) * I_coil p) phi)) with (fst (coil p (INR 3 / 2 * PI) 0 phi)) by reflexivity.
  generalize (fst (coil p (INR 0 / 2 * PI) 0 phi)), (fst (coil p (INR 1 / 2 * PI) 0 phi)), (fst (coil p (INR 2 / 2 * PI) 0 phi)), (fst (coil p (INR 3 / 2 * PI) 0 phi)).
  intros c0 c1 c2 c3. unfold coil. cbn [snd]. change (0 mod 2)%nat with 0%nat. change (1 mod 2)%nat with 1%nat. change (2 mod 2)%nat with 0%nat. change (3 mod 2)%nat with 1%nat.
  rewrite pow_O, pow_1. unfold Rdiv. repeat split; ring.
Qed.

(** ** G-EQDSK: the components *)
Lemma gq_components g x z phi : x <> 0 ->
  x * gq_Bx g x z phi = - psi_dy g x z /\ x * gq_Bz g x z phi = psi_dx g x z /\ x * gq_By g x z phi = f_spl g (psinorm_func g x z).
Proof. intros H. unfold gq_Bx, gq_Bz, gq_By. repeat split; field; exact H. Qed.
Lemma gq_rby g X Z a b h : a <= b -> field_line (gq_Bx g) (gq_By g) (gq_Bz g) (gq_R g) X Z a b ->
  (forall s, a <= s <= b -> X s <> 0 /\ differentiable2 (psi_func g) (X s) (Z s) (psi_dx g (X s) (Z s)) (psi_dy g (X s) (Z s))) ->
  (forall s, a <= s <= b -> psinorm_func g (X s) (Z s) = h (psi_func g (X s) (Z s))) ->
  X b * gq_By g (X b) (Z b) b = X a * gq_By g (X a) (Z a) a.
Proof.
  intros H F D N. destruct (gq_components g (X a) (Z a) a (proj1 (D a (conj (Rle_refl a) H)))) as (_ & _ & ->).
  destruct (gq_components g (X b) (Z b) b (proj1 (D b (conj H (Rle_refl b))))) as (_ & _ & ->).
  rewrite !N by lra. f_equal. f_equal. exact (gq_psi g X Z a b H F D).
Qed.
