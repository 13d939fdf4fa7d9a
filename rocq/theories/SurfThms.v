(** Consequences for complete grid objects. *)
From Coq Require Import String List ZArith QArith Qfield Lia Lqa Bool.
From Verif Require Import Prelude PreludeFacts GridModel MapsModel TracerModel TracerSpec TracerProofs VtkModel SurfModel SurfSpec SurfProofs.
Import ListNotations.
Open Scope list_scope.
Open Scope Q_scope.

Lemma fraction_range s n : (s < n)%nat -> (n <> 1)%nat -> 0 <= fraction s n <= 1.
Proof.
  intros H N. unfold fraction. assert (0 < inject_Z (Z.of_nat n - 1)) by (change 0 with (inject_Z 0); rewrite <- Zlt_Qlt; lia).
  assert (0 <= inject_Z (Z.of_nat s)) by (change 0 with (inject_Z 0); rewrite <- Zle_Qle; lia).
  assert (inject_Z (Z.of_nat s) <= inject_Z (Z.of_nat n - 1)) by (rewrite <- Zle_Qle; lia).
  split; [apply Qle_shift_div_l|apply Qle_shift_div_r]; lra.
Qed.
Lemma fraction_ends n : (2 <= n)%nat -> fraction 0 n == 0 /\ fraction (n - 1) n == 1.
Proof.
  intros H. unfold fraction. assert (~ inject_Z (Z.of_nat n - 1) == 0) by (intros K; unfold Qeq in K; cbn in K; lia). split.
  - now field.
  - replace (Z.of_nat (n - 1)) with (Z.of_nat n - 1)%Z by lia. now field.
Qed.

Section Surfaces.
Variable odeint : list Q -> list Q -> list (list Q).
Variable limit : nat.
Variable griddata : list (Q * Q) -> list Q -> res (Q -> Q -> Q).
Hypothesis Hl : (0 < limit)%nat.
Variable flow : Q * Q -> Q -> Q -> Q * Q.
Hypothesis Hp : pointwise odeint flow.
Variables (g : grid_object) (xc zc : Q) (xs ys zs : list Q) (x3 : nd3) (L : Q).
Hypothesis Hc : complete g xc zc xs ys zs x3 L.
Variables (n revs : nat).
Hypothesis Hr : (1 <= revs)%nat.
Hypothesis H2 : (2 <= revs * length ys)%nat.

Lemma made psi m : greatest m xs -> make_surfaces odeint limit griddata g n revs = Ok psi ->
  n0 psi = length xs /\ n1 psi = length ys /\ n2 psi = length zs /\
  forall y, (y < length ys)%nat -> exists half P v f, half == m / 2 /\ section_of flow xc zc half ys L n revs y P v /\ griddata P v = Ok f /\
    forall i k, (i < length xs)%nat -> (k < length zs)%nat -> at3 psi (Z.of_nat i) (Z.of_nat y) (Z.of_nat k) = f (nth i xs 0) (nth k zs 0).
Proof.
  intros (Im & Um) E. destruct Hc as [E1 E2 E3 E4 E5 E6 E7 E8 Nx D0 D1 D2]. destruct (amax_ok xs Nx) as (m' & Em).
  destruct (amax_spec xs m' Em) as (Im' & Um'). assert (Emm : m' == m) by (apply Qle_antisym; [now apply Um|now apply Um']).
  destruct (surfaces_spec odeint limit griddata Hl flow Hp g xc zc xs ys zs x3 L n revs psi m' E1 E2 E3 E4 E5 E6 E7 E8 Em Hr H2 D0 D2 E) as (_ & S0 & S1 & S2 & H).
  split; [congruence|]. split; [congruence|]. split; [congruence|]. intros y Hy. destruct (H y Hy) as (P & v & f & Ef & L1 & L2 & Hs & Hf).
  exists ((1 # 2) * m'), P, v, f. split; [rewrite Emm; field|]. split; [split; [exact L1|split; [exact L2|exact Hs]]|]. split; [exact Ef|exact Hf].
Qed.
Lemma not_one psi : make_surfaces odeint limit griddata g n revs = Ok psi -> n <> 1%nat.
Proof.
  intros E ->. destruct Hc as [E1 E2 E3 E4 E5 E6 E7 E8 Nx D0 D1 D2].
  rewrite (one_surface odeint limit griddata Hl flow Hp g xc zc xs ys L revs E1 E2 E3 E4 E7 E8 Nx Hr H2) in E. discriminate.
Qed.
Lemma in_range psi : (forall P v f, griddata P v = Ok f -> (forall a, In a v -> 0 <= a <= 1) -> forall x z, 0 <= f x z <= 1) ->
  make_surfaces odeint limit griddata g n revs = Ok psi ->
  forall i y k, (i < length xs)%nat -> (y < length ys)%nat -> (k < length zs)%nat -> 0 <= at3 psi (Z.of_nat i) (Z.of_nat y) (Z.of_nat k) <= 1.
Proof.
  intros HG E i y k Hi Hy Hk. destruct (amax_ok xs (c_points _ _ _ _ _ _ _ _ Hc)) as (m & Em). pose proof (not_one psi E) as N1.
  destruct (made psi m (amax_spec xs m Em) E) as (_ & _ & _ & H). destruct (H y Hy) as (half & P & v & f & _ & (L1 & L2 & Hs) & Ef & Hf).
  rewrite Hf by assumption. apply (HG P v f Ef). intros a Ha. apply (In_nth _ _ 0) in Ha. destruct Ha as (q & Hq & <-). rewrite L2 in Hq.
  assert (Hn : n <> 0%nat) by (intros ->; lia). pose proof (Nat.mod_upper_bound q n Hn) as Hm. assert (Hd : (q / n < revs)%nat) by (apply Nat.div_lt_upper_bound; lia).
  destruct (Hs (q / n)%nat (q mod n)%nat Hd Hm) as (x & t & _ & _ & _ & Ev).
  replace (q / n * n + q mod n)%nat with q in Ev by (rewrite (Nat.div_mod q n Hn) at 1; lia). rewrite Ev. now apply fraction_range.
Qed.
Lemma outside psi : (forall a, In a xs -> a / 2 < xc) -> make_surfaces odeint limit griddata g n revs = Ok psi -> (2 <= n)%nat ->
  forall y, (y < length ys)%nat -> exists P v f, griddata P v = Ok f /\
    forall r, (r < revs)%nat -> exists x t, (forall a, In a xs -> a < x) /\ nth (r * n + (n - 1)) P (0, 0) = flow (x, zc) (hd 0 ys) t /\ nth (r * n + (n - 1)) v 0 == 1.
Proof.
  intros Hx E Hn y Hy. destruct (amax_ok xs (c_points _ _ _ _ _ _ _ _ Hc)) as (m & Em). destruct (amax_spec xs m Em) as (Im & Um).
  destruct (made psi m (conj Im Um) E) as (_ & _ & _ & H). destruct (H y Hy) as (half & P & v & f & Eh & (L1 & L2 & Hs) & Ef & _).
  exists P, v, f. split; [exact Ef|]. intros r Hr'. destruct (Hs r (n - 1)%nat Hr' ltac:(lia)) as (x & t & Ex & _ & EP & Ev). exists x, t. split; [|split; [exact EP|]].
  - intros a Ha. rewrite Ex, (proj2 (fraction_ends n Hn)), Eh. specialize (Hx m Im). specialize (Um a Ha). change (m / 2) with (m * (1 # 2)) in Hx. change (m / 2) with (m * (1 # 2)). lra.
  - rewrite Ev. apply fraction_ends. exact Hn.
Qed.
Lemma makes : n <> 1%nat -> (forall P v, length P = length v -> exists f, griddata P v = Ok f) -> exists psi, make_surfaces odeint limit griddata g n revs = Ok psi.
Proof. intros N HG. destruct Hc as [E1 E2 E3 E4 E5 E6 E7 E8 Nx D0 D1 D2]. exact (surfaces_ok odeint limit griddata Hl flow Hp g xc zc xs ys zs x3 L n revs E1 E2 E3 E4 E5 E6 E7 E8 Nx Hr H2 D0 D1 D2 N HG). Qed.
End Surfaces.

Lemma one_refused odeint limit griddata flow g xc zc xs ys zs x3 L revs : (0 < limit)%nat -> pointwise odeint flow -> complete g xc zc xs ys zs x3 L -> (1 <= revs)%nat -> (2 <= revs * length ys)%nat ->
  make_surfaces odeint limit griddata g 1 revs = Err ZeroDivisionError.
Proof. intros Hl Hp [E1 E2 E3 E4 E5 E6 E7 E8 Nx D0 D1 D2] Hr H2. exact (one_surface odeint limit griddata Hl flow Hp g xc zc xs ys L revs E1 E2 E3 E4 E7 E8 Nx Hr H2). Qed.

Lemma vtk_written odeint limit griddata g xc zc xs ys zs x3 L f bx by_ bz scale (psi : bool) surf : complete g xc zc xs ys zs x3 L -> o_bx f = Some bx -> o_by f = Some by_ -> o_bz f = Some bz ->
  (psi = true -> make_surfaces odeint limit griddata g 10 100 = Ok surf) ->
  exists w, write_Bfield_to_vtk odeint limit griddata true g f scale psi = Ok (w, if psi then Some surf else None) /\
    v_x w = map (fun x => x * scale) xs /\ v_y w = ys /\ v_z w = map (fun z => z * scale) zs /\
    let '(wx, wy, wz) := v_B w in wy = by_ /\ forall i j k, at3 wx i j k = at3 bx i j k * scale /\ at3 wz i j k = at3 bz i j k * scale.
Proof.
  intros [E1 E2 E3 E4 E5 E6 E7 E8 Nx D0 D1 D2] F1 F2 F3 Hm. unfold write_Bfield_to_vtk. rewrite F1, F2, F3. cbn [attr bind]. destruct psi.
  - rewrite (Hm eq_refl). cbn [bind negb]. rewrite E3, E4, E5. cbn [attr bind]. eexists. split; [reflexivity|]. cbn. repeat split.
  - cbn [bind negb]. rewrite E3, E4, E5. cbn [attr bind]. eexists. split; [reflexivity|]. cbn. repeat split.
Qed.

(** a small grid *)
Definition w_nd n0 n1 n2 f := {| VtkModel.n0 := n0; VtkModel.n1 := n1; VtkModel.n2 := n2; at3 := f |}.
Definition w_grid : grid_object :=
  {| o_xcentre := Some 5; o_zcentre := Some 0; o_xarray := Some [4; 6]; o_yarray := Some [0; 1; 2]; o_zarray := Some [-1; 0; 1];
     o_x_3d := Some (w_nd 2 3 3 (fun _ _ _ => 7)); o_ny := Some 3%nat; o_Ly := Some 3 |}.
Lemma w_complete : complete w_grid 5 0 [4; 6] [0; 1; 2] [-1; 0; 1] (w_nd 2 3 3 (fun _ _ _ => 7)) 3.
Proof. constructor; try reflexivity. discriminate. Qed.
