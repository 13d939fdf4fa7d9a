(** Properties C98 and C99. *)
From Coq Require Import String List ZArith QArith Bool Lia.
From Verif Require Import Prelude GridModel TracerModel TracerSpec TracerWitness VtkModel SurfModel SurfSpec SurfProofs SurfThms.
Import ListNotations.
Open Scope list_scope.
Open Scope Q_scope.

(** C98: for an object with the attributes that make_surfaces reads, psi in a slice is the interpolation of the numbers (0 to 1) of the
    surfaces from the points where their lines meet the slice, one for each revolution; *)
Theorem C98_surfaces_partial odeint limit griddata flow g xc zc xs ys zs x3 L n revs psi m : (0 < limit)%nat -> pointwise odeint flow -> complete g xc zc xs ys zs x3 L ->
  (1 <= revs)%nat -> (2 <= revs * length ys)%nat -> greatest m xs -> make_surfaces odeint limit griddata g n revs = Ok psi ->
  n0 psi = length xs /\ n1 psi = length ys /\ n2 psi = length zs /\
  forall y, (y < length ys)%nat -> exists half P v f, half == m / 2 /\ section_of flow xc zc half ys L n revs y P v /\ griddata P v = Ok f /\
    forall i k, (i < length xs)%nat -> (k < length zs)%nat -> at3 psi (Z.of_nat i) (Z.of_nat y) (Z.of_nat k) = f (nth i xs 0) (nth k zs 0).
Proof. exact (fun Hl Hp Hc Hr H2 => made odeint limit griddata Hl flow Hp g xc zc xs ys zs x3 L Hc n revs Hr H2 psi m). Qed.
Print Assumptions C98_surfaces_partial.
(** it fails only with the interpolation, or for a single surface; *)
Theorem C98_succeeds odeint limit griddata flow g xc zc xs ys zs x3 L n revs : (0 < limit)%nat -> pointwise odeint flow -> complete g xc zc xs ys zs x3 L ->
  (1 <= revs)%nat -> (2 <= revs * length ys)%nat -> n <> 1%nat -> (forall P v, length P = length v -> exists f, griddata P v = Ok f) ->
  exists psi, make_surfaces odeint limit griddata g n revs = Ok psi.
Proof. exact (fun Hl Hp Hc Hr H2 => makes odeint limit griddata Hl flow Hp g xc zc xs ys zs x3 L Hc n revs Hr H2). Qed.
Print Assumptions C98_succeeds.
Theorem C98_single_refuted odeint limit griddata flow g xc zc xs ys zs x3 L revs : (0 < limit)%nat -> pointwise odeint flow -> complete g xc zc xs ys zs x3 L ->
  (1 <= revs)%nat -> (2 <= revs * length ys)%nat -> make_surfaces odeint limit griddata g 1 revs = Err ZeroDivisionError.
Proof. exact (one_refused odeint limit griddata flow g xc zc xs ys zs x3 L revs). Qed.
Print Assumptions C98_single_refuted.
(** with an interpolation that does not leave the range of the values and of the fill value 1, psi is between 0 and 1; *)
Theorem C98_range odeint limit griddata flow g xc zc xs ys zs x3 L n revs psi : (0 < limit)%nat -> pointwise odeint flow -> complete g xc zc xs ys zs x3 L ->
  (1 <= revs)%nat -> (2 <= revs * length ys)%nat -> (forall P v f, griddata P v = Ok f -> (forall a, In a v -> 0 <= a <= 1) -> forall x z, 0 <= f x z <= 1) ->
  make_surfaces odeint limit griddata g n revs = Ok psi ->
  forall i y k, (i < length xs)%nat -> (y < length ys)%nat -> (k < length zs)%nat -> 0 <= at3 psi (Z.of_nat i) (Z.of_nat y) (Z.of_nat k) <= 1.
Proof. exact (fun Hl Hp Hc Hr H2 => in_range odeint limit griddata Hl flow Hp g xc zc xs ys zs x3 L Hc n revs Hr H2 psi). Qed.
Print Assumptions C98_range.
(** if the centre is beyond half of the largest x, the outermost surface starts outside of the grid. *)
Theorem C98_outside_refuted odeint limit griddata flow g xc zc xs ys zs x3 L n revs psi : (0 < limit)%nat -> pointwise odeint flow -> complete g xc zc xs ys zs x3 L ->
  (1 <= revs)%nat -> (2 <= revs * length ys)%nat -> (forall a, In a xs -> a / 2 < xc) -> make_surfaces odeint limit griddata g n revs = Ok psi -> (2 <= n)%nat ->
  forall y, (y < length ys)%nat -> exists P v f, griddata P v = Ok f /\
    forall r, (r < revs)%nat -> exists x t, (forall a, In a xs -> a < x) /\ nth (r * n + (n - 1)) P (0, 0) = flow (x, zc) (hd 0 ys) t /\ nth (r * n + (n - 1)) v 0 == 1.
Proof. exact (fun Hl Hp Hc Hr H2 => outside odeint limit griddata Hl flow Hp g xc zc xs ys zs x3 L Hc n revs Hr H2 psi). Qed.
Print Assumptions C98_outside_refuted.
(** write_Bfield_to_vtk writes the components with x and z stretched, *)
Theorem C98_written odeint limit griddata g xc zc xs ys zs x3 L f bx by_ bz scale (psi : bool) surf : complete g xc zc xs ys zs x3 L -> o_bx f = Some bx -> o_by f = Some by_ -> o_bz f = Some bz ->
  (psi = true -> make_surfaces odeint limit griddata g 10 100 = Ok surf) ->
  exists w, write_Bfield_to_vtk odeint limit griddata true g f scale psi = Ok (w, if psi then Some surf else None) /\
    v_x w = map (fun x => x * scale) xs /\ v_y w = ys /\ v_z w = map (fun z => z * scale) zs /\
    let '(wx, wy, wz) := v_B w in wy = by_ /\ forall i j k, at3 wx i j k = at3 bx i j k * scale /\ at3 wz i j k = at3 bz i j k * scale.
Proof. exact (vtk_written odeint limit griddata g xc zc xs ys zs x3 L f bx by_ bz scale psi surf). Qed.
Print Assumptions C98_written.
(** but without pyevtk it raises NameError, *)
Theorem C98_not_installed odeint limit griddata g f bx by_ bz scale : o_bx f = Some bx -> o_by f = Some by_ -> o_bz f = Some bz ->
  write_Bfield_to_vtk odeint limit griddata false g f scale false = Err NameError.
Proof. intros E1 E2 E3. unfold write_Bfield_to_vtk. rewrite E1, E2, E3. reflexivity. Qed.
Print Assumptions C98_not_installed.
(** and with a Grid both raise AttributeError, always, *)
Theorem C98_grid_refuted odeint limit griddata have_evtk {G} (g : grid G) f scale psi n revs :
  make_surfaces odeint limit griddata (of_grid g) n revs = Err OtherError /\ (psi = true \/ have_evtk = true \/ o_bx f = None -> write_Bfield_to_vtk odeint limit griddata have_evtk (of_grid g) f scale psi = Err OtherError).
Proof.
  split; [reflexivity|]. unfold write_Bfield_to_vtk. destruct (o_bx f), (o_by f), (o_bz f), psi, have_evtk; intros [H|[H|H]]; try discriminate; reflexivity.
Qed.
Print Assumptions C98_grid_refuted.

Example C98_example : complete w_grid 5 0 [4; 6] [0; 1; 2] [-1; 0; 1] (w_nd 2 3 3 (fun _ _ _ => 7)) 3 /\ pointwise w_odeint w_flow /\ greatest 6 [4; 6] /\
  (forall a, In a [4; 6] -> a / 2 < 5) /\
  match make_surfaces w_odeint 1000 (fun P v => Ok (fun x z => nth 5 v 0 + 10 * fst (nth 5 P (0, 0)) + 1000 * snd (nth 5 P (0, 0)) + 100000 * z)) w_grid 3 2 with
  | Ok psi => (n0 psi, n1 psi, n2 psi) = (2, 3, 3)%nat /\ at3 psi 1 2 2 == 140081 /\ at3 psi 0 1 0 == -(67919 # 1)
  | Err _ => False
  end.
Proof.
  split; [exact w_complete|]. split; [exact w_pointwise|]. split; [split; [now right; left|]|split].
  - intros a [<-|[<-|[]]]; discriminate.
  - intros a [<-|[<-|[]]]; reflexivity.
  - vm_compute. repeat split.
Qed.

(** C99: plot_streamlines hands over the components in the slice, row by row in z, and lines as wide as the field in the plane, relative to its
    largest value in the whole grid; *)
Theorem C99_streams_partial sqrt g f y width xarray zarray bx bz by_ bm : o_xarray g = Some xarray -> o_zarray g = Some zarray -> o_bx f = Some bx -> o_bz f = Some bz -> o_by f = Some by_ -> o_b_mag f = Some bm ->
  n1 bz = n1 bx -> n0 bm = n0 bx -> n1 bm = n1 bx -> n2 bm = n2 bx -> (0 < n0 bx)%nat -> (0 < n2 bx)%nat -> (- Z.of_nat (n1 bx) <= y < Z.of_nat (n1 bx))%Z ->
  let j := (y mod Z.of_nat (n1 bx))%Z in
  let w i j k := sqrt (at3 bm i j k * at3 bm i j k - at3 by_ i j k * at3 by_ i j k) in
  exists s, plot_streamlines sqrt true g f y width = Ok s /\ s_x s = xarray /\ s_z s = zarray /\
    (forall r c, s_u s r c = at3 bx c j r /\ s_v s r c = at3 bz c j r) /\
    match width with
    | None => forall r c, s_width s r c = 1
    | Some q => exists m, (exists i l k, (0 <= i < Z.of_nat (n0 bx))%Z /\ (0 <= l < Z.of_nat (n1 bx))%Z /\ (0 <= k < Z.of_nat (n2 bx))%Z /\ m = w i l k) /\
        (forall i l k, (0 <= i < Z.of_nat (n0 bx))%Z -> (0 <= l < Z.of_nat (n1 bx))%Z -> (0 <= k < Z.of_nat (n2 bx))%Z -> w i l k <= m) /\
        forall r c, s_width s r c = q * (w c j r / m)
    end.
Proof. exact (streams_spec sqrt g f y width xarray zarray bx bz by_ bm). Qed.
Print Assumptions C99_streams_partial.
(** for a Grid it raises AttributeError, always, and so it does without matplotlib. *)
Theorem C99_grid_refuted sqrt {G} (g : grid G) f y : plot_streamlines sqrt true (of_grid g) f y None = Err OtherError.
Proof. reflexivity. Qed.
Print Assumptions C99_grid_refuted.
Theorem C99_unavailable_refuted sqrt g f y width : plot_streamlines sqrt false g f y width = Err OtherError.
Proof. reflexivity. Qed.
Print Assumptions C99_unavailable_refuted.
Theorem C99_no_slice sqrt g f y xarray zarray bx : o_xarray g = Some xarray -> o_zarray g = Some zarray -> o_bx f = Some bx -> ~ (- Z.of_nat (n1 bx) <= y < Z.of_nat (n1 bx))%Z ->
  plot_streamlines sqrt true g f y None = Err IndexError.
Proof. intros E1 E2 E3 H. unfold plot_streamlines. cbn [negb bind]. rewrite E1, E2, E3. cbn [attr bind]. now rewrite (slice_T_err bx y H). Qed.
Print Assumptions C99_no_slice.
(** AnimateVectorField shows the first frame, and then every frame in order, row by row in the last dimension. *)
Theorem C99_animated U V : (0 < n0 U)%nat -> (n0 U <= n0 V)%nat ->
  exists frames, animate true U V = Ok frames /\ length frames = S (n0 U) /\
    forall k, (k <= n0 U)%nat -> forall r c, let n := Z.of_nat (k - 1) in
      fst (nth k frames (fun _ _ => 0, fun _ _ => 0)) r c = at3 U n c r /\ snd (nth k frames (fun _ _ => 0, fun _ _ => 0)) r c = at3 V n c r.
Proof. exact (animated U V). Qed.
Print Assumptions C99_animated.
Theorem C99_no_frames U V : n0 U = 0%nat -> animate true U V = Err IndexError.
Proof. intros E. unfold animate, quiver, frame. rewrite E. reflexivity. Qed.
Print Assumptions C99_no_frames.
Theorem C99_no_matplotlib U V : animate false U V = Err NameError.
Proof. reflexivity. Qed.
Print Assumptions C99_no_matplotlib.
Example C99_example : let a c := w_nd 2 3 2 (fun i j k => inject_Z (c * (1 + i + 10 * j + 100 * k))) in
  match plot_streamlines (fun q => q) true w_grid {| o_bx := Some (a 1%Z); o_by := Some (a 2%Z); o_bz := Some (a 3%Z); o_b_mag := Some (a 4%Z) |} (-1) (Some 5) with
  | Ok s => s_u s 1 0 == 121 /\ s_v s 0 1 == 66 /\ s_width s 1 1 == 5
  | Err _ => False
  end.
Proof. vm_compute. repeat split. Qed.
