(** Properties C96 and C97. *)
From Coq Require Import String List ZArith QArith Bool Lia.
From Verif Require Import Prelude NamingModel GridModel GridSpec MapsModel MapsSpec MapsMain MapsExamples TracerModel TracerSpec TracerWitness PlotModel PlotSpec PlotProofs PlotLines PlotMaps.
Import ListNotations.
Open Scope Q_scope.

(** C96: the maps of slice y (counted from the end if negative) with the grid points of the next slice (the last one for the backward map); the cells marked
    as inner boundary are those with a negative index, those marked as outer boundary have one above nx - 1/2. *)
Theorem C96_shows (G : Type) (pR pZ : G -> arr2) (pnx pnz : G -> nat) forward (g : grid G) d y p yn aR aZ ax p0 rest :
  well_formed g -> (- ny g <= y < ny g)%Z -> poloidal_grids g = p0 :: rest ->
  getPoloidalGrid g (inject_Z (y + step forward)) = Ok (Some p, yn) ->
  d (prefix forward ++ "_R")%string = Some (VArr aR) -> d (prefix forward ++ "_Z")%string = Some (VArr aZ) -> d (prefix forward ++ "_xt_prime")%string = Some (VArr ax) ->
  let j := (y mod ny g)%Z in
  let R := fun x z => aR x j z 0%Z in let Zc := fun x z => aZ x j z 0%Z in
  exists s1 s2 s3 s4, plot_map G pR pZ pnx pnz true forward g d y = Ok [s1; s2; s3; s4] /\
    shows s1 (pnx p) (pnz p) (pR p) (pZ p) (fun _ _ => True) /\ shows s2 (pnx p0) (pnz p0) R Zc (fun _ _ => True) /\
    shows s3 (pnx p0) (pnz p0) R Zc (fun x z => ax x j z 0%Z < 0) /\
    shows s4 (pnx p0) (pnz p0) R Zc (fun x z => inject_Z (Z.of_nat (pnx p0)) - (1 # 2) < ax x j z 0%Z) /\
    style s1 = "bx"%string /\ style s2 = "ro"%string /\ style s3 = "ko"%string /\ style s4 = "bo"%string /\
    label s1 = "Grid points on slice {0}"%string /\ number s1 = Some (y + step forward)%Z /\
    label s2 = (if forward then "Forward map from slice {0}" else "Backward map from slice {0}")%string /\ number s2 = Some y /\
    label s3 = "Inner boundary points"%string /\ label s4 = "Outer boundary points"%string.
Proof. exact (map_shown pR pZ pnx pnz forward g d y p yn aR aZ ax p0 rest). Qed.
Print Assumptions C96_shows.

(** Slices that do not exist, and no matplotlib. *)
Theorem C96_no_slice (G : Type) (pR pZ : G -> arr2) (pnx pnz : G -> nat) forward (g : grid G) d y yn : well_formed g ->
  getPoloidalGrid g (inject_Z (y + step forward)) = Ok (None, yn) -> plot_map G pR pZ pnx pnz true forward g d y = Err OtherError.
Proof. exact (map_no_slice pR pZ pnx pnz forward g d y yn). Qed.
Print Assumptions C96_no_slice.
Theorem C96_no_row (G : Type) (pR pZ : G -> arr2) (pnx pnz : G -> nat) forward (g : grid G) d y p yn a : well_formed g -> ~ (- ny g <= y < ny g)%Z ->
  getPoloidalGrid g (inject_Z (y + step forward)) = Ok (Some p, yn) -> d (prefix forward ++ "_R")%string = Some (VArr a) ->
  plot_map G pR pZ pnx pnz true forward g d y = Err IndexError.
Proof. exact (map_no_row pR pZ pnx pnz forward g d y p yn a). Qed.
Print Assumptions C96_no_row.
Theorem C96_unavailable_refuted (G : Type) (pR pZ : G -> arr2) (pnx pnz : G -> nat) forward (g : grid G) d y : plot_map G pR pZ pnx pnz false forward g d y = Err OtherError.
Proof. reflexivity. Qed.
Print Assumptions C96_unavailable_refuted.

Section MakeMaps.
Variable repr : Q -> string.
Context {G : Type}.
Variable pR pZ : G -> arr2.
Variable pnx pnz : G -> nat.
Variable findIndex : G -> arr2 -> arr2 -> arr2 * arr2.
Variable trace : arr2 -> arr2 -> list Q -> list (arr2 * arr2).
Variable outside : arr2 -> Q -> arr2 -> Z -> Z -> bool.
Variable Byfunc : Q -> Q -> Q -> Q.
Variable roots_jacobi : nat -> list Q * list Q.
Variable fll : list (Q * Q) -> list Q -> Q.
Variable Jperp : G -> Z -> Z -> Q.
Variable is_slab : bool.
Variable flow : arr2 -> arr2 -> Q -> Q -> arr2 * arr2.
Variable t1 : Q -> Q -> list Q -> list (Q * Q).
Hypothesis Hflow : follows trace flow.
Hypothesis Ht : MapsSpec.pointwise trace t1.
Hypothesis Hroots : forall n, length (fst (roots_jacobi n)) = n.
Variable g : grid G.
Hypothesis Wg : well_formed g.
Variables (nslice mxg spd : Z) (refine : nat).
Hypothesis Hns : (1 <= nslice)%Z.
Hypothesis Hspd : (1 <= spd)%Z.
Hypothesis Hacc : weights_accepted roots_jacobi spd = true.
Hypothesis Href : (1 <= refine)%nat.
Notation run := (make_maps repr G pR pZ pnx pnz findIndex trace outside Byfunc roots_jacobi fll Jperp is_slab g nslice mxg spd refine).

(** For the maps of make_maps: the ends of the lines, marked as inner boundary where the end is outside of the field's boundary or its index is negative, *)
Theorem C96_make_maps_partial : forall n_chunks junk d forward y p0 rest pol yj p yn, n_chunks <> 0%nat -> run n_chunks junk = Ok d -> (0 <= y < ny g)%Z ->
  poloidal_grids g = p0 :: rest -> getPoloidalGrid g (inject_Z y) = Ok (Some pol, yj) -> getPoloidalGrid g (inject_Z (y + step forward)) = Ok (Some p, yn) ->
  let c := flow (pR pol) (pZ pol) yj yn in let xi := fst (findIndex p (fst c) (snd c)) in
  exists yb s1 s2 s3 s4, y_of g y (OInt (nslice * step forward)) yb /\ plot_map G pR pZ pnx pnz true forward g d y = Ok [s1; s2; s3; s4] /\
    shows s1 (pnx p) (pnz p) (pR p) (pZ p) (fun _ _ => True) /\ shows s2 (pnx p0) (pnz p0) (fst c) (snd c) (fun _ _ => True) /\
    shows s3 (pnx p0) (pnz p0) (fst c) (snd c) (fun x z => outside (fst c) yb (snd c) x z = true \/ xi x z < 0) /\
    shows s4 (pnx p0) (pnz p0) (fst c) (snd c) (fun x z => outside (fst c) yb (snd c) x z = false /\ inject_Z (Z.of_nat (pnx p0)) - (1 # 2) < xi x z) /\
    label s3 = "Inner boundary points"%string /\ label s4 = "Outer boundary points"%string.
Proof. exact (plotted repr pR pZ pnx pnz findIndex trace outside Byfunc roots_jacobi fll Jperp is_slab flow t1 Hflow Ht Hroots g Wg nslice mxg spd refine Hns Hspd Hacc Href). Qed.
(** so also a line that ends beyond the outer boundary. *)
Theorem C96_outer_refuted : forall n_chunks junk d forward y p0 rest pol yj p yn x z, n_chunks <> 0%nat -> run n_chunks junk = Ok d -> (0 <= y < ny g)%Z ->
  poloidal_grids g = p0 :: rest -> getPoloidalGrid g (inject_Z y) = Ok (Some pol, yj) -> getPoloidalGrid g (inject_Z (y + step forward)) = Ok (Some p, yn) ->
  let c := flow (pR pol) (pZ pol) yj yn in let xi := fst (findIndex p (fst c) (snd c)) in
  (0 <= x < Z.of_nat (pnx p0))%Z -> (0 <= z < Z.of_nat (pnz p0))%Z -> inject_Z (Z.of_nat (pnx p0)) <= xi x z ->
  (forall yb, outside (fst c) yb (snd c) x z = true) ->
  exists s1 s2 s3 s4, plot_map G pR pZ pnx pnz true forward g d y = Ok [s1; s2; s3; s4] /\ label s3 = "Inner boundary points"%string /\ In (fst c x z, snd c x z) (pts s3).
Proof.
  intros n_chunks junk d forward y p0 rest pol yj p yn x z H1 H2 H3 H4 H5 H6 c xi Hx Hz _ Ho.
  destruct (C96_make_maps_partial n_chunks junk d forward y p0 rest pol yj p yn H1 H2 H3 H4 H5 H6) as (yb & s1 & s2 & s3 & s4 & _ & E & _ & _ & (cells & _ & Hc & Ep) & _ & L & _).
  exists s1, s2, s3, s4. split; [exact E|]. split; [exact L|]. rewrite Ep.
  exact (in_map (fun cl => (fst c (fst cl) (snd cl), snd c (fst cl) (snd cl))) cells (x, z) (proj2 (Hc x z) (conj Hx (conj Hz (or_introl (Ho yb)))))).
Qed.
End MakeMaps.
Print Assumptions C96_make_maps_partial.
Print Assumptions C96_outer_refuted.

Example C96_example : let g := {| poloidal_grids := [tt; tt; tt]; ycoords := [0; 1; 2]; Ly := 3; yperiodic := true |} in
  let a : string -> MapsModel.dict := fun k k' => if String.eqb k' (k ++ "_R") then Some (VArr (fun x y z _ => inject_Z (x + 10 * y))) else if String.eqb k' (k ++ "_Z") then Some (VArr (fun x y z _ => inject_Z (z + 10 * y)))
     else if String.eqb k' (k ++ "_xt_prime") then Some (VArr (fun x y z _ => inject_Z (2 * x - 1))) else None in
  well_formed g /\
  match plot_map unit (fun _ x _ => inject_Z x) (fun _ _ z => inject_Z z) (fun _ => 3%nat) (fun _ => 2%nat) true false g (a "backward"%string) (-1) with
  | Ok [_; s2; s3; s4] => length (pts s2) = 6%nat /\ pts s3 = [(20, 20); (20, 21)] /\ pts s4 = [(22, 20); (22, 21)]
  | _ => False
  end.
Proof. split; [split; [reflexivity|cbn; lia]|]. vm_compute. repeat split. Qed.

(** C97: every slice in a colour of its own, the one of its entry in the legend: where the lines meet the slice, once for each revolution; *)
Theorem C97_poincare_partial odeint limit flow x z yperiod nplot y_slices revs nover slices sh fx fz :
  (0 < limit)%nat -> pointwise odeint flow -> wf x -> wf z -> starts x z sh fx fz ->
  choose_slices yperiod nplot y_slices = Ok slices -> (1 <= revs)%Z -> (1 <= nover)%Z ->
  (2 <= Z.to_nat revs * length slices)%nat -> (length slices <= 6)%nat -> (length sh <= 1)%nat ->
  exists lines legend, plot_poincare odeint limit true x z yperiod nplot y_slices revs nover = Ok (lines, legend) /\ length lines = length slices /\ length legend = length slices /\
    NoDup (map snd legend) /\
    forall k, (k < length slices)%nat -> exists r z col, nth_error lines k = Some (r, z, col) /\ nth_error legend k = Some (nth k slices 0, col) /\
      shape r = (Z.to_nat revs :: sh)%list /\ shape z = (Z.to_nat revs :: sh)%list /\ wf r /\ wf z /\
      forall n idx, (n < Z.to_nat revs)%nat -> valid sh idx -> exists y, y == nth k slices 0 + inject_Z (Z.of_nat n) * yperiod /\
        (get r (n :: idx)%list, get z (n :: idx)%list) = flow (fx idx, fz idx) (nth 0 slices 0) y.
Proof. exact (fun Hl Hp Hx Hz Hs => poincare_drawn odeint limit Hl flow Hp x z sh fx fz Hx Hz Hs yperiod nplot y_slices revs nover slices). Qed.
Print Assumptions C97_poincare_partial.
(** more than six slices raise TypeError. *)
Theorem C97_many_refuted odeint limit flow x z yperiod nplot y_slices revs nover slices sh fx fz :
  (0 < limit)%nat -> pointwise odeint flow -> wf x -> wf z -> starts x z sh fx fz ->
  choose_slices yperiod nplot y_slices = Ok slices -> (1 <= revs)%Z -> (1 <= nover)%Z ->
  (2 <= Z.to_nat revs * length slices)%nat -> (6 < length slices)%nat -> plot_poincare odeint limit true x z yperiod nplot y_slices revs nover = Err TypeError.
Proof. exact (fun Hl Hp Hx Hz Hs => poincare_many odeint limit Hl flow Hp x z sh fx fz Hx Hz Hs yperiod nplot y_slices revs nover slices). Qed.
Print Assumptions C97_many_refuted.
(** Starting positions given as a grid, which the tracer follows, cannot be drawn: matplotlib raises ValueError. *)
Theorem C97_grid_refuted odeint limit flow x z yperiod nplot y_slices revs nover slices sh fx fz :
  (0 < limit)%nat -> pointwise odeint flow -> wf x -> wf z -> starts x z sh fx fz ->
  choose_slices yperiod nplot y_slices = Ok slices -> (1 <= revs)%Z -> (1 <= nover)%Z ->
  (2 <= Z.to_nat revs * length slices)%nat -> (length slices <= 6)%nat -> (2 <= length sh)%nat ->
  plot_poincare odeint limit true x z yperiod nplot y_slices revs nover = Err ValueError.
Proof. exact (fun Hl Hp Hx Hz Hs => poincare_grid odeint limit Hl flow Hp x z sh fx fz Hx Hz Hs yperiod nplot y_slices revs nover slices). Qed.
Print Assumptions C97_grid_refuted.

(** A click traces the line through its place; after any clicks the points shown are those of the lines clicked with the right button since the last click with
    another one, and that one's if it was the left button. *)
Theorem C97_click odeint limit flow yperiod slices revs p : (0 < limit)%nat -> pointwise odeint flow -> (1 <= revs)%Z -> (2 <= Z.to_nat revs * length slices)%nat ->
  exists l, click_trace odeint limit yperiod slices revs p = Ok l /\ length l = (Z.to_nat revs * length slices)%nat /\
  forall n k, (n < Z.to_nat revs)%nat -> (k < length slices)%nat -> exists y, y == nth k slices 0 + inject_Z (Z.of_nat n) * yperiod /\
    nth (n * length slices + k) l (0, 0) = flow p (nth 0 slices 0) y.
Proof. exact (fun Hl Hp => clicked odeint limit Hl flow Hp yperiod slices revs p). Qed.
Print Assumptions C97_click.
Theorem C97_clicks trace tr before p bt after : (forall p, trace p = Ok (tr p)) -> bt <> Right -> Forall keeps after ->
  clicks trace (before ++ (Some p, bt) :: after)%list = Ok ((match bt with Left => tr p | _ => [] end) ++ concat (map (added tr) after))%list.
Proof. exact (clicks_spec trace tr before p bt after). Qed.
Print Assumptions C97_clicks.
Theorem C97_only_right trace tr es : (forall p, trace p = Ok (tr p)) -> Forall keeps es -> clicks trace es = Ok (concat (map (added tr) es)).
Proof. exact (fun H HF => kept_clicks trace tr es H HF []). Qed.
Print Assumptions C97_only_right.

(** plot_3d_field_line with one starting point: y_res points for each cycle, drawn at their y within the period; *)
Theorem C97_3d_partial odeint limit flow x z sh fx fz yperiod cycles y_res :
  (0 < limit)%nat -> pointwise odeint flow -> wf x -> wf z -> starts x z sh fx fz ->
  nsize sh = 1%nat -> (2 <= cycles * y_res)%nat -> 0 < yperiod ->
  exists lines y0, plot_3d_field_line odeint limit true x z yperiod cycles y_res = Ok lines /\ length lines = cycles /\ y0 == 0 /\
  forall c, (c < cycles)%nat -> length (nth c lines []) = y_res /\
    forall m, (m < y_res)%nat -> exists y, y == (inject_Z (Z.of_nat c) + inject_Z (Z.of_nat m) / inject_Z (Z.of_nat y_res)) * yperiod /\
      let '(a, b, h) := nth m (nth c lines []) (0, 0, 0) in
      (a, b) = flow (fx (repeat 0%nat (length sh)), fz (repeat 0%nat (length sh))) y0 y /\ h == inject_Z (Z.of_nat m) / inject_Z (Z.of_nat y_res) * yperiod.
Proof. exact (fun Hl Hp Hx Hz Hs => drawn_3d odeint limit Hl flow Hp x z sh fx fz Hx Hz Hs yperiod cycles y_res). Qed.
Print Assumptions C97_3d_partial.
(** arrays of starting points are refused, although the documentation has them. *)
Theorem C97_3d_array_refuted odeint limit flow x z sh fx fz yperiod cycles y_res :
  (0 < limit)%nat -> pointwise odeint flow -> wf x -> wf z -> starts x z sh fx fz ->
  nsize sh <> 1%nat -> (2 <= cycles * y_res)%nat -> plot_3d_field_line odeint limit true x z yperiod cycles y_res = Err ValueError.
Proof. exact (fun Hl Hp Hx Hz Hs => refused_3d odeint limit Hl flow Hp x z sh fx fz Hx Hz Hs yperiod cycles y_res). Qed.
Print Assumptions C97_3d_array_refuted.
Theorem C97_unavailable_refuted odeint limit x z yperiod : (forall nplot y_slices revs nover, plot_poincare odeint limit false x z yperiod nplot y_slices revs nover = Err OtherError) /\
  forall cycles y_res, plot_3d_field_line odeint limit false x z yperiod cycles y_res = Err OtherError.
Proof. split; reflexivity. Qed.
Print Assumptions C97_unavailable_refuted.

Example C97_example : pointwise w_odeint w_flow /\
  match plot_poincare w_odeint 1000 true (arr [2%nat] [1; 2]) (arr [2%nat] [5; 6]) 4 None (Some [3; 1]) 2 5 with
  | Ok ([(r, z, a); (r', z', b)], legend) => legend = [(1, "k"%string); (3, "b"%string)] /\ a = "k"%string /\ b = "b"%string /\ shape r' = [2; 2]%nat /\ get z' [1; 1]%nat == 18
  | _ => False
  end /\
  match plot_3d_field_line w_odeint 1000 true (arr [1%nat] [1]) (arr [1%nat] [5]) 4 2 4 with
  | Ok [[_; _; _; _]; [_; (a, b, h); _; _]] => h == 1
  | _ => False
  end /\
  plot_poincare w_odeint 1000 true (arr [1%nat] [1]) (arr [1%nat] [5]) 4 (Some 7%Z) None 2 5 = Err TypeError /\
  plot_poincare w_odeint 1000 true (arr [1%nat; 2%nat] [1; 2]) (arr [1%nat; 2%nat] [5; 6]) 4 None (Some [3; 1]) 2 5 = Err ValueError.
Proof. split; [exact w_pointwise|]. split; [vm_compute; repeat split|]. split; [vm_compute; reflexivity|]. split; vm_compute; reflexivity. Qed.
