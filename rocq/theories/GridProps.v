(** Properties C14-C17, C66, C67: slice lookup, bracketing, dy, metric gathering. *)
From Coq Require Import List ZArith QArith Qabs Lia Lqa.
From Verif Require Import Prelude PreludeFacts GridModel GridSpec GridProofs GridMetric.
Import ListNotations.
Open Scope Q_scope.

(** The constructor: as many slices as y coordinates, at least one. *)
Theorem C14_constructor : forall (G : Type) (pols : list G) ys L per,
  (length ys = length pols -> pols <> [] ->
     Grid_init pols ys L per = Ok {| poloidal_grids := pols; ycoords := ys; Ly := L; yperiodic := per |}) /\
  (length ys <> length pols -> Grid_init pols ys L per = Err AssertionError) /\
  (pols = [] -> ys = [] -> Grid_init pols ys L per = Err IndexError) /\
  (forall pol : G, Grid_init_single pol ys L per =
     if Nat.eqb (length ys) 0 then Err IndexError
     else Ok {| poloidal_grids := repeat pol (length ys); ycoords := ys; Ly := L; yperiodic := per |}).
Proof. exact @constructor. Qed.
Print Assumptions C14_constructor.
Example C14_constructor_lengths : Grid_init [true; false] [0] 1 true = Err AssertionError.
Proof. reflexivity. Qed.

(** C14, periodic grid: slice [i mod ny], shifted by whole periods. *)
Theorem C14_periodic_lookup : forall (G : Type) (g : grid G) i,
  well_formed g -> yperiodic g = true ->
  exists p y, nth_error (poloidal_grids g) (Z.to_nat (i mod ny g)) = Some p /\
    nth_error (ycoords g) (Z.to_nat (i mod ny g)) = Some y /\
    returns (getPoloidalGrid g (inject_Z i)) (Some p) (y + inject_Z (i / ny g) * Ly g).
Proof. exact (@periodic_lookup). Qed.
Print Assumptions C14_periodic_lookup.

(** C14, non-periodic grid. *)
Theorem C14_nonperiodic_lookup : forall (G : Type) (g : grid G) i,
  well_formed g -> yperiodic g = false ->
  ((0 <= i < ny g)%Z -> exists p y, nth_error (poloidal_grids g) (Z.to_nat i) = Some p /\
    nth_error (ycoords g) (Z.to_nat i) = Some y /\ returns (getPoloidalGrid g (inject_Z i)) (Some p) y) /\
  ((i < 0)%Z -> returns (getPoloidalGrid g (inject_Z i)) None 0) /\
  ((ny g <= i)%Z -> returns (getPoloidalGrid g (inject_Z i)) None (Ly g)).
Proof. exact (@nonperiodic_lookup). Qed.
Print Assumptions C14_nonperiodic_lookup.

(** The recursion never goes deeper than two levels. *)
Theorem C14_recursion_depth : forall (G : Type) n (g : grid G) q, well_formed g ->
  getPoloidalGrid_rec (S (S n)) g q = getPoloidalGrid g q.
Proof. exact (@getPoloidalGrid_fuel). Qed.
Print Assumptions C14_recursion_depth.

(** C15: y positions never decrease with the slice index. *)
Theorem C15_bracketing : forall (G : Type) (g : grid G) i j, admissible g -> (i <= j)%Z ->
  exists p1 y1 p2 y2, getPoloidalGrid g (inject_Z i) = Ok (p1, y1) /\
    getPoloidalGrid g (inject_Z j) = Ok (p2, y2) /\ y1 <= y2.
Proof. exact (@bracket). Qed.
Print Assumptions C15_bracketing.

(** C16: what the code returns for [i + f]: the position at fraction [1 - f].
    Missing from C16: it should be fraction [f] (see the refutation), and [f]
    within 1e-6 of an integer is excluded. *)
Theorem C16_fraction_partial : forall (G : Type) (g : grid G) i f, well_formed g ->
  (1#1000000) < f -> f < 1 - (1#1000000) ->
  exists p1 y1 p2 y2, getPoloidalGrid g (inject_Z i) = Ok (p1, y1) /\
    getPoloidalGrid g (inject_Z (i + 1)) = Ok (p2, y2) /\
    returns (getPoloidalGrid g (inject_Z i + f)) None (y1 + (1 - f) * (y2 - y1)).
Proof. exact (@fractional). Qed.
Print Assumptions C16_fraction_partial.

(** C16 for the fraction the library uses, 1/2: the midpoint. *)
Theorem C16_midpoint : forall (G : Type) (g : grid G) i, well_formed g ->
  exists p1 y1 p2 y2, getPoloidalGrid g (inject_Z i) = Ok (p1, y1) /\
    getPoloidalGrid g (inject_Z (i + 1)) = Ok (p2, y2) /\
    returns (getPoloidalGrid g (inject_Z i + (1#2))) None ((y1 + y2) / 2).
Proof.
  intros G g i W. destruct (fractional g i (1#2) W) as (p1&y1&p2&y2&E1&E2&y&Ey&Hy); [reflexivity|reflexivity|].
  exists p1, y1, p2, y2. split; [exact E1|split; [exact E2|]]. exists y. split; [exact Ey|]. rewrite Hy. field.
Qed.
Print Assumptions C16_midpoint.

Definition two_slices : grid nat :=
  {| poloidal_grids := [0%nat; 1%nat]; ycoords := [0; 1]; Ly := 2; yperiodic := true |}.

(** C16 is false: index 1/4 of a grid with slices at y = 0 and 1 gives y = 3/4. *)
Theorem C16_quarter_refuted :
  admissible two_slices /\
  returns (getPoloidalGrid two_slices 0) (Some 0%nat) 0 /\
  returns (getPoloidalGrid two_slices 1) (Some 1%nat) 1 /\
  returns (getPoloidalGrid two_slices (1#4)) None (3#4).
Proof.
  split; [|split; [|split]]; try (eexists; split; [vm_compute; reflexivity|reflexivity]).
  split; [split; cbn; lia|split].
  - intros [|[|i]] y E; cbn in E; try (injection E as <-; cbn; lra). destruct i; discriminate.
  - intros [|[|i]] y1 y2 E1 E2; cbn in E1, E2; try (injection E1 as <-; injection E2 as <-; lra); try discriminate.
Qed.
Print Assumptions C16_quarter_refuted.

(** Tolerance: an index a rounding error below 0 is taken as index 0, but its
    coordinate is a whole period away. *)
Theorem C16_tolerance_refuted :
  returns (getPoloidalGrid two_slices (-(1#10000000))) (Some 0%nat) (-(2)).
Proof. eexists; split; [vm_compute; reflexivity|reflexivity]. Qed.
Print Assumptions C16_tolerance_refuted.

(** C17 for slices that have both neighbours in the list, any spacing. *)
Theorem C17_dy_interior_partial : forall (G : Type) (g : grid G) dy j, well_formed g -> metric_dy g = Ok dy ->
  (0 < j)%Z -> (j < ny g - 1)%Z ->
  nth (Z.to_nat j) dy 0 == (periodic_y g (j + 1) - periodic_y g (j - 1)) / 2.
Proof. exact (@dy_interior). Qed.
Print Assumptions C17_dy_interior_partial.

(** C17 for evenly spaced slices, including the first and last one. *)
Theorem C17_dy_uniform_partial : forall (G : Type) (g : grid G), uniform g ->
  exists dy, metric_dy g = Ok dy /\ length dy = length (ycoords g) /\
  (forall j, (0 <= j < ny g)%Z -> nth (Z.to_nat j) dy 0 == (periodic_y g (j + 1) - periodic_y g (j - 1)) / 2) /\
  qsum dy == Ly g.
Proof.
  intros G g U. pose proof U as [W _]. destruct (metric_dy_ok g W) as (dy & E & L).
  exists dy. split; [exact E|split; [exact L|split]].
  - intros j. now apply uniform_dy_periodic.
  - now apply uniform_dy_sum.
Qed.
Print Assumptions C17_dy_uniform_partial.

Definition uneven_slices : grid nat :=
  {| poloidal_grids := [0%nat; 1%nat; 2%nat]; ycoords := [0; 1; 3]; Ly := 6; yperiodic := true |}.

(** C17 is false for uneven spacing: slices at 0, 1, 3 with period 6 get
    dy = 1, 3/2, 2 (sum 9/2, not 6); slice 0 should have (1 - (3-6))/2 = 2. *)
Theorem C17_dy_uneven_refuted :
  admissible uneven_slices /\
  exists dy, metric_dy uneven_slices = Ok dy /\ qsum dy == (9#2) /\ ~ (9#2) == Ly uneven_slices /\
  nth 0 dy 0 == 1 /\ (periodic_y uneven_slices 1 - periodic_y uneven_slices (-1)) / 2 == 2.
Proof.
  split.
  - split; [split; cbn; lia|split].
    + intros [|[|[|i]]] y E; cbn in E; try (injection E as <-; cbn; lra). destruct i; discriminate.
    + intros [|[|[|i]]] y1 y2 E1 E2; cbn in E1, E2; try (injection E1 as <-; injection E2 as <-; lra); try discriminate.
  - eexists; split; [vm_compute; reflexivity|]. vm_compute. repeat split; intros H; try discriminate.
Qed.
Print Assumptions C17_dy_uneven_refuted.

(** C66: every component of Grid.metric at slice [y] is that slice's own; J is
    present exactly if every slice has one. *)
Theorem C66_metric_gathers_slices : forall (G : Type) (pm : G -> pol_metric) (g : grid G) b,
  well_formed g -> all_status pm g b ->
  exists m, grid_metric pm g = Ok m /\
  (forall y p x z, (0 <= y < ny g)%Z -> nth_error (poloidal_grids g) (Z.to_nat y) = Some p ->
    m_dx m x y z = p_dx (pm p) x z /\ m_dz m x y z = p_dz (pm p) x z /\
    m_gxx m x y z = p_gxx (pm p) x z /\ m_gxz m x y z = p_gxz (pm p) x z /\
    m_gzz m x y z = p_gzz (pm p) x z /\ m_g_xx m x y z = p_g_xx (pm p) x z /\
    m_g_xz m x y z = p_g_xz (pm p) x z /\ m_g_zz m x y z = p_g_zz (pm p) x z) /\
  (if b then exists J, m_J m = Some J /\ forall y p x z Jp, (0 <= y < ny g)%Z ->
      nth_error (poloidal_grids g) (Z.to_nat y) = Some p -> p_J (pm p) = Some Jp -> J x y z = Jp x z
   else m_J m = None).
Proof. exact (@metric_gathers). Qed.
Print Assumptions C66_metric_gathers_slices.

Theorem C66_mixed_J_rejected : forall (G : Type) (pm : G -> pol_metric) (g : grid G), well_formed g ->
  (exists y1 y2, (0 <= y1 < ny g)%Z /\ (0 <= y2 < ny g)%Z /\
     slice_has_J pm g y1 = true /\ slice_has_J pm g y2 = false) ->
  grid_metric pm g = Err AssertionError.
Proof. exact (@metric_mixed_J). Qed.
Print Assumptions C66_mixed_J_rejected.

(** C67: rectangular_grid always builds an admissible, evenly spaced grid. *)
Theorem C67_rectangular_grid : forall (G : Type) (pol : G) n L per, (0 < n)%nat -> 0 < L ->
  exists g, rectangular_grid pol n L per = Ok g /\ admissible g /\ uniform g /\ yperiodic g = per.
Proof. exact (@rectangular_ok). Qed.
Print Assumptions C67_rectangular_grid.

(** Concrete instances. *)
Example C14_concrete : well_formed two_slices /\
  getPoloidalGrid two_slices (inject_Z (-3)) = Ok (Some 1%nat, 1 + inject_Z (-2) * 2).
Proof. split; [split; cbn; lia|reflexivity]. Qed.

Example C17_concrete : exists g dy, rectangular_grid 7%nat 4 10 true = Ok g /\
  metric_dy g = Ok dy /\ map Qred dy = [5#2; 5#2; 5#2; 5#2].
Proof. eexists. eexists. split; [vm_compute; reflexivity|split; [vm_compute; reflexivity|reflexivity]]. Qed.

Definition jm (b : bool) : pol_metric :=
  {| p_dx := fun _ _ => 1; p_dz := fun _ _ => 1; p_gxx := fun _ _ => 1; p_gxz := fun _ _ => 0; p_gzz := fun _ _ => 1;
     p_g_xx := fun _ _ => 1; p_g_xz := fun _ _ => 0; p_g_zz := fun _ _ => 1;
     p_J := if b then Some (fun _ _ => 1) else None |}.

Example C66_concrete :
  let pm := fun n : nat => jm (Nat.eqb n 0) in
  slice_has_J pm two_slices 0 = true /\ slice_has_J pm two_slices 1 = false /\
  grid_metric pm two_slices = Err AssertionError.
Proof. repeat split. Qed.
