(** Theorems about the rest of field.py: magnetic_axis (C104), Bmag of the EMC3 field (C105),
    SmoothedMagneticField (C106). *)
From Coq Require Import String List ZArith QArith Qabs Lia Lqa Bool Reals Lra.
From Verif Require Import Prelude PreludeFacts GridModel GridSpec FieldModel AxisModel AxisSpec AxisProofs BmagModel BmagSpec BmagProofs SmoothedModel SmoothedSpec SmoothedProofs.
Import ListNotations.

Section C104.
Open Scope R_scope.
(** C104: magnetic_axis returns radius and height of the first vertex whose ratio y / x belongs to an angle within three percent of
    phi_axis, and raises IndexError when there is none; *)
Theorem C104_first find_axis phi c k l : set_config c = Ok k -> find_axis c = Ok l ->
  (forall r z, magnetic_axis find_axis phi c = Ok (r, z) <->
     exists pre x y post, l = pre ++ (x, y, z) :: post /\ counts phi (x, y, z) /\ (forall v, In v pre -> ~ counts phi v) /\ r = sqrt (x * x + y * y)) /\
  (magnetic_axis find_axis phi c = Err IndexError <-> forall v, In v l -> ~ counts phi v).
Proof. intros Ek El. split; [intros r z; exact (found find_axis phi c k l r z Ek El)|exact (not_found find_axis phi c k l Ek El)]. Qed.
Print Assumptions C104_first.
(** for a vertex with x > 0 that is the vertex's own angle about the axis of the torus.  Missing: vertices with x <= 0. *)
Theorem C104_angle_partial phi x y z : 0 < x -> counts phi (x, y, z) ->
  exists a, 97 / 100 * phi <= a <= 103 / 100 * phi /\ x = sqrt (x * x + y * y) * cos a /\ y = sqrt (x * x + y * y) * sin a.
Proof. intros Hx (a & E & B). exists a. split; [exact B|]. exact (polar x y a Hx E). Qed.
Print Assumptions C104_angle_partial.
(** A vertex on the opposite side of the torus counts as well. *)
Theorem C104_opposite_refuted phi c k find_axis x y z : set_config c = Ok k -> find_axis c = Ok [(- x, - y, z)] -> 0 < x -> counts phi (x, y, z) ->
  magnetic_axis find_axis phi c = Ok (sqrt (x * x + y * y), z).
Proof.
  intros Ek El Hx Hc. apply (proj2 (found find_axis phi c k _ _ _ Ek El)). exists [], (- x), (- y), []. split; [reflexivity|].
  split; [apply opposite_counts; [lra|exact Hc]|]. split; [intros v []|]. f_equal. ring.
Qed.
Print Assumptions C104_opposite_refuted.
(** Negative angles and angles beyond about 93 degrees are never found. *)
Theorem C104_range_refuted find_axis phi c k l : set_config c = Ok k -> find_axis c = Ok l -> phi < 0 \/ PI / 2 < 97 / 100 * phi ->
  magnetic_axis find_axis phi c = Err IndexError.
Proof. intros Ek El H. apply (proj2 (not_found find_axis phi c k l Ek El)). intros v _. destruct H as [H|H]; [now apply negative|now apply far]. Qed.
Print Assumptions C104_range_refuted.
(** For the default angle 0 only vertices with y = 0 exactly count, however close the others are. *)
Theorem C104_zero_refuted find_axis c k l : set_config c = Ok k -> find_axis c = Ok l -> (forall v, In v l -> snd (fst v) <> 0) ->
  magnetic_axis find_axis 0 c = Err IndexError.
Proof. intros Ek El H. apply (proj2 (not_found find_axis 0 c k l Ek El)). intros v Hv C. apply zero in C. exact (H v Hv (proj1 C)). Qed.
Print Assumptions C104_zero_refuted.
Example C104_example : exists k, set_config (CInt 0) = Ok k /\ counts (PI / 4) (1, 1, 5) /\
  magnetic_axis (fun _ => Ok [(1, 0, 3); (-1, -1, 4); (1, 1, 5)]) (PI / 4) (CInt 0) = Ok (sqrt 2, 4).
Proof.
  assert (C : counts (PI / 4) (1, 1, 5)).
  { exists (PI / 4). unfold angle. cbn [fst snd]. destruct (Req_EM_T 1 0); [lra|]. replace (1 / 1) with 1 by field. rewrite atan_1. split; [reflexivity|]. pose proof PI_RGT_0. lra. }
  eexists. split; [reflexivity|]. split; [exact C|].
  apply (proj2 (found (fun _ => Ok [(1, 0, 3); (-1, -1, 4); (1, 1, 5)]) (PI / 4) (CInt 0) _ _ (sqrt 2) 4 eq_refl eq_refl)).
  exists [(1, 0, 3)], (-1), (-1), [(1, 1, 5)]. split; [reflexivity|]. split.
  - replace (-1) with (- (1)) by ring. apply opposite_counts; [lra|]. destruct C as (a & Ha). exists a. exact Ha.
  - split; [|f_equal; ring]. intros v [<-|[]] (a & E & B). unfold angle in E. cbn [fst snd] in E. destruct (Req_EM_T 1 0); [lra|].
    replace (0 / 1) with 0 in E by field. rewrite atan_0 in E. injection E as <-. pose proof PI_RGT_0. lra.
Qed.
End C104.

Section C105.
Open Scope Q_scope.
(** C105: known values are kept, and a value that is not known becomes the spline through the known values of its column, taken at the
    length along the column; *)
Theorem C105_filled_partial sqrt spline x z v w : bmag sqrt spline x z v = Ok w -> rows w = rows v /\ cols w = cols v /\
  forall k i, (i < cols v)%nat -> (at2 v k i <> None -> at2 w k i = at2 v k i) /\
    (has_nan v i -> exists f, spline (map (along sqrt (fun k => x k i) (fun k => z k i)) (known v i)) (map (fun k => number (at2 v k i)) (known v i)) = Ok f /\
       (at2 v k i = None -> at2 w k i = Some (f (along sqrt (fun k => x k i) (fun k => z k i) k)))).
Proof. exact (bmag_ok sqrt spline x z v w). Qed.
Print Assumptions C105_filled_partial.
(** the length being the sum of the steps from the first row on; *)
Theorem C105_length sqrt xi zi k :
  along sqrt xi zi k == qsum (map (fun j => sqrt ((xi (S j) - xi j) * (xi (S j) - xi j) + (zi (S j) - zi j) * (zi (S j) - zi j))) (seq 0 k)).
Proof. exact (along_sum sqrt xi zi k). Qed.
Print Assumptions C105_length.
(** values that grow linearly along the column are filled in exactly; *)
Theorem C105_linear sqrt spline x z v w c d i k : straight spline ->
  bmag sqrt spline x z v = Ok w -> (i < cols v)%nat -> at2 v k i = None -> (k < rows v)%nat ->
  (forall j q, (j < rows v)%nat -> at2 v j i = Some q -> q == c + d * along sqrt (fun k => x k i) (fun k => z k i) j) ->
  exists q, at2 w k i = Some q /\ q == c + d * along sqrt (fun k => x k i) (fun k => z k i) k.
Proof. exact (bmag_linear sqrt spline x z v w c d i k). Qed.
Print Assumptions C105_linear.
(** nothing is done when everything is known, *)
Theorem C105_complete sqrt spline x z v : (forall i, (i < cols v)%nat -> ~ has_nan v i) -> bmag sqrt spline x z v = Ok v.
Proof. exact (bmag_untouched sqrt spline x z v). Qed.
Print Assumptions C105_complete.
(** and the call fails exactly when the spline of some column with a gap is refused, so a single column with one known value is enough. *)
Theorem C105_refused_refuted sqrt spline x z v :
  (forall e, bmag sqrt spline x z v = Err e -> exists i, (i < cols v)%nat /\ has_nan v i /\
     spline (map (along sqrt (fun k => x k i) (fun k => z k i)) (known v i)) (map (fun k => number (at2 v k i)) (known v i)) = Err e) /\
  ((forall s g, (length s < 2)%nat -> exists e, spline s g = Err e) ->
   forall i, (i < cols v)%nat -> has_nan v i -> (length (known v i) < 2)%nat -> exists e, bmag sqrt spline x z v = Err e).
Proof.
  split; [exact (bmag_err sqrt spline x z v)|]. intros S i Hi Hn Hk.
  destruct (S (map (along sqrt (fun k => x k i) (fun k => z k i)) (known v i)) (map (fun k => number (at2 v k i)) (known v i))) as (e & E).
  { now rewrite map_length. }
  exact (bmag_refused sqrt spline x z v i e Hi Hn E).
Qed.
Print Assumptions C105_refused_refuted.
(** Points in a one-dimensional array: one unknown value is an IndexError. *)
Theorem C105_one_dimension_refuted v : In None v -> bmag1 v = Err IndexError.
Proof. intros H. unfold bmag1. rewrite (proj2 (existsb_exists isnan v)); [reflexivity|]. exists None. split; [exact H|reflexivity]. Qed.
Print Assumptions C105_one_dimension_refuted.
(** A straight line through the first two points *)
Definition chord (s g : list Q) : res (Q -> Q) :=
  match s, g with
  | s0 :: s1 :: _, g0 :: g1 :: _ => if Qlt_bool s0 s1 then Ok (fun t => g0 + (g1 - g0) / (s1 - s0) * (t - s0)) else Err ValueError
  | _, _ => Err ValueError
  end.
Example C105_example : straight chord /\ (forall s g, (length s < 2)%nat -> exists e, chord s g = Err e) /\
  match bmag (fun q => if Qeq_bool q 25 then 5 else 0) chord (fun k i => 3 * inject_Z (Z.of_nat k) + inject_Z (Z.of_nat i)) (fun k _ => 4 * inject_Z (Z.of_nat k))
     {| rows := 4; cols := 2; at2 := fun k i => if (i =? 1)%nat && ((k =? 1) || (k =? 3))%nat then None else Some (10 * inject_Z (Z.of_nat k)) |} with
  | Ok w => match at2 w 1 1, at2 w 3 1, at2 w 2 0 with Some a, Some b, Some c => a == 10 /\ b == 30 /\ c == 20 | _, _, _ => False end
  | Err _ => False
  end.
Proof.
  split; [|split].
  - intros [|s0 [|s1 s]] [|g0 [|g1 g]] f; try discriminate. cbn [chord]. destruct (Qlt_bool s0 s1) eqn:E; [|discriminate]. apply Qlt_bool_iff in E.
    intros [= <-] a b H _ t. pose proof (H 0%nat ltac:(cbn; lia)) as H0. pose proof (H 1%nat ltac:(cbn; lia)) as H1. cbn [nth] in H0, H1. rewrite H0, H1. field. intros C. Lqa.lra.
  - intros [|s0 [|s1 s]] g H; [..|cbn in H; lia]; eexists; reflexivity.
  - vm_compute. repeat split.
Qed.
End C105.

Section C106.
Open Scope Q_scope.
(** C106: the planes looked up for phi are the neighbours: for strictly increasing positions the last one not above phi and the next, *)
Theorem C106_plane ys phi : ys <> [] -> rising ys -> exists k, plane_below ys phi = Ok k /\ (-1 <= k < Z.of_nat (length ys))%Z /\
  ((0 <= k)%Z -> nth (Z.to_nat k) ys 0 <= phi) /\ ((k + 1 < Z.of_nat (length ys))%Z -> phi < nth (Z.to_nat (k + 1)) ys 0).
Proof. exact (plane_below_spec ys phi). Qed.
Print Assumptions C106_plane.
(** and in a periodic grid they enclose it; *)
Theorem C106_enclosed {G} (g : grid G) phi : admissible g -> yperiodic g = true -> 0 <= phi -> phi < Ly g ->
  exists k pd yd pu yu, plane_below (ycoords g) phi = Ok k /\ getPoloidalGrid g (inject_Z k) = Ok (Some pd, yd) /\
    getPoloidalGrid g (inject_Z (k + 1)) = Ok (Some pu, yu) /\ yd <= phi /\ phi < yu.
Proof. exact (enclosed g phi). Qed.
Print Assumptions C106_enclosed.
(** but no field comes of it: every call of field_direction and of Bmag raises, TypeError when all else works, *)
Theorem C106_direction_refuted {G} findIndex (s : smoothed G) : (forall x z phi, exists e, sm_direction findIndex s x z phi = Err e) /\
  (forall sqrt x z phi, exists e, sm_Bmag findIndex sqrt s x z phi = Err e) /\
  forall x z phi, admissible (sm_grid s) -> yperiodic (sm_grid s) = true -> 0 <= phi -> phi < Ly (sm_grid s) ->
    (forall g, exists r, findIndex g x z = Ok r) -> length x = length z -> x <> [] ->
    (forall p, In p (combine x z) -> (1 # 100000000) <= Qabs (Byfunc (sm_field s) (fst p) (snd p) phi)) -> sm_direction findIndex s x z phi = Err TypeError /\
    forall sqrt, sm_Bmag findIndex sqrt s x z phi = Err TypeError.
Proof.
  split; [exact (no_direction findIndex s)|]. split; [intros sqrt; exact (no_Bmag findIndex sqrt s)|].
  intros x z phi Ha Hp H0 H1 Hf El Hn Hb. pose proof (Bx_none findIndex s x z phi Ha Hp H0 H1 Hf) as N.
  split; [exact (type_error findIndex s x z phi N El Hn Hb)|]. intros sqrt. exact (type_error_Bmag findIndex sqrt s x z phi N).
Qed.
Print Assumptions C106_direction_refuted.
(** and the damping factor needs attributes the object does not have. *)
Theorem C106_line_refuted b xa za : sm_line b xa za = Err OtherError.
Proof. exact (no_line b xa za). Qed.
Print Assumptions C106_line_refuted.
Definition quarter : grid unit := {| poloidal_grids := [tt; tt; tt; tt]; ycoords := [0; 1; 2; 3]; Ly := 4; yperiodic := true |}.
Example C106_example : admissible quarter /\ plane_below (ycoords quarter) (7#2) = Ok 3%Z /\
  sm_direction (fun _ x z => Ok (x, z)) {| sm_field := slab 1 (1#10) 0 1; sm_grid := quarter |} [1; 2] [3; 4] (7#2) = Err TypeError.
Proof.
  split; [|split; reflexivity]. split; [split; [reflexivity|cbn; lia]|]. split.
  - intros [|[|[|[|[|i]]]]] y; cbn [quarter ycoords nth_error]; try discriminate; intros [= <-]; split; try reflexivity; discriminate.
  - intros [|[|[|[|[|i]]]]] y1 y2; cbn [quarter ycoords nth_error]; try discriminate; intros [= <-] [= <-]; reflexivity.
Qed.
End C106.
