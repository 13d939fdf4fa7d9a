(** Property C95. *)
From Coq Require Import String List ZArith QArith Lia.
From Verif Require Import Prelude NamingModel WriterModel WriterSpec WriterFrame VtkModel VtkProofs.
Import ListNotations.
Open Scope Q_scope.

(** For a file that has bx and bz: the components, x and z stretched by scale; y at multiples of dy, z at multiples of the
    spacing that makes the box square; *)
Theorem C95_fields_partial f dx dy scale bx bz : f_dx f = Some dx -> f_dy f = Some dy -> f_arr f "bx"%string = Some bx -> f_arr f "bz"%string = Some bz -> (0 < n2 bx)%nat ->
  exists v, fci_to_vtk true f scale = Ok (Some v) /\
  (forall i j k, let '(a, b, c) := v_B v in at3 a i j k == scale * at3 bx i j k /\ at3 b i j k == 1 /\ at3 c i j k == scale * at3 bz i j k) /\
  length (v_x v) = n0 bx /\ length (v_y v) = n1 bx /\ length (v_z v) = n2 bx /\
  (forall j, (j < n1 bx)%nat -> nth j (v_y v) 0 == inject_Z (Z.of_nat j) * dy) /\
  (forall k, (k < n2 bx)%nat -> nth k (v_z v) 0 == scale * inject_Z (Z.of_nat k) * (dx * (inject_Z (Z.of_nat (n0 bx)) / inject_Z (Z.of_nat (n2 bx))))).
Proof.
  intros H1 H2 H3 H4 H5. destruct (runs f dx dy scale bx bz H1 H2 H3 H4 H5) as (v & E & B & L0 & L1 & L2 & _ & Y & Z). exists v. split; [exact E|]. split.
  - intros i j k. rewrite B. cbn [times ones at3]. split; [ring|]. split; [reflexivity|ring].
  - repeat (split; [assumption|]). assumption.
Qed.
Print Assumptions C95_fields_partial.

(** but the points are not dx apart in x: linspace has the end point there; *)
Theorem C95_spacing_refuted f dx dy scale bx bz : f_dx f = Some dx -> f_dy f = Some dy -> f_arr f "bx"%string = Some bx -> f_arr f "bz"%string = Some bz -> (0 < n2 bx)%nat ->
  (1 < n0 bx)%nat -> ~ dx == 0 -> ~ scale == 0 ->
  exists v, fci_to_vtk true f scale = Ok (Some v) /\
  (forall i, (S i < n0 bx)%nat -> nth (S i) (v_x v) 0 - nth i (v_x v) 0 == scale * (dx * (inject_Z (Z.of_nat (n0 bx)) / inject_Z (Z.of_nat (n0 bx) - 1)))) /\
  forall i, (S i < n0 bx)%nat -> ~ nth (S i) (v_x v) 0 - nth i (v_x v) 0 == scale * dx.
Proof.
  intros H1 H2 H3 H4 H5 H6 H7 H8. destruct (runs f dx dy scale bx bz H1 H2 H3 H4 H5) as (v & E & _ & _ & _ & _ & X & _). exists v. split; [exact E|].
  assert (N : ~ inject_Z (Z.of_nat (n0 bx) - 1) == 0) by (apply inj_nz; lia).
  assert (D : forall i, (S i < n0 bx)%nat -> nth (S i) (v_x v) 0 - nth i (v_x v) 0 == scale * (dx * (inject_Z (Z.of_nat (n0 bx)) / inject_Z (Z.of_nat (n0 bx) - 1)))).
  { intros i Hi. rewrite !X by lia. rewrite Nat2Z.inj_succ. unfold Z.succ. rewrite inject_Z_plus. change (inject_Z 1) with 1. field. exact N. }
  split; [exact D|]. intros i Hi. rewrite (D i Hi). intros Q.
  assert (Q' : inject_Z (Z.of_nat (n0 bx)) == inject_Z (Z.of_nat (n0 bx) - 1)).
  { setoid_replace (inject_Z (Z.of_nat (n0 bx))) with ((scale * (dx * (inject_Z (Z.of_nat (n0 bx)) / inject_Z (Z.of_nat (n0 bx) - 1)))) / (scale * dx) * inject_Z (Z.of_nat (n0 bx) - 1))
      by (field; repeat split; assumption).
    rewrite Q. field. split; assumption. }
  rewrite inject_Z_injective in Q'. lia.
Qed.
Print Assumptions C95_spacing_refuted.

(** and a file with maps only, is refused with an AttributeError, although there is code for it. *)
Theorem C95_maps_refuted f scale : f_arr f "bx"%string = None -> fci_to_vtk true f scale = Err OtherError.
Proof. intros H. unfold fci_to_vtk. cbn [negb]. rewrite H. reflexivity. Qed.
Print Assumptions C95_maps_refuted.
(** In particular every file that write_maps has written, or begun to write, unless the field has an attribute of this name. *)
Theorem C95_written_refuted (V : Type) (is_array finite : V -> bool) (sub0 sub00 : V -> res V) (ratio2 : V -> V -> V) (of_int : Z -> V) (Grid Field : Type)
  (grid_RZ : Grid -> res (V * V)) (grid_metric : Grid -> Field -> res (pdict V)) (grid_shape : Grid -> Z * Z * Z)
  (field_attributes : Grid -> Field -> res (pdict V)) (par_metric : Grid -> Field -> pdict V -> Z -> res (pdict V))
  (as_int : V -> option Z) (repr : Q -> string) (m2d nn : bool) (g : Grid) (fd : Field) maps (array : V -> option nd3) f scale :
  (forall m, grid_metric g fd = Ok m -> NoDup (keys m) /\ incl (keys m) metric_names) ->
  (forall keep o m, par_metric g fd keep o = Ok m -> NoDup (keys m) /\ incl (keys m) metric_names) ->
  (forall a, field_attributes g fd = Ok a -> ~ In "bx"%string (keys a)) ->
  (forall k, In k (keys maps) -> map_key repr k) ->
  (forall k, f_arr f k = match fst (write_maps V is_array finite sub0 sub00 ratio2 of_int Grid Field grid_RZ grid_metric grid_shape field_attributes
      par_metric as_int repr m2d nn g fd maps (fun _ => None)) k with Some v => array v | None => None end) ->
  fci_to_vtk true f scale = Err OtherError.
Proof.
  intros H1 H2 H3 H4 H5. apply C95_maps_refuted. rewrite H5. rewrite write_maps_frame; auto. apply bx_free.
Qed.
Print Assumptions C95_written_refuted.

Theorem C95_not_installed f scale : fci_to_vtk false f scale = Ok None.
Proof. reflexivity. Qed.
Print Assumptions C95_not_installed.
Theorem C95_incomplete f scale bx : f_arr f "bx"%string = Some bx -> (0 < n2 bx)%nat -> f_dx f = None \/ f_dy f = None \/ f_arr f "bz"%string = None ->
  fci_to_vtk true f scale = Err TypeError.
Proof.
  intros H Hz C. unfold fci_to_vtk. cbn [negb]. rewrite H. cbn [shape_of bind]. destruct (f_dx f); [|reflexivity]. cbn [number bind].
  destruct (Nat.eqb_spec (n2 bx) 0); [lia|]. destruct (f_dy f); [|reflexivity]. cbn [number bind]. destruct (f_arr f "bz"%string); [|reflexivity].
  destruct C as [C|[C|C]]; discriminate.
Qed.
Print Assumptions C95_incomplete.

Example C95_example : let a := {| n0 := 3; n1 := 2; n2 := 4; at3 := fun i j k => inject_Z (i + 10 * j + 100 * k) |} in
  let f := {| f_dx := Some (1 # 2); f_dy := Some 3; f_arr := fun s => if String.eqb s "bx"%string then Some a else if String.eqb s "bz"%string then Some a else None |} in
  exists v, fci_to_vtk true f 5 = Ok (Some v) /\ map Qred (v_x v) = [0; 15 # 4; 15 # 2] /\ map Qred (v_y v) = [0; 3] /\ map Qred (v_z v) = [0; 15 # 8; 15 # 4; 45 # 8].
Proof. eexists. split; [reflexivity|]. repeat split. Qed.
