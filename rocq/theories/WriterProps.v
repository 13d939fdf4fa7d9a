(** Properties C25-C29: the grid file writer. *)
From Coq Require Import String List ZArith QArith Bool Lia Lqa.
From Verif Require Import Prelude PreludeFacts NamingModel GridModel GridSpec GridProofs GridMetric MapsModel
  WriterModel WriterSpec WriterProofs WriterMaps WriterFrame WriterLink WriterAttrs WriterDagp WriterParY.
Import ListNotations.
Open Scope string_scope.

(** ** C25 *)

(** Whatever is called in whatever order, with each call allowed to raise: an
    entry of the file is either from before or finite (if it is an array). *)
Theorem C25_only_finite_arrays : forall (V : Type) (is_array finite : V -> bool) (sub0 sub00 : V -> res V)
  (ratio2 : V -> V -> V) (of_int : Z -> V) (Grid Field : Type) (grid_RZ : Grid -> res (V * V))
  (grid_metric : Grid -> Field -> res (pdict V)) (grid_shape : Grid -> Z * Z * Z)
  (field_attributes : Grid -> Field -> res (pdict V)) (par_metric : Grid -> Field -> pdict V -> Z -> res (pdict V))
  (as_int : V -> option Z) (repr : Q -> string),
  (forall z, is_array (of_int z) = false) ->
  forall calls w f, only_finite_added is_array finite f
    (snd (do_calls V is_array finite sub0 sub00 ratio2 of_int Grid Field grid_RZ grid_metric grid_shape
            field_attributes par_metric as_int repr w calls f)).
Proof. exact keeps_calls. Qed.
Print Assumptions C25_only_finite_arrays.

(** A dictionary of finite arrays is accepted and stored completely. *)
Theorem C25_finite_accepted : forall (V : Type) (is_array finite : V -> bool) sub0 sub00 m2 d f,
  (forall k v, In (k, v) d -> is_array v = true -> finite v = true) ->
  write_dict V is_array finite sub0 sub00 m2 true true d f = (fold_left (fun f kv => fset V f (fst kv) (snd kv)) d f, Ok d).
Proof. exact dict_accepts. Qed.
Print Assumptions C25_finite_accepted.

(** At the first non-finite array the call raises, with exactly the entries before it stored. *)
Theorem C25_stops_at_nonfinite : forall (V : Type) (is_array finite : V -> bool) sub0 sub00 m2 d k v t f,
  (forall k v, In (k, v) d -> is_array v = true -> finite v = true) -> is_array v = true -> finite v = false ->
  write_dict V is_array finite sub0 sub00 m2 true true (d ++ (k, v) :: t)%list f =
    (fold_left (fun f kv => fset V f (fst kv) (snd kv)) d f, Err AssertionError).
Proof. exact dict_stops. Qed.
Print Assumptions C25_stops_at_nonfinite.

(** ** C26 *)
Section C26.
Variable V : Type.
Variable is_array finite : V -> bool.
Variable sub0 sub00 : V -> res V.
Variable ratio2 : V -> V -> V.
Variable of_int : Z -> V.
Variable Grid Field : Type.
Variable grid_RZ : Grid -> res (V * V).
Variable grid_metric : Grid -> Field -> res (pdict V).
Variable grid_shape : Grid -> Z * Z * Z.
Variable field_attributes : Grid -> Field -> res (pdict V).
Variable par_metric : Grid -> Field -> pdict V -> Z -> res (pdict V).
Variable as_int : V -> option Z.
Variable repr : Q -> string.
Variable m2d nn : bool.
Variable g : Grid.
Variable fd : Field.
(** get_metric of a library grid has the names of [metric_names]. *)
Hypothesis Hmetric : forall m, grid_metric g fd = Ok m -> NoDup (keys m) /\ incl (keys m) metric_names.
Hypothesis Hpar : forall keep o m, par_metric g fd keep o = Ok m -> NoDup (keys m) /\ incl (keys m) metric_names.
(** Field attributes use names of their own. *)
Hypothesis Hattr : forall a, field_attributes g fd = Ok a -> NoDup (keys a) /\ forall k, In k (keys a) -> free_key repr nn k.
Notation name k o := (parallel_slice_field_name repr k (OInt o)).

Theorem C26_maps_read_back : forall maps f f' maps',
  NoDup (keys maps) -> (forall k, In k (keys maps) -> map_key repr k) ->
  write_maps V is_array finite sub0 sub00 ratio2 of_int Grid Field grid_RZ grid_metric grid_shape field_attributes
    par_metric as_int repr m2d nn g fd maps f = (f', Ok maps') ->
  (* the maps *)
  (forall k v, dget maps k = Some v -> f' k = Some v) /\
  (forall v, dget maps "Rxy" = None -> dget maps "R" = Some v -> f' "Rxy" = Some v) /\
  (* the sizes *)
  (f' "nx" = Some (of_int (fst (fst (grid_shape g)))) /\ f' "ny" = Some (of_int (snd (fst (grid_shape g)))) /\
   f' "nz" = Some (of_int (snd (grid_shape g)))) /\
  (* the metric and the attributes *)
  (exists m m' a, grid_metric g fd = Ok m /\ field_attributes g fd = Ok a /\
     (forall k, In k metric_names -> k <> "g_yy" -> dget m' k = dget m k) /\ yy_values V ratio2 maps m m' /\
     metric_written V sub0 sub00 m2d nn m' f' /\ (forall k v, dget a k = Some v -> f' k = Some v)) /\
  (* the parallel metrics *)
  (exists keep nslice, (exists v, dget maps "MYG" = Some v /\ as_int v = Some nslice) /\
     (forall o c n, In o (offsets nslice) -> c = "R" \/ c = "Z" -> name c o = Ok n ->
        exists v, dget keep n = Some v /\ dget maps n = Some v) /\
     (forall o k v n, In o (offsets nslice) -> exists pm, par_metric g fd keep o = Ok pm /\
        (dget pm k = Some v -> name (out_name nn k) o = Ok n -> f' n = Some v))).
Proof. exact (write_maps_content V is_array finite sub0 sub00 ratio2 of_int Grid Field grid_RZ grid_metric grid_shape
  field_attributes par_metric as_int repr m2d nn g fd Hmetric Hpar Hattr). Qed.

(** Nothing else in the file is touched, also if an exception is raised on the way. *)
Theorem C26_nothing_else : forall maps f k, (forall k', In k' (keys maps) -> map_key repr k') -> free_key repr nn k ->
  (forall a, field_attributes g fd = Ok a -> ~ In k (keys a)) ->
  fst (write_maps V is_array finite sub0 sub00 ratio2 of_int Grid Field grid_RZ grid_metric grid_shape field_attributes
    par_metric as_int repr m2d nn g fd maps f) k = f k.
Proof.
  intros maps f k H1 H2 H3. exact (write_maps_frame V is_array finite sub0 sub00 ratio2 of_int Grid Field grid_RZ grid_metric grid_shape
    field_attributes par_metric as_int repr k m2d nn g fd Hmetric Hpar H2 H3 maps f H1).
Qed.
End C26.
Print Assumptions C26_maps_read_back.
Print Assumptions C26_nothing_else.

(** The keys of the dictionary returned by make_maps are as assumed above. *)
Theorem C26_make_maps_keys : forall repr G pR pZ pnx pnz findIndex trace outside Byfunc roots_jacobi field_line_length
  Jperp is_slab (g : GridModel.grid G) nslice mxg spd refine n_chunks junk d,
  make_maps repr G pR pZ pnx pnz findIndex trace outside Byfunc roots_jacobi field_line_length Jperp is_slab g
    nslice mxg spd refine n_chunks junk = Ok d ->
  forall k, d k <> None -> map_key repr k.
Proof. exact make_maps_keys. Qed.
Print Assumptions C26_make_maps_keys.

(** ** C27 *)

(** Any number of interruptions, at any step and with torn slices, then one
    complete run: the same file as one complete run from the start. *)
Theorem C27_resumable : forall (S : Type) (fill : S) (doit : nat -> list (string * S)) n f g,
  (0 < n)%nat -> interruptions fill doit n f g ->
  same_file (dagp_run S fill doit n g) (dagp_run S fill doit n f).
Proof. exact resume. Qed.
Print Assumptions C27_resumable.

(** A complete run computes exactly the slices from the progress counter on, and
    afterwards the counter stands at the number of slices. *)
Theorem C27_only_missing_slices : forall (S : Type) (fill : S) (doit : nat -> list (string * S)) n f,
  let p := Z.to_nat (progress f) in
  computed (dagp_actions S fill doit n f) = seq p (n - p) /\
  ((p < n)%nat -> progress (dagp_run S fill doit n f) = Z.of_nat n).
Proof. exact only_missing. Qed.
Print Assumptions C27_only_missing_slices.

(** What a complete run leaves in the file: doit's values in the slices it
    computed, everything else untouched. *)
Theorem C27_run_content : forall (S : Type) (fill : S) (doit : nat -> list (string * S)) n f k i,
  (forall j, NoDup (map fst (doit j))) ->
  let p := Z.to_nat (progress f) in
  (forall v, (p <= i < n)%nat -> In (k, v) (doit i) ->
     exists c, var (dagp_run S fill doit n f) k = Some c /\ c i = v) /\
  (forall c, ((i < p)%nat \/ (n <= i)%nat \/ ~ In k (map fst (doit i))) -> var f k = Some c ->
     exists c', var (dagp_run S fill doit n f) k = Some c' /\ c' i = c i).
Proof. exact run_content. Qed.
Print Assumptions C27_run_content.

(** A finished file is taken as it is, also if the grid has changed since: the
    values of the old grid stay (C27 speaks of the same grid). *)
Theorem C27_changed_grid_refuted :
  let old i := [("dagp_fv_volume", 1%nat)] in let new i := [("dagp_fv_volume", 2%nat)] in
  let f0 := {| prog := None; var := fun _ => None |} in
  let f := dagp_run nat 0%nat new 2 (dagp_run nat 0%nat old 2 f0) in
  exists c, var f "dagp_fv_volume" = Some c /\ c 0%nat = 1%nat /\ c 1%nat = 1%nat.
Proof. eexists. split; [vm_compute; reflexivity|split; reflexivity]. Qed.
Print Assumptions C27_changed_grid_refuted.

(** ** C28 *)

(** One update always ends with free names and loses no value. *)
Theorem C28_update_keeps_values : forall values attrs, NoDup (keys attrs) ->
  exists attrs', final_attrs true values attrs = Some attrs' /\ NoDup (keys attrs') /\
  (forall k v, dget attrs k = Some v -> ~ In k final_keys -> dget attrs' k = Some v) /\
  (forall k v, dget attrs k = Some v -> In k final_keys -> exists n, ~ In n (keys attrs) /\ dget attrs' n = Some v) /\
  (forall k, In k final_keys -> dget attrs' k = Some (values k)).
Proof. exact final_update. Qed.
Print Assumptions C28_update_keeps_values.

(** Any number of updates: every value ever stored is still there. *)
Theorem C28_histories : forall vs attrs, NoDup (keys attrs) ->
  exists attrs', final_history vs attrs = Some attrs' /\ forall k v, dget attrs k = Some v -> exists n, dget attrs' n = Some v.
Proof. exact history_keeps. Qed.
Print Assumptions C28_histories.

(** ** C29 *)
Open Scope Q_scope.

Theorem C29_periodic_positions_partial : forall (G : Type) (g : grid G) o l, admissible g ->
  par_ycoords (ycoords g) (Ly g) true o = Ok l ->
  length l = length (ycoords g) /\
  (forall i, (i < length l)%nat -> nth i l 0 == periodic_y g (Z.of_nat i + o) - inject_Z (o / ny g) * Ly g) /\
  increasing l /\
  (forall (H : Type) (h : grid H) dy, ycoords h = l -> Ly h = Ly g -> metric_dy h = Ok dy ->
     forall i, (i < length l)%nat -> 0 < nth i dy 0).
Proof. exact @par_periodic. Qed.
Print Assumptions C29_periodic_positions_partial.

(** Evenly spaced periodic grids pass the assertions, for every offset. *)
Theorem C29_uniform_accepted : forall (G : Type) (g : grid G) o, admissible g -> uniform g ->
  exists l, par_ycoords (ycoords g) (Ly g) true o = Ok l.
Proof. exact @par_uniform. Qed.
Print Assumptions C29_uniform_accepted.

(** Missing from C29: a non-periodic grid.  The coordinates are rotated without
    being unwrapped; the last slice of four gets y = 1/2 after 7/2 and dy = -3. *)
Theorem C29_nonperiodic_refuted :
  exists g l h dy, rectangular_grid tt 4 4 false = Ok g /\
    par_ycoords (ycoords g) (Ly g) (yperiodic g) 1 = Ok l /\
    Grid_init [tt; tt; tt; tt] l (Ly g) (yperiodic g) = Ok h /\
    metric_dy h = Ok dy /\ nth 3 dy 0 == -(3) /\ ~ increasing l.
Proof.
  do 4 eexists. split; [vm_compute; reflexivity|]. split; [vm_compute; reflexivity|].
  split; [vm_compute; reflexivity|]. split; [vm_compute; reflexivity|]. split; [reflexivity|].
  intros C. specialize (C 2%nat). cbn in C. specialize (C ltac:(lia)). lra.
Qed.
Print Assumptions C29_nonperiodic_refuted.

(** Unevenly spaced periodic grids may be refused: slices 0, 1, 3 of period 6. *)
Theorem C29_uneven_rejected : par_ycoords [0; 1; 3] 6 true 1 = Err AssertionError.
Proof. reflexivity. Qed.
Print Assumptions C29_uneven_rejected.

(** ** Concrete instances *)

(** Values: arrays are numbers below 1000, negative ones being non-finite; 1000 + n is the integer n. *)
Definition ex_arr (v : Z) : bool := (v <? 1000)%Z.
Definition ex_fin (v : Z) : bool := (0 <=? v)%Z.
Definition ex_maps : pdict Z :=
  [("R", 1); ("Z", 2); ("MXG", 1002); ("MYG", 1001); ("Ly_cell_ylow", 3); ("Ly", 4); ("Ly_cell_yhigh", 5);
   ("forward_R", 11); ("forward_Z", 12); ("forward_xt_prime", 13);
   ("backward_R", 21); ("backward_Z", 22); ("R_cell_yhigh", 31)]%Z.
Definition ex_metric (base : Z) : pdict Z :=
  [("dx", base); ("dy", base + 1); ("dz", base + 2); ("g_yy", base + 3); ("gyy", base + 4); ("B", base + 5)]%Z.
Definition ex_write (metric : res (pdict Z)) :=
  write_maps Z ex_arr ex_fin (fun v => Ok v) (fun v => Ok v) (fun a b => (a * 100 + b)%Z) (fun n => (1000 + n)%Z)
    unit unit (fun _ => Ok (1, 2)%Z) (fun _ _ => metric) (fun _ => (68, 16, 32)%Z) (fun _ _ => Ok [("psi", 7%Z)])
    (fun _ _ _ o => Ok (ex_metric (100 * (o + 2))%Z)) (fun v => Some (v - 1000)%Z) (fun _ => "") true false tt tt
    ex_maps (fun _ => None).

Example C26_concrete :
  (let '(f, r) := ex_write (Ok (ex_metric 50)) in
   map f ["R"; "Rxy"; "MYG"; "forward_xt_prime"; "nx"; "g_22"; "g_22_cell_ylow"; "g_yy_old"; "psi"; "forward_g_22"; "backward_dy"])
  = map Some [1; 1; 1001; 13; 1068; 451; 351; 53; 7; 303; 101]%Z.
Proof. vm_compute. reflexivity. Qed.

Example C26_keys_ok : NoDup (keys ex_maps) /\ forall k, In k (keys ex_maps) -> map_key (fun _ => "") k.
Proof.
  split; [apply NoDup_dec_bool; reflexivity|]. intros k H.
  cbn in H. repeat destruct H as [<-|H]; try contradiction;
    try (left; cbn; tauto).
  - right. exists "R", (OInt 1). split; [cbn; tauto|split; [right; right; exists 1%Z; split; [lia|reflexivity]|reflexivity]].
  - right. exists "Z", (OInt 1). split; [cbn; tauto|split; [right; right; exists 1%Z; split; [lia|reflexivity]|reflexivity]].
  - right. exists "xt_prime", (OInt 1). split; [cbn; tauto|split; [right; right; exists 1%Z; split; [lia|reflexivity]|reflexivity]].
  - right. exists "R", (OInt (-1)). split; [cbn; tauto|split; [right; right; exists (-1)%Z; split; [lia|reflexivity]|reflexivity]].
  - right. exists "Z", (OInt (-1)). split; [cbn; tauto|split; [right; right; exists (-1)%Z; split; [lia|reflexivity]|reflexivity]].
  - right. exists "R", (OFloat (1#2)). split; [cbn; tauto|split; [now left|reflexivity]].
Qed.

Example C26_psi_free : forall nn, free_key (fun _ => "") nn "psi".
Proof.
  intros nn. split; [|split; [|split]].
  - intros [H|(f & o & Hf & Ho & E)]; [cbn in H; intuition discriminate|].
    destruct Ho as [->|[->|(z & Hz & ->)]].
    + cbn in E. cbn in Hf. repeat destruct Hf as [<-|Hf]; try contradiction; discriminate.
    + cbn in E. cbn in Hf. repeat destruct Hf as [<-|Hf]; try contradiction; discriminate.
    + revert E. intros E. eapply (name_int_not_listed (fun _ => "") f z "psi" ["psi"]); [exact Hz|exact E|reflexivity|now left].
  - cbn. intuition discriminate.
  - intros (m & z & Hm & Hz & E). eapply (name_int_not_listed (fun _ => "") _ z "psi" ["psi"]); [exact Hz|exact E|reflexivity|now left].
  - destruct nn; cbn; intuition discriminate.
Qed.

(** A non-finite metric component: the maps are in the file, the metric before
    the bad entry is, the bad one and the rest are not. *)
Example C25_concrete :
  let '(f, r) := ex_write (Ok [("dx", 50); ("g_yy", 53); ("dy", -1)]%Z) in
  r = Err AssertionError /\ f "R" = Some 1%Z /\ f "dx" = Some 50%Z /\ f "dy" = None /\ f "nx" = None.
Proof. vm_compute. repeat split. Qed.

Definition ex_doit (i : nat) : list (string * nat) := [("dagp_fv_volume", 10 + i)%nat; ("dagp_fv_XX", 20 + i)%nat].
Example C27_concrete :
  let f0 := {| prog := None; var := fun _ => None |} in
  (* stop during the third slice, with a torn store *)
  exists g, interrupted 0%nat ex_doit 4 f0 g /\ progress g = 2%Z /\
    computed (dagp_actions nat 0%nat ex_doit 4 g) = [2; 3]%nat /\
    (exists c, var g "dagp_fv_volume" = Some c /\ c 2%nat = 99%nat).
Proof.
  eexists. split; [apply (torn 0%nat ex_doit 4 _ 13 "dagp_fv_volume" 2 12%nat 99%nat); reflexivity|].
  split; [reflexivity|split; [reflexivity|]]. eexists. split; [vm_compute; reflexivity|reflexivity].
Qed.

Example C28_concrete :
  option_map (map fst) (final_history [fun k => "b" ++ k; fun k => "c" ++ k] [("title", "a"); ("id", "x")])
  = Some ["title"; "id"; "software_name"; "software_version"; "grid_id"; "old_title"; "old_id";
          "old0_title"; "old_software_name"; "old_software_version"; "old0_id"; "old_grid_id"].
Proof. vm_compute. reflexivity. Qed.

Example C29_concrete : exists g l, rectangular_grid tt 4 4 true = Ok g /\ admissible g /\
  par_ycoords (ycoords g) (Ly g) true (-3) = Ok l /\ map Qred l = [1; 2; 3; 4].
Proof.
  destruct (rectangular_ok tt 4 4 true) as (g & E & A & _); [lia|lra|]. exists g. 
  assert (Eg := E). vm_compute in Eg. injection Eg as <-.
  eexists. split; [exact E|split; [exact A|]]. split; [vm_compute; reflexivity|reflexivity].
Qed.
