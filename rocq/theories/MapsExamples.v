(** Concrete instances of make_maps for the non-vacuity examples and refutations. *)
From Coq Require Import String List ZArith QArith Lia Bool.
From Verif Require Import Prelude PreludeFacts NamingModel NamingSpec GridModel GridSpec
  MapsModel MapsSpec MapsMain.
Import ListNotations.
Open Scope string_scope.
Open Scope Q_scope.

(** Lines moving along Z with unit pitch. *)
Definition ex_flow (a b : arr2) (y0 y : Q) : arr2 * arr2 := (a, fun x z => b x z + (y - y0)).
Definition ex_trace (a b : arr2) (ys : list Q) : list (arr2 * arr2) := map (ex_flow a b (hd 0 ys)) ys.
Definition ex_t1 (r z : Q) (ys : list Q) : list (Q * Q) := map (fun y => (r, z + (y - hd 0 ys))) ys.
(** The composite midpoint rule in place of Gauss-Legendre. *)
Definition ex_roots (n : nat) : list Q * list Q :=
  (map (fun i => inject_Z (2 * Z.of_nat i + 1) / inject_Z (Z.of_nat n) - 1) (seq 0 n),
   repeat (2 / inject_Z (Z.of_nat n)) n).
Definition ex_grid : grid unit :=
  {| poloidal_grids := [tt; tt; tt]; ycoords := [0; 1; 2]; Ly := 3; yperiodic := true |}.
(** R = 1 + x, Z = z, 3 points each way, unit spacing. *)
Definition ex_pR (_ : unit) : arr2 := fun x z => 1 + inject_Z x.
Definition ex_pZ (_ : unit) : arr2 := fun x z => inject_Z z.
Definition ex_n (_ : unit) : nat := 3%nat.
Definition ex_find (_ : unit) (R Z : arr2) : arr2 * arr2 := ((fun x z => R x z - 1), Z).
Definition ex_no_wall : arr2 -> Q -> arr2 -> Z -> Z -> bool := fun _ _ _ _ _ => false.
(** Everything is outside beyond y = 3/2, everything inside before. *)
Definition ex_moving_wall : arr2 -> Q -> arr2 -> Z -> Z -> bool := fun _ y _ _ _ => Qlt_bool (3#2) y.
Definition ex_junk : jstate := {| s_J := zeros; s_sg := fun _ => zeros; s_B := fun _ => zeros |}.
Definition ex_fll (l : list (Q * Q)) (ys : list Q) : Q := last ys 0 - hd 0 ys.

Definition ex_run (outside : arr2 -> Q -> arr2 -> Z -> Z -> bool) (nslice spd : Z) : res dict :=
  make_maps (fun _ => "") unit ex_pR ex_pZ ex_n ex_n ex_find ex_trace outside (fun _ _ _ => 2) ex_roots ex_fll
    (fun _ _ _ => 1#2) false ex_grid nslice 2 spd 2 2 ex_junk.

Lemma ex_hyps : follows ex_trace ex_flow /\ pointwise ex_trace ex_t1 /\
  (forall n, length (fst (ex_roots n)) = n) /\ well_formed ex_grid /\ weights_accepted ex_roots 2 = true.
Proof.
  split; [|split; [|split; [|split]]].
  - intros a b y0 ys. unfold ex_trace. cbn [map hd]. eexists. reflexivity.
  - split.
    + intros a b ys x z. unfold line, ex_trace, ex_t1, ex_flow. rewrite map_map. reflexivity.
    + intros. unfold ex_t1. apply map_length.
  - intros n. cbn [ex_roots fst]. now rewrite map_length, seq_length.
  - split; cbn; lia.
  - vm_compute. reflexivity.
Qed.

Definition ex_get (r : res dict) (k : string) (x j z s : Z) : option Q :=
  match r with Ok d => match d k with Some (VArr a) => Some (Qred (a x j z s)) | _ => None end | Err _ => None end.

Lemma ex_total outside nslice spd : (0 <= nslice)%Z -> (1 <= spd)%Z -> weights_accepted ex_roots spd = true ->
  exists d, ex_run outside nslice spd = Ok d.
Proof.
  intros H1 H2 H3. destruct ex_hyps as (A1 & A2 & A3 & A4 & _).
  apply (never_fails (fun _ => "") ex_pR ex_pZ ex_n ex_n ex_find ex_trace outside (fun _ _ _ => 2) ex_roots ex_fll
    (fun _ _ _ => 1#2) false ex_flow ex_t1 A1 A2 A3 ex_grid A4 nslice 2 spd 2); auto.
Qed.

Lemma ex_get_stored r d k f o a x j z s : r = Ok d -> parallel_slice_field_name (fun _ => "") f o = Ok k ->
  stored (fun _ => "") d f o a -> ex_get r k x j z s = Some (Qred (a x j z s)).
Proof.
  intros -> H (n & E1 & E2). rewrite H in E1. injection E1 as <-. unfold ex_get. now rewrite E2.
Qed.

Lemma moving_wall : exists d y,
  ex_run ex_moving_wall 2 1 = Ok d /\ y_of ex_grid 0 (OInt 1) y /\
  ~ entries_at (fun _ => "") ex_pR ex_pZ ex_find ex_flow ex_moving_wall ex_grid d (OInt 1) 0 y.
Proof.
  destruct (ex_total ex_moving_wall 2 1) as [d E]; [lia|lia|reflexivity|].
  eexists d, _. split; [exact E|]. split; [eexists; vm_compute; reflexivity|].
  intros (pol & yj & po & yo & aR & aZ & ax & az & E1 & E2 & _ & _ & S3 & _ & V).
  vm_compute in E1, E2. injection E1 as <- <-. injection E2 as <- <-.
  cbn zeta in V. destruct (V 0%Z 0%Z 0%Z) as (_ & _ & V3 & _).
  apply (ex_get_stored _ d "forward_xt_prime" "xt_prime" (OInt 1) _ 0 0 0 0 E eq_refl) in S3.
  rewrite V3 in S3. vm_compute in S3. discriminate.
Qed.

Lemma wrong_starts : exists d, ex_run ex_no_wall 1 2 = Ok d /\
  sub_entries_at (fun _ => "") ex_find ex_flow ex_no_wall (fst (ex_roots 2)) ex_grid
    (actual_start ex_pR ex_pZ ex_n ex_n) d (OInt 1) 0 /\
  ~ sub_entries_at (fun _ => "") ex_find ex_flow ex_no_wall (fst (ex_roots 2)) ex_grid
    (intended_start ex_pR ex_pZ ex_n ex_n) d (OInt 1) 0.
Proof.
  destruct (ex_total ex_no_wall 1 2) as [d E]; [lia|lia|reflexivity|].
  exists d. split; [exact E|]. destruct ex_hyps as (A1 & A2 & A3 & A4 & A5). split.
  - apply (outermost_sub (fun _ => "") ex_pR ex_pZ ex_n ex_n ex_find ex_trace ex_no_wall (fun _ _ _ => 2) ex_roots ex_fll
    (fun _ _ _ => 1#2) false ex_flow ex_t1 A1 A2 A3 ex_grid A4 1 2 2 2 ltac:(lia) ltac:(lia) A5 ltac:(lia) 2 ex_junk d 1 0); auto.
    lia. cbn. lia.
  - intros (pol & yj & po & yo & ax & az & E1 & E2 & _ & S4 & V).
    vm_compute in E1, E2. injection E1 as <- <-. injection E2 as <- <-.
    specialize (V 0%nat 1%nat _ _ eq_refl eq_refl). cbn zeta in V.
    destruct (V 1%Z 1%Z) as (_ & V4).
    apply (ex_get_stored _ d "forward_zt_primes" "zt_primes" (OInt 1) _ 1 0 1 1 E eq_refl) in S4.
    change (Z.of_nat (0 * length (fst (ex_roots 2)) + 1)) with 1%Z in V4.
    rewrite V4 in S4. vm_compute in S4. discriminate.
Qed.

Definition ex_show :=
  let r := ex_run ex_no_wall 1 2 in
  (ex_get r "R" 1 0 1 0, ex_get r "forward_zt_prime" 1 0 1 0, ex_get r "backward_zt_prime" 1 0 1 0,
   ex_get r "forward_xt_primes" 1 0 1 1, ex_get r "J" 2 1 0 0, ex_get r "Ly" 1 1 1 0, ex_get r "By" 1 1 1 0).
