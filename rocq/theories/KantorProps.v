(** Property C115: the index search converges on curved grids. *)
From Coq Require Import List ZArith QArith Qabs Qminmax Bool Lia Lqa.
From Verif Require Import Prelude PreludeFacts PolModel PolSpec PolNewton KantorSpec PolKantor.
Import ListNotations.
Open Scope Q_scope.

(** ** C115 *)
Theorem C115_converges : forall nx nz splR splZ nearest zneg, (2 <= nx)%Z -> (0 < nz)%Z -> (forall t, (0 <= nearest t < nx * nz)%Z) ->
  forall tol, 0 < tol -> forall targets beta L, targets <> [] -> forall fuel, (13 <= fuel)%nat ->
  Forall (fun t => (regular nx nz splR splZ nearest t (beta t) (L t) /\ r0 nz splR splZ nearest t * r0 nz splR splZ nearest t < inject_Z (2 ^ 1021) * tol)
    \/ at_boundary nx nz splR splZ nearest t) targets ->
  exists l, findIndex nx nz splR splZ nearest zneg fuel targets tol = Some (Ok l) /\
  Forall2 (fun t p => (regular nx nz splR splZ nearest t (beta t) (L t) -> found nz splR splZ nearest tol t (beta t) p) /\
    (at_boundary nx nz splR splZ nearest t -> marked nx nz nearest t p)) targets l.
Proof. intros nx nz sR sZ nr zn H1 H2 H3 tol H4 ts b L H5 fuel H6. now apply kantorovich. Qed.
Print Assumptions C115_converges.

(** Any answer in the square within the tolerance is close to the true index *)
Theorem C115_accuracy : forall nx nz splR splZ nearest, (2 <= nx)%Z -> forall tol t beta L xs zs x z,
  regular nx nz splR splZ nearest t beta L -> 4 * (L * beta * beta * r0 nz splR splZ nearest t) <= 1 ->
  around nz nearest t (2 * beta * r0 nz splR splZ nearest t) xs zs -> at_index nz splR 0 0 xs zs == fst t -> at_index nz splZ 0 0 xs zs == snd t ->
  found nz splR splZ nearest tol t beta (Fin x, Fin z) ->
  (x - xs) * (x - xs) <= 4 * (beta * beta) * tol /\ (z - zs) * (z - zs) <= 4 * (beta * beta) * tol.
Proof.
  intros nx nz sR sZ nr Hn tol t b L xs zs x z K K4 A E1 E2 (x' & z' & E & A' & V). injection E as <- <-.
  exact (accuracy nx nz sR sZ nr tol t b L xs zs x z K K4 A E1 E2 A' V).
Qed.
Print Assumptions C115_accuracy.

(** A grid whose rows are not equally spaced: R = x + x^2 / 64, Z = z *)
Definition curved_R (d e : nat) (x _ : Q) : Q :=
  match d, e with O, O => x + x * x / 64 | S O, O => 1 + x / 32 | _, _ => 0 end.
Definition curved_Z (d e : nat) (_ z : Q) : Q := match d, e with O, O => z - 4 | O, S O => 1 | _, _ => 0 end.
Definition curved_near (t : Q * Q) : Z := if Qlt_bool (fst t) 1 then 1%Z else 9%Z.
Definition curved_target : Q * Q := ((17 # 8) + (289 # 4096), 9 # 8).

Lemma curved_wrap z : Qabs (z - 1) <= 1 # 2 -> qrem z (inject_Z 4) == z.
Proof. intros H. apply Qabs_Qle_condition in H. apply qrem_small; [reflexivity|lra|]. change (inject_Z 4) with 4. lra. Qed.
Lemma curved_r0 : r0 4 curved_R curved_Z curved_near curved_target == 545 # 4096.
Proof. reflexivity. Qed.
Example C115_regular : regular 5 4 curved_R curved_Z curved_near curved_target 1 (1 # 32).
Proof.
  assert (E := curved_r0). assert (AR : forall x z, around 4 curved_near curved_target (2 * 1 * r0 4 curved_R curved_Z curved_near curved_target) x z ->
    Qabs (x - 2) <= 1 # 2 /\ Qabs (z - 1) <= 1 # 2).
  { intros x z (A & B). rewrite E in A, B. change (near_x 4 curved_near curved_target) with 2 in A. change (near_z 4 curved_near curved_target) with 1 in B. split; lra. }
  constructor.
  - discriminate.
  - discriminate.
  - rewrite E. discriminate.
  - rewrite E. split; discriminate.
  - intros x z A. destruct (AR x z A) as (X & _). apply Qabs_Qle_condition in X. cbn -[Qabs]. unfold at_index, curved_R, curved_Z.
    setoid_replace ((1 + x / 32) * 1 - 0 * 0) with (1 + x / 32) by ring.
    assert (P : 1 <= 1 + x / 32). { assert (0 <= x / 32) by (apply Qle_shift_div_l; lra). lra. }
    rewrite (Qabs_pos (1 + x / 32)) by lra. change (Qabs 1) with 1. change (Qabs 0) with 0. split; [intros C|split]; lra.
  - intros x z x' z' h A A' HX HZ. destruct (AR x z A) as (_ & Z1). destruct (AR x' z' A') as (_ & Z2).
    unfold at_index, curved_R, curved_Z. rewrite (curved_wrap z Z1), (curved_wrap z' Z2). change (inject_Z 4) with 4.
    assert (H0 : 0 <= h) by (apply Qle_trans with (2 := HX); apply Qabs_nonneg).
    assert (SQ : (x' - x) * (x' - x) <= h * h) by (rewrite <- abs_sq; apply Qsq_le; [apply Qabs_nonneg|exact HX]).
    assert (S0 : 0 <= (x' - x) * (x' - x)) by (rewrite <- abs_sq; assert (W := Qabs_nonneg (x' - x)); nra).
    setoid_replace (x' + x' * x' / 64 - (x + x * x / 64) - ((1 + x / 32) * (x' - x) + 0 * (z' - z))) with ((1 # 64) * ((x' - x) * (x' - x))) by field.
    setoid_replace (z' + 4 - 4 - (z + 4 - 4) - (0 * (x' - x) + 1 * (z' - z))) with 0 by ring.
    assert (HL : (1 # 32) / 2 * (h * h) == (1 # 64) * (h * h)) by field. rewrite HL. assert (HH : 0 <= h * h) by nra. split.
    + rewrite Qabs_pos by lra. lra.
    + change (Qabs 0) with 0. lra.
Qed.
Example C115_boundary : at_boundary 5 4 curved_R curved_Z curved_near (0, 1).
Proof. split; [left; reflexivity|]. intros x z X _. unfold at_index, curved_R, curved_Z. change (near_x 4 curved_near (0, 1)) with 0 in X. rewrite X. discriminate. Qed.
Example C115_example : exists l, findIndex 5 4 curved_R curved_Z curved_near (fun _ _ => false) 13 [curved_target; (0, 1)] (1 # 10000000000) = Some (Ok l) /\
  exists x z z', l = [(Fin x, Fin z); (Fin (-(1)), Fin z')] /\ (x - (17 # 8)) * (x - (17 # 8)) <= 4 # 10000000000 /\ (z - (9 # 8)) * (z - (9 # 8)) <= 4 # 10000000000 /\ z' == 1.
Proof.
  destruct (C115_converges 5 4 curved_R curved_Z curved_near (fun _ _ => false)) with (tol := 1 # 10000000000) (targets := [curved_target; (0, 1)]) (beta := fun _ : Q * Q => 1) (L := fun _ : Q * Q => 1 # 32) (fuel := 13%nat)
    as (l & E & F); [lia|lia| |reflexivity|discriminate|lia| |].
  - intros t. unfold curved_near. destruct (Qlt_bool (fst t) 1); lia.
  - constructor; [left|constructor; [right; exact C115_boundary|constructor]]. split; [exact C115_regular|]. rewrite curved_r0. reflexivity.
  - exists l. split; [exact E|]. inversion F as [|? p ? l1 (F1 & _) F2]; subst. inversion F2 as [|? p' ? l2 (_ & F3) F4]; subst. inversion F4; subst.
    destruct (F3 C115_boundary) as (z' & -> & Z0). assert (FD := F1 C115_regular). destruct FD as (x & z & -> & FD).
    exists x, z, z'. split; [reflexivity|].
    destruct (C115_accuracy 5 4 curved_R curved_Z curved_near) with (tol := 1 # 10000000000) (t := curved_target) (beta := 1) (L := 1 # 32) (xs := 17 # 8) (zs := 9 # 8) (x := x) (z := z) as (A & B);
      [lia|exact C115_regular|rewrite curved_r0; discriminate| |reflexivity|reflexivity|exists x, z; split; [reflexivity|exact FD]|].
    + split; rewrite curved_r0; discriminate.
    + split; [|split; [|exact Z0]].
      * apply Qle_trans with (1 := A). discriminate.
      * apply Qle_trans with (1 := B). discriminate.
Qed.
