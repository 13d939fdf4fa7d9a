(** grid_annulus. *)
From Coq Require Import List ZArith QArith Qround Qfield Lia Lqa Bool.
From Verif Require Import Prelude PreludeFacts PolModel PolSpec PolProofs.
Import ListNotations.
Open Scope Q_scope.

Lemma annulus_rows iR iZ oR oZ nx nz rc g : grid_annulus iR iZ oR oZ nx nz rc = Ok g ->
  (2 <= nx)%Z /\ (2 <= nz)%Z /\ g_nx g = nx /\ g_nz g = nz /\
  forall j, let t := inject_Z j / inject_Z nz in
    (g_R g 0%Z j == iR t /\ g_Z g 0%Z j == iZ t) /\
    (g_R g (nx - 1)%Z j == oR t /\ g_Z g (nx - 1)%Z j == oZ t) /\
    (forall i, g_R g i j == iR t + inject_Z i * ((oR t - iR t) / inject_Z (nx - 1)) /\
               g_Z g i j == iZ t + inject_Z i * ((oZ t - iZ t) / inject_Z (nx - 1))).
Proof.
  unfold grid_annulus. destruct (Z.leb_spec 2 nx) as [H|]; [|discriminate]. destruct (Z.ltb_spec 1 nz) as [H'|]; [|discriminate]. cbn [negb].
  intros E. assert (N : ~ inject_Z (nx - 1) == 0) by (apply injz_neq0; lia).
  assert (Eg : g = {| g_nx := nx; g_nz := nz;
                g_R := fun i j => inject_Z i / inject_Z (nx - 1) * oR (inject_Z j / inject_Z nz) + (1 - inject_Z i / inject_Z (nx - 1)) * iR (inject_Z j / inject_Z nz);
                g_Z := fun i j => inject_Z i / inject_Z (nx - 1) * oZ (inject_Z j / inject_Z nz) + (1 - inject_Z i / inject_Z (nx - 1)) * iZ (inject_Z j / inject_Z nz) |}).
  { destruct rc; [now injection E|]. unfold struct_init in E. destruct (4 <? _)%Z; [destruct (Qle_bool _ _)|]; now inversion E. }
  subst g. cbn [g_nx g_nz g_R g_Z]. repeat split; try lia; try reflexivity.
  - change (inject_Z 0) with 0. field. exact N.
  - change (inject_Z 0) with 0. field. exact N.
  - field. exact N.
  - field. exact N.
  - field. exact N.
  - field. exact N.
Qed.

Lemma annulus_accepts iR iZ oR oZ nx nz :
  ((exists g, grid_annulus iR iZ oR oZ nx nz true = Ok g) <-> (2 <= nx)%Z /\ (2 <= nz)%Z) /\
  (forall rc, ~ ((2 <= nx)%Z /\ (2 <= nz)%Z) -> grid_annulus iR iZ oR oZ nx nz rc = Err AssertionError) /\
  (forall g, grid_annulus iR iZ oR oZ nx nz true = Ok g ->
     grid_annulus iR iZ oR oZ nx nz false =
       if (4 <? nx)%Z then if Qle_bool (row_area g 2) (row_area g (nx - 2)) then Ok g else Err AssertionError else Ok g).
Proof.
  unfold grid_annulus. destruct (Z.leb_spec 2 nx) as [H|H].
  - destruct (Z.ltb_spec 1 nz) as [H'|H']; cbn [negb].
    + split; [split; [intros; lia|eauto]|]. split; [intros; lia|]. intros g [= <-]. reflexivity.
    + split; [split; [intros [g E]; discriminate|lia]|]. split; [reflexivity|discriminate].
  - cbn [negb]. split; [split; [intros [g E]; discriminate|lia]|]. split; [reflexivity|discriminate].
Qed.
