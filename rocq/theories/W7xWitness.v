(** Concrete requests and objects for W7X_vacuum. *)
From Coq Require Import String List ZArith QArith Qabs Lia Lqa Bool.
From Verif Require Import Prelude PreludeFacts NamingModel FieldModel PolModel W7xModel W7xSpec W7xNames W7xHist W7xInterp.
Import ListNotations.
Open Scope Q_scope.

(** 4.05 and 4.051 m *)
Definition near (x0 : Q) : request := {| q_cfg := CInt 0; q_n := (128, 32, 128)%nat; q_r := (x0, 655#100); q_phi := (0, 628#100); q_z := (-135#100, 135#100) |}.
Definition first : request := near (405#100).
Definition second : request := near (4051#1000).
(** a service whose answer is the position of the first point *)
Definition positions (c : configuration) (m : mesh) : res samples := Ok (fun i j k => (nth i (ax_r m) 0, nth j (ax_phi m) 0, nth k (ax_z m) 0)).

Lemma near_cents : Forall2 same_cents (bounds first) (bounds second).
Proof.
  unfold bounds, first, second, near. cbn [q_n q_r q_phi q_z two_ends app fst snd Nat.leb].
  repeat constructor; try (intros H; exact H); try reflexivity; unfold Qlt; cbn; lia.
Qed.
Lemma near_sizes x0 : sizes_pos (near x0).
Proof. unfold sizes_pos, near. cbn [q_n]. lia. Qed.
Lemma near_refuted : exists d2, nth 1 (calls positions no_files [first; second]) (Err OtherError) = Ok d2 /\
  exists d, positions (CInt 0) (mesh_of second) = Ok d /\ ~ Br_of (d2 0%nat 0%nat 0%nat) == Br_of (d 0%nat 0%nat 0%nat).
Proof.
  assert (E1 : fst (field_values positions no_files (q_cfg first) (mesh_of first)) = positions (q_cfg first) (mesh_of first)).
  { pose proof (one_call positions [first] no_files first) as K. destruct (field_values positions no_files (q_cfg first) (mesh_of first)) as [r st'].
    cbn [fst]. apply K.
    - intros q [<-|[]]. cbn. eauto.
    - intros a b [<-|[]] [<-|[]] _. reflexivity.
    - now left.
    - apply near_sizes.
    - intros n d H. discriminate H. }
  pose proof (confused positions no_files first second _ eq_refl eq_refl (near_sizes _) near_cents E1) as E2.
  cbn [calls]. destruct (field_values positions no_files (q_cfg first) (mesh_of first)) as [r1 st1]. cbn [fst snd] in *.
  destruct (field_values positions st1 (q_cfg second) (mesh_of second)) as [r2 st2]. cbn [fst nth] in *. subst r2.
  eexists. split; [reflexivity|]. eexists. split; [reflexivity|]. cbv [Br_of fst snd]. change (mesh_of first) with (mesh_of (near (405#100))). 
  assert (L : forall x0, nth 0 (ax_r (mesh_of (near x0))) 0 = x0) by reflexivity. change second with (near (4051#1000)). rewrite !L. discriminate.
Qed.

(** Told apart: other radii, other configurations. *)
Definition apart : list request := [near (405#100); near (410#100); {| q_cfg := CName "FMM002"; q_n := (128, 32, 128)%nat; q_r := (405#100, 655#100); q_phi := (0, 628#100); q_z := (-135#100, 135#100) |}; near (405#100)].
Lemma apart_ok : (forall q, In q apart -> exists k, set_config (q_cfg q) = Ok k) /\ (forall a b, In a apart -> In b apart -> told_apart a b) /\ (forall q, In q apart -> sizes_pos q).
Proof.
  split; [|split].
  - intros q [<-|[<-|[<-|[<-|[]]]]]; eexists; reflexivity.
  - assert (K : ~ same_cents (405#100) (410#100)) by (intros [_ H]; discriminate H).
    assert (K' : ~ same_cents (410#100) (405#100)) by (intros [_ H]; discriminate H).
    intros a b [<-|[<-|[<-|[<-|[]]]]] [<-|[<-|[<-|[<-|[]]]]] F; try reflexivity; exfalso; inversion F; subst; cbn [q_r fst near] in *; contradiction.
  - intros q [<-|[<-|[<-|[<-|[]]]]]; unfold sizes_pos; cbn [q_n near]; lia.
Qed.

(** An object from a service that gives affine samples. *)
Definition small : mesh := {| ax_r := linspace 4 6 3; ax_phi := linspace 0 6 4; ax_z := linspace (-1) 1 3 |}.
Definition from_positions : w7x := {| w_mesh := small; w_B := fun i j k => (nth i (ax_r small) 0, nth j (ax_phi small) 0 * nth i (ax_r small) 0, nth k (ax_z small) 0) |}.
Lemma small_proper : proper small.
Proof. unfold proper, small. cbn [ax_r ax_phi ax_z]. rewrite !linspace_length. repeat split; try lia; apply linspace_increasing; reflexivity. Qed.

(** The planes of the default z_range. *)
Lemma default_planes k : (k < 128)%nat -> nth k (linspace (-(135#100)) 35 128) 0 == -(135#100) + inject_Z (Z.of_nat k) * (3635#12700).
Proof. intros H. rewrite linspace_nth by lia. change (inject_Z (Z.of_nat (128 - 1))) with 127. field. Qed.
Lemma default_few : forall k, (k < 128)%nat -> (nth k (linspace (-(135#100)) 35 128) 0 <= 135#100 <-> (k < 10)%nat).
Proof.
  intros k H. rewrite default_planes by exact H. split.
  - intros L. destruct (Nat.lt_ge_cases k 10) as [G|G]; [exact G|]. exfalso.
    assert (10 <= inject_Z (Z.of_nat k)) by (change 10 with (inject_Z 10); rewrite <- Zle_Qle; lia). lra.
  - intros L. assert (inject_Z (Z.of_nat k) <= 9) by (change 9 with (inject_Z 9); rewrite <- Zle_Qle; lia). lra.
Qed.
