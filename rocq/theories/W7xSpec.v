(** Vocabulary for the statements about W7X_vacuum. *)
From Coq Require Import String List ZArith QArith Qabs Bool.
From Verif Require Import Prelude NamingModel FieldModel PolModel W7xModel.
Import ListNotations.
Open Scope Q_scope.

(** What a call of field_values asks for: a configuration, and for each axis the
    number of points and both ends. *)
Record request := { q_cfg : configuration; q_n : nat * nat * nat; q_r : Q * Q; q_phi : Q * Q; q_z : Q * Q }.
Definition mesh_of (q : request) : mesh :=
  let '(nx, ny, nz) := q_n q in
  {| ax_r := linspace (fst (q_r q)) (snd (q_r q)) nx; ax_phi := linspace (fst (q_phi q)) (snd (q_phi q)) ny; ax_z := linspace (fst (q_z q)) (snd (q_z q)) nz |}.
(** At least one point along each axis. *)
Definition sizes_pos (q : request) : Prop := let '(nx, ny, nz) := q_n q in (1 <= nx /\ 1 <= ny /\ 1 <= nz)%nat.
(** The six ends; a single point is at the first one. *)
Definition two_ends (n : nat) (p : Q * Q) : list Q := [fst p; if (n <=? 1)%nat then fst p else snd p].
Definition bounds (q : request) : list Q :=
  let '(nx, ny, nz) := q_n q in (two_ends nx (q_r q) ++ two_ends ny (q_phi q) ++ two_ends nz (q_z q))%list.

(** Ends that are the same after rounding to two decimals. *)
Definition same_cents (a b : Q) : Prop := (a < 0 <-> b < 0) /\ round_even (Qabs a * 100) = round_even (Qabs b * 100).
(** Requests that rounding to two decimals does not mix up. *)
Definition told_apart (a b : request) : Prop := Forall2 same_cents (bounds a) (bounds b) -> bounds a = bounds b.

(** A history of calls in one directory. *)
Fixpoint calls (service : configuration -> mesh -> res samples) (st : dir) (l : list request) : list (res samples) :=
  match l with
  | [] => []
  | q :: l => let '(r, st') := field_values service st (q_cfg q) (mesh_of q) in r :: calls service st' l
  end.

Definition no_files : dir := fun _ => None.

(** A function of three variables that is affine in each of them. *)
Definition multi_affine (f : Q -> Q -> Q -> Q) : Prop :=
  exists c0 c1 c2 c3 c4 c5 c6 c7, forall r p z, f r p z == c0 + c1 * r + c2 * p + c3 * z + c4 * (r * p) + c5 * (r * z) + c6 * (p * z) + c7 * (r * p * z).

(** An object with a proper mesh. *)
Definition proper (m : mesh) : Prop :=
  (2 <= length (ax_r m))%nat /\ (2 <= length (ax_phi m))%nat /\ (2 <= length (ax_z m))%nat /\
  increasing (ax_r m) = true /\ increasing (ax_phi m) = true /\ increasing (ax_z m) = true.
(** Inside the box of the mesh. *)
Definition within_axis (l : list Q) (x : Q) : Prop := nth 0 l 0 <= x /\ x <= nth (length l - 1) l 0.
Definition within_box (m : mesh) (r phi z : Q) : Prop := within_axis (ax_r m) r /\ within_axis (ax_phi m) phi /\ within_axis (ax_z m) z.
(** A sample's component. *)
Definition Br_of (b : Q * Q * Q) : Q := fst (fst b).
Definition Bphi_of (b : Q * Q * Q) : Q := snd (fst b).
Definition Bz_of (b : Q * Q * Q) : Q := snd b.
(** x_range[0] and x_range[-1] *)
Definition range (l : list Q) (a b : Q) : Prop := exists m, l = a :: m /\ b = last l a.
