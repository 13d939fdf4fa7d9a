(** Property C87: the maps of a slab on a rectangular grid. *)
From Coq Require Import String List ZArith QArith Qabs Bool.
From Verif Require Import Prelude NamingModel NamingSpec GridModel PolModel FieldModel MapsModel MapsSpec MapsExamples SlabModel SlabSpec SlabProofs.
Import ListNotations.
Open Scope Q_scope.

(** The tracer: its lines start where they should, and any chord has the direction that
    field_direction gives at every point of the line. *)
Theorem C87_tracer f By Bz xc Bzp Rm y0 p : (1 # 100000000) <= Qabs By -> is_slab_field f By Bz xc Bzp Rm ->
  (fst (straight f y0 p y0) == fst p /\ snd (straight f y0 p y0) == snd p) /\
  forall y1 y2 y, exists dx dz, direction f [fst (straight f y0 p y)] [snd (straight f y0 p y)] y = Ok ([dx], [dz]) /\
    fst (straight f y0 p y2) - fst (straight f y0 p y1) == dx * (y2 - y1) /\
    snd (straight f y0 p y2) - snd (straight f y0 p y1) == dz * (y2 - y1).
Proof. intros H HF. split; [exact (slab_begins f By Bz xc Bzp Rm y0 p H HF)|intros y1 y2 y; exact (slab_exact f By Bz xc Bzp Rm y0 p y1 y2 y H HF)]. Qed.
Print Assumptions C87_tracer.

Section Maps.
Variables (nx nz M : Z) (Lx Lz Rc Zc : Q) (r : rect).
Hypothesis Hr : rect_init nx nz Lx Lz Rc Zc M = Ok r.
Hypothesis HM : (0 < nx - 2 * M)%Z.
Hypothesis Hnz : (0 < nz)%Z.
Hypothesis HLx : ~ Lx == 0.
Hypothesis HLz : ~ Lz == 0.
Variables (n : nat) (L : Q) (per : bool) (g : grid rect).
Hypothesis Hn : (0 < n)%nat.
Hypothesis HL : 0 < L.
Hypothesis Hg : rectangular_grid r n L per = Ok g.
Variables (f : field) (By Bz xc Bzp Rm : Q).
Hypothesis HB : (1 # 100000000) <= Qabs By.
Hypothesis HF : is_slab_field f By Bz xc Bzp Rm.
Variable repr : Q -> string.
Variable roots_jacobi : nat -> list Q * list Q.
Variable fll : list (Q * Q) -> list Q -> Q.
Variable Jperp : rect -> Z -> Z -> Q.
Variable is_slab : bool.
Hypothesis Hroots : forall m, length (fst (roots_jacobi m)) = m.
Variables (nslice mxg spd : Z) (refine : nat).
Hypothesis Hns : (0 <= nslice)%Z.
Hypothesis Hspd : (1 <= spd)%Z.
Hypothesis Hacc : weights_accepted roots_jacobi spd = true.
Hypothesis Href : (1 <= refine)%nat.
Let run := slab_maps repr f roots_jacobi fll Jperp is_slab g nslice mxg spd refine.

Theorem C87_run : forall n_chunks junk, n_chunks <> 0%nat -> exists d, run n_chunks junk = Ok d.
Proof. exact (maps_run r n L per g Hn HL Hg f repr roots_jacobi fll Jperp is_slab Hroots nslice mxg spd refine Hns Hspd Hacc Href). Qed.

(** Columns stay where they are and move in z by the pitch at their x, times the distance to
    the slice, also across the end of the period; -1 where there is no slice. *)
Theorem C87_maps : forall n_chunks junk d o j, n_chunks <> 0%nat -> run n_chunks junk = Ok d ->
  (o <> 0)%Z -> (Z.abs o <= nslice)%Z -> (0 <= j < Z.of_nat n)%Z ->
  exists aR ax az, stored repr d "R" (OInt o) aR /\ stored repr d "xt_prime" (OInt o) ax /\ stored repr d "zt_prime" (OInt o) az /\
    forall i k s, aR i j k s == x_pos nx M Lx Rc i /\
      if has_slice per n (j + o) then ax i j k s == inject_Z i /\ az i j k s == inject_Z k + shift nx nz M Lx Lz Rc n L By Bz xc Bzp Rm i o
      else ax i j k s = -(1) /\ az i j k s = -(1).
Proof. exact (maps_entries nx nz M Lx Lz Rc Zc r Hr HM Hnz HLx HLz n L per g Hn HL Hg f By Bz xc Bzp Rm HB HF repr roots_jacobi fll Jperp is_slab Hroots nslice mxg spd refine Hns Hspd Hacc Href). Qed.

(** Following the map of o1 and then that of o2 is following the map of o1 + o2, *)
Theorem C87_compose : forall n_chunks junk d o1 o2 j, n_chunks <> 0%nat -> run n_chunks junk = Ok d ->
  (o1 <> 0)%Z -> (o2 <> 0)%Z -> (o1 + o2 <> 0)%Z -> (Z.abs o1 <= nslice)%Z -> (Z.abs o2 <= nslice)%Z -> (Z.abs (o1 + o2) <= nslice)%Z ->
  (0 <= j < Z.of_nat n)%Z -> has_slice per n (j + o1) = true -> has_slice per n (j + o1 + o2) = true ->
  exists a1 a2 a3, stored repr d "zt_prime" (OInt o1) a1 /\ stored repr d "zt_prime" (OInt o2) a2 /\ stored repr d "zt_prime" (OInt (o1 + o2)) a3 /\
    forall i k k' s, a3 i j k s - inject_Z k == (a1 i j k s - inject_Z k) + (a2 i ((j + o1) mod Z.of_nat n)%Z k' s - inject_Z k').
Proof. exact (maps_compose nx nz M Lx Lz Rc Zc r Hr HM Hnz HLx HLz n L per g Hn HL Hg f By Bz xc Bzp Rm HB HF repr roots_jacobi fll Jperp is_slab Hroots nslice mxg spd refine Hns Hspd Hacc Href). Qed.

(** and following the map of o and then that of -o leads back. *)
Theorem C87_back : forall n_chunks junk d o j, n_chunks <> 0%nat -> run n_chunks junk = Ok d ->
  (o <> 0)%Z -> (Z.abs o <= nslice)%Z -> (0 <= j < Z.of_nat n)%Z -> has_slice per n (j + o) = true ->
  exists a1 a2, stored repr d "zt_prime" (OInt o) a1 /\ stored repr d "zt_prime" (OInt (- o)) a2 /\
    forall i k k' s, (a1 i j k s - inject_Z k) + (a2 i ((j + o) mod Z.of_nat n)%Z k' s - inject_Z k') == 0.
Proof. exact (maps_back nx nz M Lx Lz Rc Zc r Hr HM Hnz HLx HLz n L per g Hn HL Hg f By Bz xc Bzp Rm HB HF repr roots_jacobi fll Jperp is_slab Hroots nslice mxg spd refine Hns Hspd Hacc Href). Qed.

(** The three fields By are By, and J of the curved slab is Jperp times x. *)
Theorem C87_By : forall n_chunks junk d, n_chunks <> 0%nat -> run n_chunks junk = Ok d ->
  forall name, In name ["By_cell_ylow"; "By"; "By_cell_yhigh"]%string -> exists a, d name = Some (VArr a) /\
  forall i j k s, (0 <= i < nx)%Z -> (0 <= j < Z.of_nat n)%Z -> a i j k s = By.
Proof. exact (maps_B nx nz M Lx Lz Rc Zc r Hr n L per g Hn HL Hg f By Bz xc Bzp Rm HF repr roots_jacobi fll Jperp is_slab Hroots nslice mxg spd refine Hns Hspd Hacc Href). Qed.
Theorem C87_J : forall n_chunks junk d, n_chunks <> 0%nat -> run n_chunks junk = Ok d -> is_slab = false ->
  exists a, d "J"%string = Some (VArr a) /\
  forall i j k s, (0 <= i < nx)%Z -> (0 <= j < Z.of_nat n)%Z -> a i j k s == Jperp r i k * x_pos nx M Lx Rc i.
Proof. exact (maps_J nx nz M Lx Lz Rc Zc r Hr HM n L per g Hn HL Hg f By Bz xc Bzp Rm HB HF repr roots_jacobi fll Jperp is_slab Hroots nslice mxg spd refine Hns Hspd Hacc Href). Qed.
End Maps.
Print Assumptions C87_run.
Print Assumptions C87_maps.
Print Assumptions C87_compose.
Print Assumptions C87_back.
Print Assumptions C87_By.
Print Assumptions C87_J.

(** Concrete: 5 columns, 4 rows, 3 slices, two offsets each way; the shift of column 3 over one slice is
    (1/10 + 1/3) * 2 / (1/4) cells. *)
Example C87_example :
  match rect_init 5 4 1 1 0 0 1 with
  | Ok r => match rectangular_grid r 3 6 true with
            | Ok g => exists d, slab_maps (fun _ => ""%string) (slab 1 (1 # 10) 0 1) ex_roots ex_fll (fun _ _ _ => 1) true g 2 1 2 2 2 ex_junk = Ok d
            | Err _ => False
            end
  | Err _ => False
  end /\
  is_slab_field (slab 1 (1 # 10) 0 1) 1 (1 # 10) 0 1 1 /\ (1 # 100000000) <= Qabs 1 /\
  weights_accepted ex_roots 2 = true /\ has_slice true 3 (2 + 2) = true /\ has_slice false 3 (2 + 2) = false /\
  shift 5 4 1 1 1 0 3 6 1 (1 # 10) 0 1 1 3 1 == ((1 # 10) + (1 # 3)) * 2 / (1 # 4).
Proof.
  split; [|repeat split; try reflexivity; try discriminate; left; now split].
  destruct (rect_init 5 4 1 1 0 0 1) as [r|e] eqn:Er; [|discriminate Er].
  destruct (rectangular_grid r 3 6 true) as [g|e] eqn:Eg; [|discriminate Eg].
  apply (C87_run r 3 6 true g) with (roots_jacobi := ex_roots); try reflexivity; try assumption; try discriminate.
  all: first [exact (proj1 (proj2 (proj2 ex_hyps)))|now apply Nat.leb_le].
Qed.
