(** FieldTracerReversible (fieldtracer.py:133-317). *)
From Coq Require Import List ZArith QArith Bool.
From Verif Require Import Prelude TracerModel.
Import ListNotations.
Open Scope Q_scope.

(** Arrays are modified in place, so they live in a store.  [Caller n]: arrays of
    the caller; [TmpX], [TmpZ]: copies made by follow_field_lines. *)
Inductive loc := Caller (n : nat) | TmpX | TmpZ.
Definition loc_eqb (a b : loc) : bool :=
  match a, b with Caller n, Caller m => (n =? m)%nat | TmpX, TmpX => true | TmpZ, TmpZ => true | _, _ => false end.
Definition store := loc -> list Q.
Definition upd (s : store) (l : loc) (v : list Q) : store := fun l' => if loc_eqb l' l then v else s l'.

Definition vadd (a b : list Q) : list Q := map (fun p => Qred (fst p + snd p)) (combine a b).
Definition vsub (a b : list Q) : list Q := map (fun p => Qred (fst p - snd p)) (combine a b).

Section Rev.
(** self.field_direction((x, z), y) at one point.  The code calls it on arrays;
    it acts on each entry separately (see FieldModel). *)
Variable dir : Q -> Q -> Q -> Q * Q.
Variable rtol eps : Q.

(** fieldtracer.py:273-306: (dx, dz) at one point, None for a vanishing
    determinant (the code then computes inf or NaN and never converges) *)
Definition newton_delta (y dy : Q) (h p : Q * Q) : option (Q * Q) :=
  let '(x, z) := p in
  let '(xh, zh) := h in
  let '(dxdy, dzdy) := dir x z y in
  let '(dxdy_xe, dzdy_xe) := dir (x + eps) z y in
  let dxdy_x := (dxdy_xe - dxdy) / eps in
  let dzdy_x := (dzdy_xe - dzdy) / eps in
  let '(dxdy_ze, dzdy_ze) := dir x (z + eps) y in
  let dxdy_z := (dxdy_ze - dxdy) / eps in
  let dzdy_z := (dzdy_ze - dzdy) / eps in
  let fx := (1#2) * dxdy * dy - x + xh in
  let fz := (1#2) * dzdy * dy - z + zh in
  let dfxdx := (1#2) * dxdy_x * dy - 1 in
  let dfxdz := (1#2) * dxdy_z * dy in
  let dfzdx := (1#2) * dzdy_x * dy in
  let dfzdz := (1#2) * dzdy_z * dy - 1 in
  let determinant := dfxdx * dfzdz - dfxdz * dfzdx in
  if Qeq_bool determinant 0 then None
  else Some ((dfzdz * fx - dfxdz * fz) / determinant, (dfxdx * fz - dfzdx * fx) / determinant).

Fixpoint all_some {A} (l : list (option A)) : option (list A) :=
  match l with
  | [] => Some []
  | None :: _ => None
  | Some a :: t => match all_some t with None => None | Some t' => Some (a :: t') end
  end.

(** the loop of lines 272-311 on all points; None: does not end (or not within
    the fuel); np.amax of no points raises ValueError *)
Fixpoint newton (fuel : nat) (s : store) (lx lz : loc) (y dy : Q) (hs : list (Q * Q)) : option (res store) :=
  match fuel with
  | O => None
  | S fuel =>
    match all_some (map (fun hp => newton_delta y dy (fst hp) (snd hp)) (combine hs (combine (s lx) (s lz)))) with
    | None => None
    | Some [] => Some (Err ValueError)
    | Some ds =>
      let s1 := upd s lx (vsub (s lx) (map fst ds)) in
      let s2 := upd s1 lz (vsub (s1 lz) (map snd ds)) in
      if forallb (fun d => Qlt_bool (fst d * fst d + snd d * snd d) rtol) ds then Some (Ok s2)
      else newton fuel s2 lx lz y dy hs
    end
  end.

(** fieldtracer.py:253-312, one sub-step *)
Definition substep (fuel : nat) (lx lz : loc) (y dy : Q) (s : store) : option (res store) :=
  let ps := combine (s lx) (s lz) in
  let ds := map (fun p => dir (fst p) (snd p) y) ps in
  let hs := map (fun pd => (fst (fst pd) + (1#2) * fst (snd pd) * dy, snd (fst pd) + (1#2) * snd (snd pd) * dy)) (combine ps ds) in
  let s1 := upd s lx (vadd (s lx) (map (fun d => fst d * dy) ds)) in
  let s2 := upd s1 lz (vadd (s1 lz) (map (fun d => snd d * dy) ds)) in
  newton fuel s2 lx lz (Qred (y + dy)) dy hs.

(** fieldtracer.py:252-313: sub-steps to the next y; y_pos is accumulated *)
Fixpoint substeps (fuel n : nat) (lx lz : loc) (y dy : Q) (s : store) : option (res (store * Q)) :=
  match n with
  | O => Some (Ok (s, y))
  | S n => match substep fuel lx lz y dy s with
           | Some (Ok s') => substeps fuel n lx lz (Qred (y + dy)) dy s'
           | Some (Err e) => Some (Err e)
           | None => None
           end
  end.
(** fieldtracer.py:246-315; the rows of x and z values *)
Fixpoint rev_rows (fuel nsteps : nat) (lx lz : loc) (y : Q) (ys : list Q) (s : store) : option (res (store * list (list Q * list Q))) :=
  match ys with
  | [] => Some (Ok (s, []))
  | y_next :: t =>
    match substeps fuel nsteps lx lz y (Qred ((y_next - y) / inject_Z (Z.of_nat nsteps))) s with
    | Some (Ok (s', y')) =>
      match rev_rows fuel nsteps lx lz y' t s' with
      | Some (Ok (s'', rows)) => Some (Ok (s'', (s' lx, s' lz) :: rows))
      | r => r
      end
    | Some (Err e) => Some (Err e)
    | None => None
    end
  end.

(** x_values or z_values: an array of the caller, or anything that
    np.atleast_1d copies (a list, a number) *)
Inductive arg := Ref (n : nat) (sh : list nat) | Fresh (a : nda).
Definition arg_nda (s : store) (a : arg) : nda :=
  match a with Ref n sh => {| shape := sh; data := s (Caller n) |} | Fresh a => a end.
(** where the positions live; [tmp] for the copies *)
Definition arg_loc (tmp : loc) (a : arg) (s : store) : loc * store :=
  match a with Ref n _ => (Caller n, s) | Fresh d => (tmp, upd s tmp (data d)) end.

(** fieldtracer.py:161-317; nsteps > 0.  A scalar is replaced by a new array. *)
Definition rev_follow (fuel nsteps : nat) (s : store) (x z : arg) (ys : list Q) : option (res (store * list (list Q * list Q))) :=
  match ys with
  | y0 :: ((_ :: _) as ys') =>
    let xa := arg_nda s x in
    let za := arg_nda s z in
    match match_shapes xa za with
    | Err e => Some (Err e)
    | Ok (xa', za') =>
      let '(lx, s1) := if shape_eqb (shape xa) (shape za) || negb (size xa =? 1)%nat then arg_loc TmpX x s else (TmpX, upd s TmpX (data xa')) in
      let '(lz, s2) := if shape_eqb (shape xa) (shape za) || (size xa =? 1)%nat then arg_loc TmpZ z s1 else (TmpZ, upd s1 TmpZ (data za')) in
      match rev_rows fuel nsteps lx lz y0 ys' s2 with
      | Some (Ok (s3, rows)) => Some (Ok (s3, (s2 lx, s2 lz) :: rows))
      | r => r
      end
    end
  | _ => Some (Err ValueError)
  end.
End Rev.
