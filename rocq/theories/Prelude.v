(** Shared vocabulary: Python-like results, integer ranges, list updates,
    rational sums.  Nothing here is specific to zoidberg. *)
From Coq Require Import List ZArith QArith Qround Lia Lqa Bool.
Import ListNotations.

(** * Exceptions as values *)

Inductive exn :=
| AssertionError | ValueError | IndexError | KeyError | RuntimeError
| ZeroDivisionError | TypeError | NameError | RecursionError | OtherError.

Inductive res (A : Type) := Ok (a : A) | Err (e : exn).
Arguments Ok {A} _.
Arguments Err {A} _.

Definition bind {A B} (r : res A) (f : A -> res B) : res B :=
  match r with Ok a => f a | Err e => Err e end.

Declare Scope res_scope.
Notation "'let*' x ':=' r 'in' e" := (bind r (fun x => e))
  (at level 200, x pattern, r at level 100, e at level 200) : res_scope.
Open Scope res_scope.

(** [for c in l: st = f(st, c)] where the body may raise. *)
Fixpoint foldM {A S} (f : S -> A -> res S) (l : list A) (s : S) : res S :=
  match l with
  | [] => Ok s
  | a :: l' => let* s' := f s a in foldM f l' s'
  end.

Definition is_ok {A} (r : res A) : bool := match r with Ok _ => true | Err _ => false end.

(** * Integer ranges: Python's [range(lo, hi)] *)

Definition zrange (lo hi : Z) : list Z :=
  map (fun i => (lo + Z.of_nat i)%Z) (seq 0 (Z.to_nat (hi - lo))).

(** * Lists as one-dimensional arrays *)

Fixpoint set_nth {A} (n : nat) (v : A) (l : list A) : list A :=
  match l, n with
  | [], _ => []
  | _ :: t, O => v :: t
  | h :: t, S n' => h :: set_nth n' v t
  end.

Definition enumerate {A} (l : list A) : list (nat * A) := combine (seq 0 (length l)) l.

(** * Rationals *)

Open Scope Q_scope.

Fixpoint qsum (l : list Q) : Q := match l with [] => 0 | a :: l' => a + qsum l' end.

Definition Qlt_bool (a b : Q) : bool := negb (Qle_bool b a).

(** Python's [int(x)] on a float: truncation towards zero. *)
Definition Qtrunc (q : Q) : Z := if Qle_bool 0 q then Qfloor q else Qceiling q.

(** Boolean-mask selection [a[mask]]. *)
Fixpoint select {A} (mask : list bool) (l : list A) : list A :=
  match mask, l with
  | b :: m, a :: t => if b then a :: select m t else select m t
  | _, _ => []
  end.
