(** field.py: the vacuum fields made from Dommaschk potentials
    (DommaschkPotentials, field.py:539-832).  Floats are exact real numbers.
    Sfunc and what it is made from (V_hat, U_hat, field.py:834-879) are in DomHatModel.v.
    Not modelled: math.gamma's OverflowError above 170!. *)
From Coq Require Import List Reals ZArith.
From Verif Require Import Prelude FieldReal.
Import ListNotations.
Open Scope R_scope.

(** The sympy expressions in the symbols R, phi and Z, with sympy's rules for the
    derivative and the substitution; simplifications that keep the value are left out. *)
Inductive symbol := SR | Sphi | SZ.
Inductive expr :=
| Num (c : R) | Sym (s : symbol) | Add (a b : expr) | Mul (a b : expr) | Pow (a : expr) (n : Z) | Log (a : expr) | Cos (a : expr) | Sin (a : expr).
Definition same_symbol (s t : symbol) : bool := match s, t with SR, SR | Sphi, Sphi | SZ, SZ => true | _, _ => false end.
Fixpoint diff (e : expr) (s : symbol) : expr :=
  match e with
  | Num _ => Num 0
  | Sym t => Num (if same_symbol s t then 1 else 0)
  | Add a b => Add (diff a s) (diff b s)
  | Mul a b => Add (Mul (diff a s) b) (Mul a (diff b s))
  | Pow a n => Mul (Mul (Num (IZR n)) (Pow a (n - 1))) (diff a s)
  | Log a => Mul (Pow a (-1)) (diff a s)
  | Cos a => Mul (Mul (Num (-1)) (Sin a)) (diff a s)
  | Sin a => Mul (Cos a) (diff a s)
  end.
Fixpoint subs (e : expr) (s : symbol) (v : expr) : expr :=
  match e with
  | Num c => Num c
  | Sym t => if same_symbol s t then v else Sym t
  | Add a b => Add (subs a s v) (subs b s v)
  | Mul a b => Mul (subs a s v) (subs b s v)
  | Pow a n => Pow (subs a s v) n
  | Log a => Log (subs a s v)
  | Cos a => Cos (subs a s v)
  | Sin a => Sin (subs a s v)
  end.
(** lambdify((R, phi, Z), e, "numpy") *)
Fixpoint lambdify (e : expr) (x phi z : R) : R :=
  match e with
  | Num c => c
  | Sym SR => x
  | Sym Sphi => phi
  | Sym SZ => z
  | Add a b => lambdify a x phi z + lambdify b x phi z
  | Mul a b => lambdify a x phi z * lambdify b x phi z
  | Pow a n => powerRZ (lambdify a x phi z) n
  | Log a => ln (lambdify a x phi z)
  | Cos a => cos (lambdify a x phi z)
  | Sin a => sin (lambdify a x phi z)
  end.

(** math.gamma at a positive integer *)
Definition gamma (x : Z) : R := INR (fact (Z.to_nat (x - 1))).
(** alpha, alpha_st, beta, beta_st, delta, delta_st of CD (field.py:654-687) and of CN
    (field.py:715-742) *)
Definition alpha (n : Z) (b : nat) : R :=
  if (0 <=? n)%Z then powerRZ (-1) n / (gamma (Z.of_nat b + n + 1) * gamma (n + 1) * powerRZ 2 (2 * n + Z.of_nat b)) else 0.
Definition alpha_st (n : Z) (b : nat) : R := alpha n b * IZR (2 * n + Z.of_nat b).
Definition beta (n : Z) (b : nat) : R :=
  if andb (0 <=? n)%Z (n <? Z.of_nat b)%Z then gamma (Z.of_nat b - n) / (gamma (n + 1) * powerRZ 2 (2 * n - Z.of_nat b + 1)) else 0.
Definition beta_st (n : Z) (b : nat) : R := beta n b * IZR (2 * n - Z.of_nat b).
Definition delta (n : Z) (b : nat) : R :=
  if (0 <? n)%Z then alpha n b * rsum (map (fun i => 1 / INR i + 1 / (INR b + INR i)) (seq 1 (Z.to_nat n))) / 2 else 0.
Definition delta_st (n : Z) (b : nat) : R := delta n b * IZR (2 * n + Z.of_nat b).

(** CD (field.py:642-701); log(1) is sympy's 0 *)
Definition CD (m k : nat) : expr :=
  fold_left (fun CD j =>
    let s := (Z.of_nat k - Z.of_nat m - Z.of_nat j)%Z in let jz := Z.of_nat j in let kj := (Z.of_nat k - Z.of_nat j)%Z in
    Add CD (Add
      (Mul (Mul (Num (-1)) (Add (Add (Mul (Num (alpha jz m)) (Add (Add (Mul (Num (alpha_st s m)) (Log (Sym SR))) (Num (delta_st s m))) (Num (- alpha s m))))
                                     (Num (- (delta jz m * alpha_st s m))))
                                (Num (alpha jz m * beta_st kj m))))
           (Pow (Sym SR) (2 * jz + Z.of_nat m)))
      (Mul (Num (beta jz m * alpha_st kj m)) (Pow (Sym SR) (2 * jz - Z.of_nat m)))))
    (seq 0 (k + 1)) (Num 0).
(** CN (field.py:703-754) *)
Definition CN (m k : nat) : expr :=
  fold_left (fun CN j =>
    let s := (Z.of_nat k - Z.of_nat m - Z.of_nat j)%Z in let jz := Z.of_nat j in let kj := (Z.of_nat k - Z.of_nat j)%Z in
    Add CN (Add
      (Mul (Add (Add (Mul (Num (alpha jz m)) (Add (Mul (Num (alpha s m)) (Log (Sym SR))) (Num (delta s m))))
                     (Num (- (delta jz m * alpha s m))))
                (Num (alpha jz m * beta kj m)))
           (Pow (Sym SR) (2 * jz + Z.of_nat m)))
      (Mul (Num (- (beta jz m * alpha kj m))) (Pow (Sym SR) (2 * jz - Z.of_nat m)))))
    (seq 0 (k + 1)) (Num 0).

(** Z ** q / factorial(q): sympy's factorial of a negative number is zoo, and the
    quotient is 0 *)
Definition Z_over_factorial (q : Z) : expr :=
  if (q <? 0)%Z then Num 0 else Mul (Pow (Sym SZ) q) (Num (/ INR (fact (Z.to_nat q)))).
(** D and N (field.py:756-774, 776-794); k runs to int(v / 2) *)
Definition D (n : nat) (v : Z) : expr :=
  fold_left (fun D k => Add D (Mul (Z_over_factorial (v - 2 * Z.of_nat k)) (CD n k))) (seq 0 (Z.to_nat (Z.quot v 2 + 1))) (Num 0).
Definition N (n : nat) (v : Z) : expr :=
  fold_left (fun N k => Add N (Mul (Z_over_factorial (v - 2 * Z.of_nat k)) (CN n k))) (seq 0 (Z.to_nat (Z.quot v 2 + 1))) (Num 0).
(** V (field.py:796-813) *)
Definition V (n m : nat) (a b c d : R) : expr :=
  let nphi := Mul (Num (INR n)) (Sym Sphi) in
  Add (Mul (Add (Mul (Num a) (Cos nphi)) (Mul (Num b) (Sin nphi))) (D n (Z.of_nat m)))
      (Mul (Add (Mul (Num c) (Cos nphi)) (Mul (Num d) (Sin nphi))) (N n (Z.of_nat m - 1))).
(** U (field.py:815-832); A is the array of shape (n0, n1, 4) *)
Definition zero (x : R) : bool := if Req_EM_T x 0 then true else false.
Definition U (n0 n1 : nat) (A : nat -> nat -> R * R * R * R) : expr :=
  fold_left (fun U i =>
    fold_left (fun U j =>
      let '(a, b, c, d) := A i j in
      if orb (negb (zero a)) (orb (negb (zero b)) (orb (negb (zero c)) (negb (zero d)))) then Add U (V i j a b c d) else U)
      (seq 0 n1) U)
    (seq 0 n0) (Sym Sphi).

(** __init__ (field.py:559-603) *)
Definition P (n0 n1 : nat) (A : nat -> nat -> R * R * R * R) (R_0 : R) : expr :=
  subs (subs (U n0 n1 A) SR (Mul (Sym SR) (Num (/ R_0)))) SZ (Mul (Sym SZ) (Num (/ R_0))).
Definition Bxf n0 n1 A R_0 := lambdify (Mul (Num R_0) (diff (P n0 n1 A R_0) SR)).
Definition Byf n0 n1 A R_0 := lambdify (Mul (Mul (Num R_0) (Pow (Sym SR) (-1))) (diff (P n0 n1 A R_0) Sphi)).
Definition Bzf n0 n1 A R_0 := lambdify (Mul (Num R_0) (diff (P n0 n1 A R_0) SZ)).
(** Bxfunc, Byfunc and Bzfunc (field.py:605-612); Rfunc is x (field.py:626-640).  A
    vanishing Byf(R_0, 0, 0) gives nan or inf. *)
Definition dom_Bx n0 n1 A R_0 B_0 (x z phi : R) : R := Bxf n0 n1 A R_0 x phi z / Byf n0 n1 A R_0 R_0 0 0 * B_0.
Definition dom_By n0 n1 A R_0 B_0 (x z phi : R) : R := Byf n0 n1 A R_0 x phi z / Byf n0 n1 A R_0 R_0 0 0 * B_0.
Definition dom_Bz n0 n1 A R_0 B_0 (x z phi : R) : R := Bzf n0 n1 A R_0 x phi z / Byf n0 n1 A R_0 R_0 0 0 * B_0.
