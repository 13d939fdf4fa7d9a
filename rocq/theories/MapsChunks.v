(** make_maps does not depend on n_chunks (nor on what np.empty contained). *)
From Coq Require Import String Ascii List ZArith QArith Qabs Qround Lia Lqa Bool.
From Verif Require Import Prelude PreludeFacts NamingModel NamingSpec NamingProofs GridModel GridSpec GridProofs
  MapsModel MapsSpec MapsTrace MapsJ MapsTop MapsMore.
Import ListNotations.
Open Scope string_scope.
Open Scope Q_scope.

Section Chunks.
Variable repr : Q -> string.
Context {G : Type}.
Variable pR pZ : G -> arr2.
Variable pnx pnz : G -> nat.
Variable findIndex : G -> arr2 -> arr2 -> arr2 * arr2.
Variable trace : arr2 -> arr2 -> list Q -> list (arr2 * arr2).
Variable outside : arr2 -> Q -> arr2 -> Z -> Z -> bool.
Variable Byfunc : Q -> Q -> Q -> Q.
Variable roots_jacobi : nat -> list Q * list Q.
Variable fll : list (Q * Q) -> list Q -> Q.
Variable Jperp : G -> Z -> Z -> Q.
Variable is_slab : bool.
Variable flow : arr2 -> arr2 -> Q -> Q -> arr2 * arr2.
Variable t1 : Q -> Q -> list Q -> list (Q * Q).
Hypothesis Hflow : follows trace flow.
Hypothesis Ht : pointwise trace t1.
Hypothesis Hroots : forall n, length (fst (roots_jacobi n)) = n.
Variable g : grid G.
Hypothesis Wg : well_formed g.
Variables (nslice mxg spd : Z) (refine : nat).
Hypothesis Hns : (0 <= nslice)%Z.
Hypothesis Hspd : (1 <= spd)%Z.
Hypothesis Hacc : weights_accepted roots_jacobi spd = true.
Hypothesis Href : (1 <= refine)%nat.
Notation run := (make_maps repr G pR pZ pnx pnz findIndex trace outside Byfunc roots_jacobi fll Jperp is_slab g
                    nslice mxg spd refine).

Definition integral_names : list string :=
  ["J"; "Ly_cell_ylow"; "Ly"; "Ly_cell_yhigh"; "By_cell_ylow"; "By"; "By_cell_yhigh"].

Lemma add_J_other st d k : ~ In k integral_names -> add_J is_slab st d k = d k.
Proof.
  intros H. unfold add_J. cbn in H.
  destruct is_slab; rewrite !dset_neq by (intros ->; apply H; auto 10); reflexivity.
Qed.

Lemma other_entries n1 n2 j1 j2 d1 d2 k : run n1 j1 = Ok d1 -> run n2 j2 = Ok d2 ->
  ~ In k integral_names -> d1 k = d2 k.
Proof.
  clear Hacc. intros H1 H2 Hk. unfold make_maps in *.
  destruct (getPoloidalGrid g 0) as [[[p0|] y0]|]; [|discriminate|discriminate]. cbn [bind fst] in *.
  destruct (gather_RZ G pR pZ g) as [RZ|]; [|discriminate]. cbn [bind] in *.
  destruct (weights_accepted roots_jacobi spd); cbn [negb] in *; [|discriminate].
  match goal with H : context [mk_pslices repr ?d ?o] |- _ => destruct (mk_pslices repr d o) as [f|]; [|discriminate] end.
  cbn [bind] in *.
  match goal with H : context [mk_pslices repr ?d ?o] |- _ => destruct (mk_pslices repr d o) as [b|]; [|discriminate] end.
  cbn [bind] in *.
  match goal with H : context [trace_all ?a1 ?a2 ?a3 ?a4 ?a5 ?a6 ?a7 ?a8 ?a9 ?b1 ?b2 ?b3 ?b4] |- _ =>
    destruct (trace_all a1 a2 a3 a4 a5 a6 a7 a8 a9 b1 b2 b3 b4) as [d|]; [|discriminate] end.
  cbn [bind] in *.
  destruct (J_loop _ _ _ _ _ _ _ _ _ n1 _ _) as [s1|]; [|discriminate].
  destruct (J_loop _ _ _ _ _ _ _ _ _ n2 _ _) as [s2|]; [|discriminate].
  cbn [bind] in *. injection H1 as <-. injection H2 as <-. now rewrite !add_J_other by assumption.
Qed.

Lemma chunk_independence n1 n2 j1 j2 d1 d2 p0 y0 k a1 a2 :
  n1 <> 0%nat -> n2 <> 0%nat -> run n1 j1 = Ok d1 -> run n2 j2 = Ok d2 ->
  getPoloidalGrid g 0 = Ok (Some p0, y0) -> is_slab = false \/ ~ In k ["J"; "Ly_cell_ylow"; "Ly"; "Ly_cell_yhigh"] ->
  In k integral_names -> d1 k = Some (VArr a1) -> d2 k = Some (VArr a2) ->
  forall x j z s, (0 <= x < Z.of_nat (pnx p0))%Z -> (0 <= j < ny g)%Z -> a1 x j z s == a2 x j z s.
Proof.
  intros H1 H2 R1 R2 E0 Hs Hk A1 A2 x j z s Hx Hj.
  destruct (integrals repr pR pZ pnx pnz findIndex trace outside Byfunc roots_jacobi fll Jperp is_slab flow t1
    Hflow Ht Hroots g Wg nslice mxg spd refine n1 j1 Hns Hspd Hacc Href H1 d1 p0 y0 R1 E0)
    as (b1 & b2 & b3 & b4 & b5 & b6 & b7 & S1 & S5 & S6 & S7 & S).
  destruct (integrals repr pR pZ pnx pnz findIndex trace outside Byfunc roots_jacobi fll Jperp is_slab flow t1
    Hflow Ht Hroots g Wg nslice mxg spd refine n2 j2 Hns Hspd Hacc Href H2 d2 p0 y0 R2 E0)
    as (c1 & c2 & c3 & c4 & c5 & c6 & c7 & T1 & T5 & T6 & T7 & T).
  destruct (S j Hj) as (pol & y & pm & ym & pp & yp & B1 & B2 & B3 & V).
  destruct (T j Hj) as (pol' & y' & pm' & ym' & pp' & yp' & C1 & C2 & C3 & W).
  rewrite B1 in C1. injection C1 as <- <-. rewrite B2 in C2. injection C2 as <- <-. rewrite B3 in C3. injection C3 as <- <-.
  destruct (V x z s Hx) as (V1 & V2 & V3 & V4 & V5 & V6 & V7).
  destruct (W x z s Hx) as (W1 & W2 & W3 & W4 & W5 & W6 & W7).
  assert (D : (In k ["J"; "Ly_cell_ylow"; "Ly"; "Ly_cell_yhigh"] /\ is_slab = false) \/ In k ["By_cell_ylow"; "By"; "By_cell_yhigh"]).
  { cbn in Hk, Hs |- *. destruct Hk as [<-|[<-|[<-|[<-|Hk]]]]; [| | | |right; exact Hk]; left; (split; [auto 10|]);
      destruct Hs as [Hs|Hs]; auto; exfalso; apply Hs; auto 10. }
  destruct D as [[D Hsl]|D].
  - destruct (S1 Hsl) as (P1 & P2 & P3 & P4). destruct (T1 Hsl) as (Q1 & Q2 & Q3 & Q4).
    cbn in D. destruct D as [<-|[<-|[<-|[<-|[]]]]].
    + rewrite P1 in A1. rewrite Q1 in A2. injection A1 as <-. injection A2 as <-. now rewrite V1, W1.
    + rewrite P2 in A1. rewrite Q2 in A2. injection A1 as <-. injection A2 as <-. now rewrite V2, W2.
    + rewrite P3 in A1. rewrite Q3 in A2. injection A1 as <-. injection A2 as <-. now rewrite V3, W3.
    + rewrite P4 in A1. rewrite Q4 in A2. injection A1 as <-. injection A2 as <-. now rewrite V4, W4.
  - cbn in D. destruct D as [<-|[<-|[<-|[]]]].
    + rewrite S5 in A1. rewrite T5 in A2. injection A1 as <-. injection A2 as <-. now rewrite V5, W5.
    + rewrite S6 in A1. rewrite T6 in A2. injection A1 as <-. injection A2 as <-. now rewrite V6, W6.
    + rewrite S7 in A1. rewrite T7 in A2. injection A1 as <-. injection A2 as <-. now rewrite V7, W7.
Qed.
End Chunks.
