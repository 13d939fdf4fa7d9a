(** The make_maps lemmas in the form used by the property theorems. *)
From Coq Require Import String List ZArith QArith Lia Bool.
From Verif Require Import Prelude PreludeFacts NamingModel NamingSpec GridModel GridSpec
  MapsModel MapsSpec MapsTrace MapsJ MapsTop MapsMore MapsChunks.
Import ListNotations.
Open Scope string_scope.

Section Main.
Variable repr : Q -> string.
Context {G : Type}.
Variable pR pZ : G -> arr2.
Variable pnx pnz : G -> nat.
Variable findIndex : G -> arr2 -> arr2 -> arr2 * arr2.
Variable trace : arr2 -> arr2 -> list Q -> list (arr2 * arr2).
Variable outside : arr2 -> Q -> arr2 -> Z -> Z -> bool.
Variable Byfunc : Q -> Q -> Q -> Q.
Variable roots_jacobi : nat -> list Q * list Q.
Variable fll : list (Q * Q) -> list Q -> Q.
Variable Jperp : G -> Z -> Z -> Q.
Variable is_slab : bool.
Variable flow : arr2 -> arr2 -> Q -> Q -> arr2 * arr2.
Variable t1 : Q -> Q -> list Q -> list (Q * Q).
Hypothesis Hflow : follows trace flow.
Hypothesis Ht : pointwise trace t1.
Hypothesis Hroots : forall n, length (fst (roots_jacobi n)) = n.
Variable g : grid G.
Hypothesis Wg : well_formed g.
Variables (nslice mxg spd : Z) (refine : nat).
Hypothesis Hns : (0 <= nslice)%Z.
Hypothesis Hspd : (1 <= spd)%Z.
Hypothesis Hacc : weights_accepted roots_jacobi spd = true.
Hypothesis Href : (1 <= refine)%nat.
Notation run := (make_maps repr G pR pZ pnx pnz findIndex trace outside Byfunc roots_jacobi fll Jperp is_slab g
                    nslice mxg spd refine).

Lemma never_fails n_chunks junk : n_chunks <> 0%nat -> exists d, run n_chunks junk = Ok d.
Proof. intros H. eapply total; eauto. Qed.

Lemma plain_entries n_chunks junk d : n_chunks <> 0%nat -> run n_chunks junk = Ok d ->
  (exists aR aZ, d "R" = Some (VArr aR) /\ d "Z" = Some (VArr aZ) /\
    forall j p y x z s, (0 <= j < ny g)%Z -> getPoloidalGrid g (inject_Z j) = Ok (Some p, y) ->
      aR x j z s = pR p x z /\ aZ x j z s = pZ p x z) /\
  d "MXG" = Some (VInt mxg) /\ d "MYG" = Some (VInt nslice).
Proof. intros H. eapply entries; eauto. Qed.

Lemma end_points n_chunks junk d o j : n_chunks <> 0%nat ->
  run n_chunks junk = Ok d -> (o <> 0)%Z -> (Z.abs o <= nslice)%Z -> (0 <= j < ny g)%Z ->
  exists yb, y_of g j (OInt (nslice * Z.sgn o)) yb /\
    entries_at repr pR pZ findIndex flow outside g d (OInt o) j yb.
Proof. intros H. eapply maps_entries; eauto. Qed.

Lemma outermost n_chunks junk d o j : n_chunks <> 0%nat ->
  run n_chunks junk = Ok d -> (o <> 0)%Z -> (Z.abs o = nslice)%Z -> (0 <= j < ny g)%Z ->
  exists y, y_of g j (OInt o) y /\ entries_at repr pR pZ findIndex flow outside g d (OInt o) j y.
Proof.
  intros H R Ho Ha Hj. destruct (end_points n_chunks junk d o j H R Ho ltac:(lia) Hj) as (y & Y & E).
  exists y. split; [|exact E]. replace (nslice * Z.sgn o)%Z with o in Y; [exact Y|].
  rewrite <- Ha. symmetry. apply Z.abs_sgn.
Qed.

Lemma y_independent : (forall R y1 y2 Z x z, outside R y1 Z x z = outside R y2 Z x z) ->
  forall n_chunks junk d o j, n_chunks <> 0%nat ->
  run n_chunks junk = Ok d -> (o <> 0)%Z -> (Z.abs o <= nslice)%Z -> (0 <= j < ny g)%Z ->
  forall y, y_of g j (OInt o) y -> entries_at repr pR pZ findIndex flow outside g d (OInt o) j y.
Proof.
  intros Hout n_chunks junk d o j H R Ho Ha Hj y Hy.
  destruct (end_points n_chunks junk d o j H R Ho Ha Hj) as (yb & Y & E).
  destruct E as (pol & yj & po & yo & aR & aZ & ax & az & E1 & E2 & S1 & S2 & S3 & S4 & E).
  exists pol, yj, po, yo, aR, aZ, ax, az. do 6 (split; [assumption|]).
  cbn zeta in *. intros x z s. destruct (E x z s) as (V1 & V2 & V3 & V4).
  split; [exact V1|split; [exact V2|]]. rewrite V3, V4. rewrite (Hout _ yb y). auto.
Qed.

Lemma outermost_sub n_chunks junk d dir j : n_chunks <> 0%nat ->
  run n_chunks junk = Ok d -> (dir = 1 \/ dir = -1)%Z -> (1 <= nslice)%Z -> (0 <= j < ny g)%Z ->
  sub_entries_at repr findIndex flow outside (fst (roots_jacobi (Z.to_nat spd))) g
    (if (spd =? 1)%Z then own_start pR pZ else actual_start pR pZ pnx pnz) d (OInt (nslice * dir)) j.
Proof. intros. eapply subsamples; eauto. Qed.

Lemma inner_zero n_chunks junk d f o : n_chunks <> 0%nat ->
  run n_chunks junk = Ok d -> In f ["xt_primes"; "zt_primes"] -> (o <> 0)%Z -> (Z.abs o < nslice)%Z ->
  stored repr d f (OInt o) zeros.
Proof. intros. eapply inner_slices_zero; eauto. Qed.

Lemma weights n_chunks junk d : n_chunks <> 0%nat -> run n_chunks junk = Ok d -> (1 < spd)%Z ->
  length (snd (roots_jacobi (Z.to_nat spd))) = Z.to_nat spd ->
  exists w, d "subcell_weights" = Some (VList w) /\
    length w = (Z.to_nat spd * Z.to_nat spd)%nat /\
    (forall a b u v, nth_error (snd (roots_jacobi (Z.to_nat spd))) a = Some u ->
       nth_error (snd (roots_jacobi (Z.to_nat spd))) b = Some v ->
       nth_error w (a * Z.to_nat spd + b) = Some (u * (1#2) * (v * (1#2)))) /\
    (qsum (snd (roots_jacobi (Z.to_nat spd))) == 2 -> qsum w == 1).
Proof.
  intros H R H1 L. exists (subcell_weights roots_jacobi spd).
  split; [eapply weights_stored; eauto|].
  split; [|split].
  - unfold subcell_weights. apply Z.ltb_lt in H1. rewrite H1, outer_length, map_length, L. reflexivity.
  - intros. now apply weights_nth.
  - now apply weights_sum.
Qed.

Lemma chunks_agree n1 n2 j1 j2 d1 d2 p0 y0 k a1 a2 :
  n1 <> 0%nat -> n2 <> 0%nat -> run n1 j1 = Ok d1 -> run n2 j2 = Ok d2 ->
  getPoloidalGrid g 0 = Ok (Some p0, y0) ->
  is_slab = false \/ ~ In k ["J"; "Ly_cell_ylow"; "Ly"; "Ly_cell_yhigh"] ->
  In k ["J"; "Ly_cell_ylow"; "Ly"; "Ly_cell_yhigh"; "By_cell_ylow"; "By"; "By_cell_yhigh"] ->
  d1 k = Some (VArr a1) -> d2 k = Some (VArr a2) ->
  forall x j z s, (0 <= x < Z.of_nat (pnx p0))%Z -> (0 <= j < ny g)%Z -> (a1 x j z s == a2 x j z s)%Q.
Proof. intros. eapply chunk_independence with (n1 := n1) (n2 := n2); eauto. Qed.

Lemma others_agree n1 n2 j1 j2 d1 d2 k : run n1 j1 = Ok d1 -> run n2 j2 = Ok d2 ->
  ~ In k ["J"; "Ly_cell_ylow"; "Ly"; "Ly_cell_yhigh"; "By_cell_ylow"; "By"; "By_cell_yhigh"] -> d1 k = d2 k.
Proof. clear Hflow Ht Hroots Wg Hns Hspd Hacc Href. intros. eapply other_entries; eauto. Qed.

Open Scope Q_scope.

Lemma integral_forms n_chunks junk d p0 y0 : n_chunks <> 0%nat ->
  run n_chunks junk = Ok d -> getPoloidalGrid g 0 = Ok (Some p0, y0) ->
  exists aJ aL0 aL1 aL2 aB0 aB1 aB2,
    (is_slab = false -> d "J" = Some (VArr aJ) /\ d "Ly_cell_ylow" = Some (VArr aL0) /\
       d "Ly" = Some (VArr aL1) /\ d "Ly_cell_yhigh" = Some (VArr aL2)) /\
    d "By_cell_ylow" = Some (VArr aB0) /\ d "By" = Some (VArr aB1) /\ d "By_cell_yhigh" = Some (VArr aB2) /\
    forall j, (0 <= j < ny g)%Z -> exists pol y pm ym pp yp,
      getPoloidalGrid g (inject_Z j) = Ok (Some pol, y) /\
      getPoloidalGrid g (inject_Z j + inject_Z (-1)) = Ok (pm, ym) /\
      getPoloidalGrid g (inject_Z j + inject_Z 1) = Ok (pp, yp) /\
      forall x z s, (0 <= x < Z.of_nat (pnx p0))%Z ->
        aJ x j z s == J_spec pR pZ t1 Byfunc Jperp refine pol x z ym y yp /\
        aL0 x j z s = length_spec pR pZ t1 fll refine 0 pol x z ym y yp /\
        aL1 x j z s = length_spec pR pZ t1 fll refine 1 pol x z ym y yp /\
        aL2 x j z s = length_spec pR pZ t1 fll refine 2 pol x z ym y yp /\
        aB0 x j z s = B_spec pR pZ t1 Byfunc refine 0 pol x z ym y yp /\
        aB1 x j z s = B_spec pR pZ t1 Byfunc refine 1 pol x z ym y yp /\
        aB2 x j z s = B_spec pR pZ t1 Byfunc refine 2 pol x z ym y yp.
Proof. intros H. eapply integrals; eauto. Qed.

Lemma uniform_field n_chunks junk d p0 y0 B0 : n_chunks <> 0%nat ->
  run n_chunks junk = Ok d -> getPoloidalGrid g 0 = Ok (Some p0, y0) -> is_slab = false ->
  ~ B0 == 0 -> (forall a b c, Byfunc a b c == B0) ->
  (forall R Z ys p, In p (t1 R Z ys) -> fst p == R) ->
  exists aJ, d "J" = Some (VArr aJ) /\
  forall j, (0 <= j < ny g)%Z -> exists pol y, getPoloidalGrid g (inject_Z j) = Ok (Some pol, y) /\
  forall x z s, (0 <= x < Z.of_nat (pnx p0))%Z -> aJ x j z s == Jperp pol x z * pR pol x z.
Proof.
  intros H R E0 Hs HB Hby Hc.
  destruct (integral_forms n_chunks junk d p0 y0 H R E0) as (aJ & b2 & b3 & b4 & b5 & b6 & b7 & S1 & _ & _ & _ & S).
  exists aJ. split; [now apply S1|]. intros j Hj.
  destruct (S j Hj) as (pol & y & pm & ym & pp & yp & A1 & _ & _ & V).
  exists pol, y. split; [exact A1|]. intros x z s Hx. destruct (V x z s Hx) as (VJ & _). rewrite VJ.
  destruct Ht as [_ Hlen]. apply (uniform_J pR pZ t1 Byfunc Jperp refine Href Hlen _ _ _ _ _ _ B0); auto.
  intros i Hi.
  assert (Hin : In (nth i (all_points pR pZ t1 refine pol x z ym y yp) (0, 0)) (all_points pR pZ t1 refine pol x z ym y yp)).
  { apply nth_In. rewrite all_points_length by assumption. lia. }
  unfold all_points at 2 in Hin. apply in_app_iff in Hin. destruct Hin as [Hin|Hin].
  - apply in_rev in Hin. now apply Hc in Hin.
  - apply (Hc _ (pZ pol x z) (linspace y yp (2 * refine))).
    rewrite <- (firstn_skipn 1 (t1 _ _ _)). apply in_app_iff. now right.
Qed.

Lemma windows : forall k ym y yp, (k < 3)%nat ->
  let w := consecutive (refine * k) (2 * refine + 1) (all_y refine ym y yp) in
  length w = (2 * refine + 1)%nat /\
  nth 0 w 0 == match k with 0%nat => ym | 1%nat => (y + ym) / 2 | _ => y end /\
  nth (2 * refine) w 0 == match k with 0%nat => y | 1%nat => (y + yp) / 2 | _ => yp end.
Proof. intros. now apply window_ends. Qed.

Lemma spacing : forall ym y yp i, (i < 4 * refine)%nat ->
  nth (S i) (all_y refine ym y yp) 0 - nth i (all_y refine ym y yp) 0 ==
  (if Nat.ltb i (2 * refine) then y - ym else yp - y) / inject_Z (2 * Z.of_nat refine).
Proof. intros. now apply all_y_step. Qed.

Lemma half_positions n_chunks junk d j : n_chunks <> 0%nat -> run n_chunks junk = Ok d -> (0 <= j < ny g)%Z ->
  exists pol yj pl yl ph yh Rl Zl Rh Zh,
    getPoloidalGrid g (inject_Z j) = Ok (Some pol, yj) /\
    getPoloidalGrid g (inject_Z j + (1#2) * inject_Z (-1)) = Ok (pl, yl) /\
    getPoloidalGrid g (inject_Z j + (1#2) * inject_Z 1) = Ok (ph, yh) /\
    d "R_cell_ylow" = Some (VArr Rl) /\ d "Z_cell_ylow" = Some (VArr Zl) /\
    d "R_cell_yhigh" = Some (VArr Rh) /\ d "Z_cell_yhigh" = Some (VArr Zh) /\
    forall x z s,
      Rl x j z s = fst (flow (pR pol) (pZ pol) yj yl) x z /\ Zl x j z s = snd (flow (pR pol) (pZ pol) yj yl) x z /\
      Rh x j z s = fst (flow (pR pol) (pZ pol) yj yh) x z /\ Zh x j z s = snd (flow (pR pol) (pZ pol) yj yh) x z.
Proof. intros H. eapply maps_half; eauto. Qed.

Lemma zero_chunks junk : run 0 junk = Err ValueError.
Proof. eapply no_chunks; eauto. Qed.
End Main.

Lemma no_z_sampling {G} (pR pZ : G -> arr2) pnx pnz p u v x z :
  (forall i i' k, pZ p i k = pZ p i' k) -> (0 <= z < Z.of_nat (pnz p))%Z ->
  (snd (actual_start pR pZ pnx pnz p u v) x z == pZ p x z)%Q.
Proof. intros H Hz. cbn [actual_start snd]. rewrite bilinear_at_node by assumption. now rewrite (H 0%Z x z). Qed.
