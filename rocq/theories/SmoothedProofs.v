(** Proofs about SmoothedMagneticField. *)
From Coq Require Import String List ZArith QArith Qabs Lia Lqa Bool.
From Verif Require Import Prelude PreludeFacts GridModel GridSpec GridProofs FieldModel SmoothedModel SmoothedSpec.
Import ListNotations.
Open Scope Q_scope.

Lemma argmin_from_spec pre l best ib : nth ib pre 0 = best -> (ib < length pre)%nat -> (forall j, (j < length pre)%nat -> best <= nth j pre 0) ->
  let r := argmin_from l best ib (length pre) in
  (r < length (pre ++ l))%nat /\ forall j, (j < length (pre ++ l))%nat -> nth r (pre ++ l) 0 <= nth j (pre ++ l) 0.
Proof.
  revert pre best ib. induction l as [|a l IH]; intros pre best ib Hb Hi Hm; cbv zeta.
  - rewrite app_nil_r. cbn [argmin_from]. split; [exact Hi|]. rewrite Hb. exact Hm.
  - cbn [argmin_from]. replace (pre ++ a :: l) with ((pre ++ [a]) ++ l) by (now rewrite <- app_assoc).
    assert (Hl : length (pre ++ [a]) = S (length pre)) by (rewrite app_length; cbn; lia). rewrite <- Hl.
    destruct (Qlt_bool a best) eqn:E.
    + apply Qlt_bool_iff in E. apply (IH (pre ++ [a]) a (length pre)).
      * rewrite app_nth2 by lia. now rewrite Nat.sub_diag.
      * lia.
      * intros j Hj. rewrite Hl in Hj. destruct (Nat.eq_dec j (length pre)) as [->|N].
        -- rewrite app_nth2 by lia. rewrite Nat.sub_diag. apply Qle_refl.
        -- rewrite app_nth1 by lia. specialize (Hm j ltac:(lia)). lra.
    + apply Qlt_bool_false_iff in E. apply (IH (pre ++ [a]) best ib).
      * now rewrite app_nth1 by lia.
      * lia.
      * intros j Hj. rewrite Hl in Hj. destruct (Nat.eq_dec j (length pre)) as [->|N].
        -- rewrite app_nth2 by lia. rewrite Nat.sub_diag. exact E.
        -- rewrite app_nth1 by lia. apply Hm. lia.
Qed.
Lemma argmin_spec l : l <> [] -> exists i, argmin l = Ok i /\ (i < length l)%nat /\ forall j, (j < length l)%nat -> nth i l 0 <= nth j l 0.
Proof.
  destruct l as [|a l]; [congruence|]. intros _. eexists. split; [reflexivity|].
  apply (argmin_from_spec [a] l a 0); [reflexivity|cbn; lia|]. intros [|j] H; [apply Qle_refl|cbn in H; lia].
Qed.


Lemma nth_abs phi ys j : (j < length ys)%nat -> nth j (map (fun y => Qabs (phi - y)) ys) 0 = Qabs (phi - nth j ys 0).
Proof.
  intros H. rewrite (nth_indep _ 0 (Qabs (phi - 0))) by (rewrite map_length; exact H). now rewrite (map_nth (fun y => Qabs (phi - y))).
Qed.
Lemma plane_below_spec ys phi : ys <> [] -> rising ys -> exists k, plane_below ys phi = Ok k /\ (-1 <= k < Z.of_nat (length ys))%Z /\
  ((0 <= k)%Z -> nth (Z.to_nat k) ys 0 <= phi) /\ ((k + 1 < Z.of_nat (length ys))%Z -> phi < nth (Z.to_nat (k + 1)) ys 0).
Proof.
  intros Hn Hr. destruct (argmin_spec (map (fun y => Qabs (phi - y)) ys)) as (i & E & Hi & Hm).
  { destruct ys; [congruence|discriminate]. }
  rewrite map_length in *. assert (M : forall j, (j < length ys)%nat -> Qabs (phi - nth i ys 0) <= Qabs (phi - nth j ys 0)).
  { intros j Hj. specialize (Hm j Hj). now rewrite !nth_abs in Hm by assumption. }
  unfold plane_below. rewrite E. cbn [bind]. eexists. split; [reflexivity|]. destruct (Qlt_bool phi (nth i ys 0)) eqn:L.
  - apply Qlt_bool_iff in L. split; [lia|]. split.
    + intros H. destruct i as [|i]; [lia|]. replace (Z.to_nat (Z.of_nat (S i) - 1)) with i by lia.
      apply Qnot_lt_le. intros C. pose proof (Hr i Hi). specialize (M i ltac:(lia)). rewrite !Qabs_neg in M by lra. lra.
    + intros _. replace (Z.to_nat (Z.of_nat i - 1 + 1)) with i by lia. exact L.
  - apply Qlt_bool_false_iff in L. split; [lia|]. rewrite Nat2Z.id. split; [auto|]. intros H.
    replace (Z.to_nat (Z.of_nat i + 1)) with (S i) by lia. apply Qnot_le_lt. intros C.
    pose proof (Hr i ltac:(lia)). specialize (M (S i) ltac:(lia)). rewrite !Qabs_pos in M by lra. lra.
Qed.

Lemma admissible_rising {G} (g : grid G) : admissible g -> ycoords g <> [] /\ rising (ycoords g).
Proof.
  intros ((_ & P) & _ & H). split; [destruct (ycoords g); [cbn in P; lia|discriminate]|]. intros i Hi.
  apply (H i); apply nth_error_nth'; lia.
Qed.

Section Smoothed.
Context {G : Type} (findIndex : G -> list Q -> list Q -> res (list Q * list Q)).

(** The two planes found enclose phi. *)
Lemma enclosed (g : grid G) phi : admissible g -> yperiodic g = true -> 0 <= phi -> phi < Ly g ->
  exists k pd yd pu yu, plane_below (ycoords g) phi = Ok k /\ getPoloidalGrid g (inject_Z k) = Ok (Some pd, yd) /\
    getPoloidalGrid g (inject_Z (k + 1)) = Ok (Some pu, yu) /\ yd <= phi /\ phi < yu.
Proof.
  intros Ha Hp H0 H1. destruct (admissible_rising g Ha) as [Hne Hr]. destruct (plane_below_spec _ phi Hne Hr) as (k & E & Hk & Hd & Hu).
  destruct Ha as (Hw & Hb & _). assert (Hny : ny g = Z.of_nat (length (ycoords g))) by reflexivity.
  assert (B : forall j, (j < length (ycoords g))%nat -> 0 <= nth j (ycoords g) 0 /\ nth j (ycoords g) 0 < Ly g).
  { intros j Hj. apply (Hb j). now apply nth_error_nth'. }
  assert (P : (0 < length (ycoords g))%nat) by apply Hw.
  destruct (periodic_lookup g k Hw Hp) as (pd & yd & _ & Nd & yd' & Ed & Yd). destruct (periodic_lookup g (k + 1) Hw Hp) as (pu & yu & _ & Nu & yu' & Eu & Yu).
  exists k, pd, yd', pu, yu'. split; [exact E|]. split; [exact Ed|]. split; [exact Eu|]. rewrite Yd, Yu.
  rewrite <- (nth_error_nth _ _ 0 Nd), <- (nth_error_nth _ _ 0 Nu). rewrite Hny. split.
  - destruct (Z.eq_dec k (-1)) as [->|N].
    + assert (Q1 : (-1 / Z.of_nat (length (ycoords g)) = -1)%Z) by (symmetry; apply Z.div_unique with (Z.of_nat (length (ycoords g)) - 1)%Z; lia). rewrite Q1.
      set (j := Z.to_nat _). assert (Hj : (j < length (ycoords g))%nat) by (unfold j; pose proof (Z.mod_pos_bound (-1) (Z.of_nat (length (ycoords g))) ltac:(lia)); lia).
      destruct (B j Hj). change (inject_Z (-1)) with (-1#1). lra.
    + rewrite Z.mod_small, Z.div_small by lia. change (inject_Z 0) with 0. specialize (Hd ltac:(lia)). lra.
  - destruct (Z.eq_dec (k + 1) (Z.of_nat (length (ycoords g)))) as [->|N].
    + rewrite Z_mod_same_full, Z.div_same by lia. change (Z.to_nat 0) with 0%nat. destruct (B 0%nat P). change (inject_Z 1) with 1. lra.
    + rewrite Z.mod_small, Z.div_small by lia. change (inject_Z 0) with 0. specialize (Hu ltac:(lia)). lra.
Qed.

Lemma no_direction (s : smoothed G) x z phi : exists e, sm_direction findIndex s x z phi = Err e.
Proof.
  unfold sm_direction. destruct (sm_Bx findIndex s x z phi) as [b|e] eqn:E; [|cbn; eauto]. cbn [bind].
  assert (b = None) as ->.
  { unfold sm_Bx in E. destruct (plane_below _ _); [|discriminate]. cbn [bind] in E. destruct (getPoloidalGrid _ _) as [d|]; [|discriminate]. cbn [bind] in E.
    destruct (getPoloidalGrid _ _); [|discriminate]. cbn [bind] in E. destruct (index_in _ _ _ _); [|discriminate]. cbn [bind] in E. congruence. }
  destruct (negb _); [eauto|]. destruct (amin _); cbn [bind]; [|eauto]. destruct (Qlt_bool _ _); eauto.
Qed.
Lemma type_error (s : smoothed G) x z phi : sm_Bx findIndex s x z phi = Ok None -> length x = length z -> x <> [] ->
  (forall p, In p (combine x z) -> (1 # 100000000) <= Qabs (Byfunc (sm_field s) (fst p) (snd p) phi)) -> sm_direction findIndex s x z phi = Err TypeError.
Proof.
  intros E El Hn Hb. unfold sm_direction. rewrite E. cbn [bind]. rewrite El, Nat.eqb_refl. cbn [negb].
  set (l := map Qabs _). assert (Hl : l <> []) by (unfold l; destruct x, z; [congruence|discriminate|discriminate|discriminate]).
  assert (Hp : forall a, In a l -> (1 # 100000000) <= a).
  { unfold l. intros a Ha. rewrite map_map in Ha. apply in_map_iff in Ha. destruct Ha as (p & <- & Hp). now apply Hb. }
  clearbody l. assert (M : exists m, amin l = Ok m /\ (1 # 100000000) <= m).
  { clear - Hl Hp. induction l as [|a l IH]; [congruence|]. destruct l as [|b l].
    - exists a. split; [reflexivity|]. apply Hp. now left.
    - destruct IH as (m & Em & Hm); [discriminate|intros; apply Hp; now right|].
      change (amin (a :: b :: l)) with (let* m := amin (b :: l) in Ok (Qminmax.Qmin a m)). rewrite Em. cbn [bind]. eexists. split; [reflexivity|].
      apply Qminmax.Q.min_glb; [apply Hp; now left|exact Hm]. }
  destruct M as (m & -> & Hm). cbn [bind]. rewrite (proj2 (Qlt_bool_false_iff _ _)) by exact Hm. reflexivity.
Qed.
Lemma Bx_none (s : smoothed G) x z phi : admissible (sm_grid s) -> yperiodic (sm_grid s) = true -> 0 <= phi -> phi < Ly (sm_grid s) ->
  (forall g, exists r, findIndex g x z = Ok r) -> sm_Bx findIndex s x z phi = Ok None.
Proof.
  intros Ha Hp H0 H1 Hf. destruct (enclosed (sm_grid s) phi Ha Hp H0 H1) as (k & pd & yd & pu & yu & E & Ed & Eu & _).
  unfold sm_Bx. rewrite E. cbn [bind]. rewrite Ed. cbn [bind]. rewrite Eu. cbn [bind fst index_in]. destruct (Hf pd) as (r & ->). reflexivity.
Qed.
Lemma no_Bmag sqrt (s : smoothed G) x z phi : exists e, sm_Bmag findIndex sqrt s x z phi = Err e.
Proof.
  unfold sm_Bmag. destruct (sm_Bx findIndex s x z phi) as [b|e] eqn:E; [|cbn; eauto]. cbn [bind].
  assert (b = None) as ->; [|eauto]. unfold sm_Bx in E. destruct (plane_below _ _); [|discriminate]. cbn [bind] in E. destruct (getPoloidalGrid _ _) as [d|]; [|discriminate]. cbn [bind] in E.
  destruct (getPoloidalGrid _ _); [|discriminate]. cbn [bind] in E. destruct (index_in _ _ _ _); [|discriminate]. cbn [bind] in E. congruence.
Qed.
Lemma type_error_Bmag sqrt (s : smoothed G) x z phi : sm_Bx findIndex s x z phi = Ok None -> sm_Bmag findIndex sqrt s x z phi = Err TypeError.
Proof. intros E. unfold sm_Bmag. rewrite E. reflexivity. Qed.
End Smoothed.
Lemma no_line b xa za : sm_line b xa za = Err OtherError.
Proof. reflexivity. Qed.
