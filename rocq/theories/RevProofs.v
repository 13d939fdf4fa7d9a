(** Proofs about FieldTracerReversible. *)
From Coq Require Import List ZArith QArith Qfield Lia Lqa Bool Setoid.
From Verif Require Import Prelude PreludeFacts TracerModel TracerProofs RevModel RevSpec.
Import ListNotations.
Open Scope Q_scope.

(** ** any field: the rule is symmetric *)
Lemma trapezoid_sym dir y y' p p' : trapezoid dir y y' p p' -> trapezoid dir y' y p' p.
Proof. unfold trapezoid. intros [H1 H2]. split; lra. Qed.
Lemma chain_snoc dir l y y' p q q' : chain dir (l ++ [y]) p q -> trapezoid dir y y' q q' -> chain dir (l ++ [y; y']) p q'.
Proof.
  intros H T. remember (l ++ [y]) as m eqn:E. revert l E. induction H as [y0 p|y0 y1 m p p' q H0 H IH]; intros l E.
  - destruct l as [|a l]; [injection E as ->|destruct l; discriminate]. cbn. econstructor; [exact T|constructor].
  - destruct l as [|a l]; [discriminate|]. cbn in E. injection E as -> E. specialize (IH T l E).
    destruct l as [|b l]; cbn in E |- *; injection E as -> E'; econstructor; eauto.
Qed.
Lemma chain_rev dir l p q : chain dir l p q -> chain dir (rev l) q p.
Proof.
  intros H. induction H as [y p|y y' l p p' q T H IH]; [constructor|]. cbn [rev] in *. rewrite <- app_assoc. cbn.
  apply (chain_snoc dir (rev l) y' y q p' p); [exact IH|now apply trapezoid_sym].
Qed.
Lemma chain_app dir l l' y p q r : chain dir (l ++ [y]) p q -> chain dir (y :: l') q r -> chain dir (l ++ y :: l') p r.
Proof.
  intros H T. remember (l ++ [y]) as m eqn:E. revert l E. induction H as [y0 p|y0 y1 m p p' q H0 H IH]; intros l E.
  - destruct l as [|a l]; [injection E as ->; exact T|destruct l; discriminate].
  - destruct l as [|a l]; [discriminate|]. cbn in E. injection E as -> E. specialize (IH T l E).
    destruct l as [|b l]; cbn in E |- *; injection E as -> E'; econstructor; eauto.
Qed.

(** ** lists in the store *)
Lemma loc_eqb_refl l : loc_eqb l l = true.
Proof. destruct l; cbn; try reflexivity. apply Nat.eqb_refl. Qed.
Lemma loc_eqb_neq a b : a <> b -> loc_eqb a b = false.
Proof. destruct a, b; cbn; intros H; try reflexivity; try contradiction. apply Nat.eqb_neq. congruence. Qed.
Lemma upd_same s l v : upd s l v l = v.
Proof. unfold upd. now rewrite loc_eqb_refl. Qed.
Lemma upd_other s l l' v : l' <> l -> upd s l v l' = s l'.
Proof. intros H. unfold upd. now rewrite loc_eqb_neq. Qed.
Definition at_points (s : store) (lx lz : loc) (ps : list (Q * Q)) : Prop := s lx = map fst ps /\ s lz = map snd ps.
Lemma combine_fst_snd (ps : list (Q * Q)) : combine (map fst ps) (map snd ps) = ps.
Proof. induction ps as [|[a b] ps IH]; [reflexivity|]. cbn. now rewrite IH. Qed.
Lemma combine_maps {A B C D} (f : A -> B) (g : C -> D) l m : combine (map f l) (map g m) = map (fun p => (f (fst p), g (snd p))) (combine l m).
Proof. revert m. induction l as [|a l IH]; intros [|c m]; cbn; try reflexivity. now rewrite IH. Qed.
Definition padd (p d : Q * Q) : Q * Q := (Qred (fst p + fst d), Qred (snd p + snd d)).
Definition psub (p d : Q * Q) : Q * Q := (Qred (fst p - fst d), Qred (snd p - snd d)).
Lemma all_some_map {A B} (f : A -> option B) l r : all_some (map f l) = Some r -> Forall2 (fun a b => f a = Some b) l r.
Proof.
  revert r. induction l as [|a l IH]; intros r; cbn; [intros [= <-]; constructor|]. destruct (f a) eqn:E; [|discriminate].
  destruct (all_some (map f l)); [|discriminate]. intros [= <-]. constructor; auto.
Qed.
Lemma all_some_ok {A B} (f : A -> option B) l : (forall a, In a l -> f a <> None) -> exists r, all_some (map f l) = Some r.
Proof.
  induction l as [|a l IH]; intros H; cbn; [eauto|]. destruct (f a) eqn:E; [|exfalso; apply (H a); [now left|exact E]].
  destruct IH as [r ->]; [intros; apply H; now right|]. eauto.
Qed.

Lemma match_cons {A B} (l : list A) (a b : B) : l <> [] -> match l with [] => a | _ :: _ => b end = b.
Proof. destruct l; [contradiction|reflexivity]. Qed.

Lemma Forall2_trans_eq (a b c : list Q) : Forall2 Qeq a b -> Forall2 Qeq b c -> Forall2 Qeq a c.
Proof.
  intros H. revert c. induction H as [|x y a b E H IH]; intros c K; inversion K; subst; constructor; [etransitivity; eassumption|auto].
Qed.
Lemma Forall2_sym_eq (a b : list Q) : Forall2 Qeq a b -> Forall2 Qeq b a.
Proof. induction 1; constructor; auto. now symmetry. Qed.
Lemma Forall2_refl_eq (a : list Q) : Forall2 Qeq a a.
Proof. induction a; constructor; auto. reflexivity. Qed.
Lemma Forall2_chain_cons dir y y' l ps ps' ps'' :
  Forall2 (trapezoid dir y y') ps ps' -> Forall2 (chain dir (y' :: l)) ps' ps'' -> Forall2 (chain dir (y :: y' :: l)) ps ps''.
Proof.
  intros H. revert ps''. induction H as [|p p' ps ps' T H IH]; intros ps'' K; inversion K; subst; constructor; [econstructor; eassumption|auto].
Qed.
Lemma Forall2_chain_refl dir y ps : Forall2 (chain dir [y]) ps ps.
Proof. induction ps; constructor; [constructor|assumption]. Qed.

Section Step.
Variable dir : Q -> Q -> Q -> Q * Q.
Variable rtol eps : Q.
Variable F : affine.
Hypothesis HF : is_affine F dir.
Hypothesis HP : affine_ok F.
Hypothesis Heps : ~ eps == 0.
Notation newton_delta := (newton_delta dir eps). Notation newton := (newton dir rtol eps).

(** the implicit equation *)
Definition solves (y dy : Q) (h p : Q * Q) : Prop :=
  let d := dir (fst p) (snd p) y in fst h + (1#2) * fst d * dy == fst p /\ snd h + (1#2) * snd d * dy == snd p.

Lemma dir_eq x z y : exists u v, dir x z y = (u, v) /\ u == A11 F y * x + A12 F y * z + C1 F y /\ v == A21 F y * x + A22 F y * z + C2 F y.
Proof. destruct (HF x z y) as [H1 H2]. destruct (dir x z y) as [u v]. exists u, v. auto. Qed.

Lemma delta_affine y dy h p : match newton_delta y dy h p with
  | None => step_det F y dy == 0
  | Some d => ~ step_det F y dy == 0 /\ solves y dy h (psub p d) /\ (solves y dy h p -> fst d == 0 /\ snd d == 0)
  end.
Proof.
  destruct p as [x z], h as [xh zh]. unfold RevModel.newton_delta.
  destruct (dir_eq x z y) as (u & v & -> & Hu & Hv). destruct (dir_eq (x + eps) z y) as (u1 & v1 & -> & Hu1 & Hv1). destruct (dir_eq x (z + eps) y) as (u2 & v2 & -> & Hu2 & Hv2).
  set (a11 := A11 F y) in *. set (a12 := A12 F y) in *. set (a21 := A21 F y) in *. set (a22 := A22 F y) in *. set (c1 := C1 F y) in *. set (c2 := C2 F y) in *.
  assert (J1 : (u1 - u) / eps == a11) by (rewrite Hu1, Hu; field; exact Heps).
  assert (J2 : (v1 - v) / eps == a21) by (rewrite Hv1, Hv; field; exact Heps).
  assert (J3 : (u2 - u) / eps == a12) by (rewrite Hu2, Hu; field; exact Heps).
  assert (J4 : (v2 - v) / eps == a22) by (rewrite Hv2, Hv; field; exact Heps).
  set (ux := (u1 - u) / eps) in *. set (vx := (v1 - v) / eps) in *. set (uz := (u2 - u) / eps) in *. set (vz := (v2 - v) / eps) in *. clearbody ux vx uz vz.
  assert (SD : step_det F y dy == ((1#2) * ux * dy - 1) * ((1#2) * vz * dy - 1) - (1#2) * uz * dy * ((1#2) * vx * dy)).
  { unfold step_det. fold a11 a12 a21 a22. rewrite J1, J2, J3, J4. reflexivity. }
  cbv zeta. set (det := ((1#2) * ux * dy - 1) * ((1#2) * vz * dy - 1) - (1#2) * uz * dy * ((1#2) * vx * dy)) in *.
  destruct (Qeq_bool det 0) eqn:E; [apply Qeq_bool_iff in E; rewrite SD; exact E|]. apply Qeq_bool_neq in E.
  split; [rewrite SD; exact E|].
  set (fx := (1#2) * u * dy - x + xh). set (fz := (1#2) * v * dy - z + zh).
  set (dx := (((1#2) * vz * dy - 1) * fx - (1#2) * uz * dy * fz) / det). set (dz := (((1#2) * ux * dy - 1) * fz - (1#2) * vx * dy * fx) / det).
  assert (L1 : ((1#2) * ux * dy - 1) * dx + (1#2) * uz * dy * dz == fx) by (unfold dx, dz, det; field; unfold det in E; intros C; apply E; rewrite <- C; ring).
  assert (L2 : (1#2) * vx * dy * dx + ((1#2) * vz * dy - 1) * dz == fz) by (unfold dx, dz, det; field; unfold det in E; intros C; apply E; rewrite <- C; ring).
  split.
  - unfold solves, psub. cbn [fst snd]. destruct (HF (Qred (x - dx)) (Qred (z - dz)) y) as [S1 S2]. fold a11 a12 a21 a22 c1 c2 in S1, S2.
    rewrite S1, S2. rewrite !Qred_correct. clearbody dx dz. unfold fx, fz in *. rewrite Hu in L1. rewrite Hv in L2. rewrite J1, J3 in L1. rewrite J2, J4 in L2. split; [|].
    + setoid_replace (xh + (1 # 2) * (a11 * (x - dx) + a12 * (z - dz) + c1) * dy) with
        (x + ((1#2) * (a11 * x + a12 * z + c1) * dy - x + xh) - ((1#2) * a11 * dy * dx + (1#2) * a12 * dy * dz)) by ring.
      rewrite <- L1. ring.
    + setoid_replace (zh + (1 # 2) * (a21 * (x - dx) + a22 * (z - dz) + c2) * dy) with
        (z + ((1#2) * (a21 * x + a22 * z + c2) * dy - z + zh) - ((1#2) * a21 * dy * dx + (1#2) * a22 * dy * dz)) by ring.
      rewrite <- L2. ring.
  - unfold solves. cbn [fst snd]. destruct (HF x z y) as [S1 S2]. fold a11 a12 a21 a22 c1 c2 in S1, S2. intros [E1 E2]. rewrite S1 in E1. rewrite S2 in E2.
    assert (fx == 0) by (unfold fx; rewrite Hu; lra). assert (fz == 0) by (unfold fz; rewrite Hv; lra). unfold dx, dz. rewrite H, H0. split; field; exact E.
Qed.

(** one pass over all points *)
Lemma pass_points s lx lz ps ds : lx <> lz -> at_points s lx lz ps -> length ds = length ps ->
  let s1 := upd s lx (vsub (s lx) (map fst ds)) in let s2 := upd s1 lz (vsub (s1 lz) (map snd ds)) in
  at_points s2 lx lz (map (fun pd => psub (fst pd) (snd pd)) (combine ps ds)) /\ forall l, l <> lx -> l <> lz -> s2 l = s l.
Proof.
  intros N [E1 E2] L s1 s2. unfold s2, s1. split; [split|].
  - rewrite upd_other by exact N. rewrite upd_same, E1. unfold vsub. rewrite combine_maps, !map_map. apply map_ext. intros [p d]. reflexivity.
  - rewrite upd_same, upd_other by congruence. rewrite E2. unfold vsub. rewrite combine_maps, !map_map. apply map_ext. intros [p d]. reflexivity.
  - intros l H1 H2. now rewrite !upd_other by assumption.
Qed.
Lemma Forall2_length' {A B} (R : A -> B -> Prop) l m : Forall2 R l m -> length l = length m.
Proof. induction 1; cbn; congruence. Qed.
Lemma pass_solves y dy hs ps ds : length hs = length ps -> all_some (map (fun hp => newton_delta y dy (fst hp) (snd hp)) (combine hs ps)) = Some ds ->
  length ds = length ps /\ Forall2 (solves y dy) hs (map (fun pd => psub (fst pd) (snd pd)) (combine ps ds)) /\
  (Forall2 (solves y dy) hs ps -> Forall (fun d => fst d == 0 /\ snd d == 0) ds).
Proof.
  intros L H. apply all_some_map in H. revert ps ds L H. induction hs as [|h hs IH]; intros [|p ps] ds L H; try discriminate.
  - inversion H; subst. repeat split; constructor.
  - cbn [combine] in H. inversion H as [|? d ? ds' E H']; subst. cbn [fst snd] in E. destruct (IH ps ds' ltac:(now injection L) H') as (I1 & I2 & I3).
    pose proof (delta_affine y dy h p) as D. rewrite E in D. destruct D as (_ & D2 & D3).
    split; [cbn; now rewrite I1|]. split; [cbn; constructor; assumption|]. intros Hs. inversion Hs; subst. constructor; auto.
Qed.
Lemma newton_affine s lx lz y dy hs ps fuel : lx <> lz -> 0 < rtol -> at_points s lx lz ps -> length hs = length ps -> ps <> [] -> ~ step_det F y dy == 0 -> (2 <= fuel)%nat ->
  exists s' ps', newton fuel s lx lz y dy hs = Some (Ok s') /\ at_points s' lx lz ps' /\ Forall2 (solves y dy) hs ps' /\ forall l, l <> lx -> l <> lz -> s' l = s l.
Proof.
  intros N Hr A L Hne Hd Hf.
  assert (Pass : forall s ps, at_points s lx lz ps -> length hs = length ps -> ps <> [] -> exists ds,
    all_some (map (fun hp => newton_delta y dy (fst hp) (snd hp)) (combine hs (combine (s lx) (s lz)))) = Some ds /\ ds <> [] /\
    length ds = length ps /\ Forall2 (solves y dy) hs (map (fun pd => psub (fst pd) (snd pd)) (combine ps ds)) /\
    (Forall2 (solves y dy) hs ps -> Forall (fun d => fst d == 0 /\ snd d == 0) ds)).
  { clear - HF HP Heps Hd. intros s ps [E1 E2] L Hne. rewrite E1, E2, combine_fst_snd.
    destruct (all_some_ok (fun hp => newton_delta y dy (fst hp) (snd hp)) (combine hs ps)) as [ds E].
    { intros [h p] _. cbn [fst snd]. pose proof (delta_affine y dy h p) as D. intros C. rewrite C in D. contradiction. }
    exists ds. split; [exact E|]. destruct (pass_solves y dy hs ps ds L E) as (P1 & P2 & P3). split; [|auto].
    intros ->. destruct ps; [contradiction|discriminate]. }
  destruct fuel as [|[|fuel]]; try lia. cbn [RevModel.newton].
  destruct (Pass s ps A L Hne) as (ds & -> & Nd & P1 & P2 & P3). rewrite (match_cons ds _ _ Nd).
  destruct (pass_points s lx lz ps ds N A P1) as [A2 O2]. set (s2 := upd (upd s lx _) lz _) in *.
  destruct (forallb _ ds) eqn:Fb; [exists s2; eexists; split; [reflexivity|]; eauto|].
  set (ps2 := map _ (combine ps ds)) in *. assert (L2 : length hs = length ps2) by (apply Forall2_length' in P2; exact P2).
  destruct (Pass s2 ps2 A2 L2) as (ds2 & -> & Nd2 & Q1 & Q2 & Q3). { intros C. rewrite C in L2. rewrite L2 in L. destruct ps; [contradiction|discriminate]. }
  rewrite (match_cons ds2 _ _ Nd2).
  destruct (pass_points s2 lx lz ps2 ds2 N A2 Q1) as [A3 O3]. set (s3 := upd (upd s2 lx _) lz _) in *.
  assert (Fz : forallb (fun d => Qlt_bool (fst d * fst d + snd d * snd d) rtol) ds2 = true).
  { apply forallb_forall. intros d Hd'. specialize (Q3 P2). rewrite Forall_forall in Q3. destruct (Q3 d Hd') as [Z1 Z2]. apply Qlt_bool_iff. rewrite Z1, Z2. lra. }
  rewrite Fz. exists s3. eexists. split; [reflexivity|]. split; [exact A3|]. split; [exact Q2|]. intros l H1 H2. now rewrite O3, O2.
Qed.

Lemma respect_dir x x' z z' y y' : x == x' -> z == z' -> y == y' -> fst (dir x z y) == fst (dir x' z' y') /\ snd (dir x z y) == snd (dir x' z' y').
Proof.
  intros Ex Ez Ey. destruct (HF x z y) as [-> ->]. destruct (HF x' z' y') as [-> ->]. destruct HP as (P1 & P2 & P3 & P4 & P5 & P6).
  rewrite (P1 y y' Ey), (P2 y y' Ey), (P3 y y' Ey), (P4 y y' Ey), (P5 y y' Ey), (P6 y y' Ey), Ex, Ez. split; reflexivity.
Qed.
Lemma det_comp y y' dy dy' : y == y' -> dy == dy' -> step_det F y dy == step_det F y' dy'.
Proof. intros Ey Ed. unfold step_det. destruct HP as (P1 & P2 & P3 & P4 & P5 & P6). rewrite (P1 y y' Ey), (P2 y y' Ey), (P3 y y' Ey), (P4 y y' Ey), Ed. reflexivity. Qed.

Lemma substep_affine s lx lz y dy ps fuel : lx <> lz -> 0 < rtol -> at_points s lx lz ps -> ps <> [] -> ~ step_det F (y + dy) dy == 0 -> (2 <= fuel)%nat ->
  exists s' ps', substep dir rtol eps fuel lx lz y dy s = Some (Ok s') /\ at_points s' lx lz ps' /\ Forall2 (trapezoid dir y (Qred (y + dy))) ps ps' /\ forall l, l <> lx -> l <> lz -> s' l = s l.
Proof.
  intros N Hr [E1 E2] Hne Hd Hf. unfold substep. rewrite E1, E2, combine_fst_snd.
  set (ds := map (fun p => dir (fst p) (snd p) y) ps). set (hs := map _ (combine ps ds)).
  set (s2 := upd (upd s lx _) lz _).
  assert (Lds : length ds = length ps) by (unfold ds; now rewrite map_length).
  assert (A2 : at_points s2 lx lz (map (fun pd => padd (fst pd) (fst (snd pd) * dy, snd (snd pd) * dy)) (combine ps ds))).
  { unfold s2, at_points. rewrite upd_other by exact N. rewrite !upd_same. rewrite upd_other by congruence. rewrite E2. unfold vadd. rewrite !combine_maps, !map_map. split; apply map_ext; intros [p d]; reflexivity. }
  destruct (newton_affine s2 lx lz (Qred (y + dy)) dy hs _ fuel N Hr A2) as (s' & ps' & H1 & H2 & H3 & H4).
  - unfold hs. rewrite !map_length. reflexivity.
  - intros C. apply (f_equal (@length _)) in C. rewrite map_length, combine_length, Lds in C. destruct ps; [contradiction|]. cbn in C. lia.
  - rewrite (det_comp _ _ dy dy (Qred_correct (y + dy)) ltac:(reflexivity)). exact Hd.
  - exact Hf.
  - exists s', ps'. split; [exact H1|]. split; [exact H2|]. split.
    + unfold hs, ds in H3. clear - H3. revert ps' H3. induction ps as [|p ps IH]; intros ps' H3; cbn [map combine] in H3; inversion H3 as [|? p' ? ps'' S S']; subst; constructor; [|now apply IH].
      unfold solves in S. cbv zeta in S. cbn [fst snd] in S. destruct S as [S1 S2]. unfold trapezoid. cbv zeta.
      assert (E : Qred (y + dy) - y == dy) by (rewrite Qred_correct; ring).
      set (u := fst (dir (fst p) (snd p) y)) in *. set (v := snd (dir (fst p) (snd p) y)) in *.
      set (u' := fst (dir (fst p') (snd p') (Qred (y + dy)))) in *. set (v' := snd (dir (fst p') (snd p') (Qred (y + dy)))) in *. clearbody u v u' v'.
      split; [rewrite E, <- S1; ring|rewrite E, <- S2; ring].
    + intros l L1 L2. rewrite H4 by assumption. unfold s2. now rewrite !upd_other by assumption.
Qed.

(** ** sub-steps *)
Fixpoint agrid (n : nat) (y dy : Q) : list Q := y :: match n with O => [] | S n => agrid n (Qred (y + dy)) dy end.
Lemma agrid_head n y dy : exists l, agrid n y dy = y :: l.
Proof. destruct n; cbn; eauto. Qed.
Lemma agrid_even n y dy : Forall2 Qeq (agrid n y dy) (map (fun i => y + inject_Z (Z.of_nat i) * dy) (seq 0 (n + 1))).
Proof.
  revert y. induction n as [|n IH]; intros y.
  - cbn. constructor; [ring|constructor].
  - cbn [agrid Nat.add seq map]. constructor; [cbn [Z.of_nat]; ring|]. specialize (IH (Qred (y + dy))).
    rewrite <- seq_shift, map_map. eapply Forall2_trans_eq; [exact IH|]. clear IH.
    induction (seq 0 (n + 1)) as [|i l IH]; cbn [map]; constructor; [|exact IH]. rewrite Qred_correct, Nat2Z.inj_succ. unfold Z.succ. rewrite inject_Z_plus. ring.
Qed.

Lemma trapezoid_comp y y' z z' p p' : y == z -> y' == z' -> trapezoid dir y y' p p' -> trapezoid dir z z' p p'.
Proof.
  intros E E' [H1 H2]. destruct (respect_dir (fst p) (fst p) (snd p) (snd p) y z) as [A1 A2]; [reflexivity|reflexivity|exact E|].
  destruct (respect_dir (fst p') (fst p') (snd p') (snd p') y' z') as [B1 B2]; [reflexivity|reflexivity|exact E'|].
  unfold trapezoid. cbv zeta in *. split; [rewrite <- A1, <- B1|rewrite <- A2, <- B2]; rewrite <- E, <- E' at 1; assumption.
Qed.
Lemma chain_comp l l' p q : Forall2 Qeq l l' -> chain dir l p q -> chain dir l' p q.
Proof.
  intros E H. revert l' E. induction H as [y p|y y' l p p' q T H IH]; intros l' E; inversion E as [|? z ? l1 Ez E1]; subst.
  - inversion E1; subst. constructor.
  - inversion E1 as [|? z' ? l2 Ez' E2]; subst. econstructor; [eapply trapezoid_comp; eassumption|]. now apply IH.
Qed.
Lemma Forall2_impl {A B} (P R : A -> B -> Prop) l m : (forall a b, P a b -> R a b) -> Forall2 P l m -> Forall2 R l m.
Proof. intros H. induction 1; constructor; auto. Qed.

Lemma substeps_affine n : forall s lx lz y dy ps fuel, lx <> lz -> 0 < rtol -> at_points s lx lz ps -> ps <> [] -> (forall y, ~ step_det F y dy == 0) -> (2 <= fuel)%nat ->
  exists s' ps' y', substeps dir rtol eps fuel n lx lz y dy s = Some (Ok (s', y')) /\ y' == y + inject_Z (Z.of_nat n) * dy /\ at_points s' lx lz ps'
    /\ Forall2 (chain dir (agrid n y dy)) ps ps' /\ ps' <> [] /\ forall l, l <> lx -> l <> lz -> s' l = s l.
Proof.
  induction n as [|n IH]; intros s lx lz y dy ps fuel N Hr A Hne Hd Hf.
  - exists s, ps, y. split; [reflexivity|]. split; [cbn [Z.of_nat]; ring|]. split; [exact A|]. split; [apply Forall2_chain_refl|auto].
  - cbn [substeps]. destruct (substep_affine s lx lz y dy ps fuel N Hr A Hne (Hd _) Hf) as (s1 & ps1 & -> & A1 & T1 & O1).
    assert (Hne1 : ps1 <> []) by (intros ->; inversion T1; subst; contradiction).
    destruct (IH s1 lx lz (Qred (y + dy)) dy ps1 fuel N Hr A1 Hne1 Hd Hf) as (s2 & ps2 & y2 & -> & E2 & A2 & T2 & Hne2 & O2).
    exists s2, ps2, y2. split; [reflexivity|]. split; [rewrite E2, Qred_correct, Nat2Z.inj_succ; unfold Z.succ; rewrite inject_Z_plus; ring|]. split; [exact A2|]. split.
    + cbn [agrid]. destruct (agrid_head n (Qred (y + dy)) dy) as [l E]. rewrite E in *. eapply Forall2_chain_cons; eassumption.
    + split; [exact Hne2|]. intros l L1 L2. now rewrite O2, O1.
Qed.

Lemma even_grid_comp n a a' b b' : a == a' -> b == b' -> Forall2 Qeq (even_grid n a b) (even_grid n a' b').
Proof. intros E E'. unfold even_grid. induction (seq 0 (n + 1)) as [|i l IH]; cbn [map]; constructor; [|exact IH]. now rewrite E, E'. Qed.
Lemma agrid_even_grid n a b : (0 < n)%nat -> Forall2 Qeq (agrid n a (Qred ((b - a) / inject_Z (Z.of_nat n)))) (even_grid n a b).
Proof.
  intros Hn. eapply Forall2_trans_eq; [apply agrid_even|]. unfold even_grid. induction (seq 0 (n + 1)) as [|i l IH]; cbn [map]; constructor; [|exact IH].
  now rewrite Qred_correct.
Qed.
Lemma injn_neq0 n : (0 < n)%nat -> ~ inject_Z (Z.of_nat n) == 0.
Proof. intros H C. unfold Qeq in C. cbn in C. lia. Qed.

Lemma run_head_comp n a a' t pss : a == a' -> run dir n (a :: t) pss -> run dir n (a' :: t) pss.
Proof.
  intros E H. inversion H; subst; [constructor|]. constructor; [|assumption]. eapply Forall2_impl; [|eassumption].
  intros p q. apply chain_comp. apply even_grid_comp; [exact E|reflexivity].
Qed.
Lemma solvable_head_comp n a a' t : a == a' -> solvable F n (a :: t) -> solvable F n (a' :: t).
Proof.
  intros E. destruct t as [|b t]; [auto|]. cbn [solvable]. intros [H1 H2]. split; [|exact H2]. intros y. destruct (H1 y) as [A B].
  split; [rewrite <- (det_comp y y ((b - a) / inject_Z (Z.of_nat n)) _)|rewrite <- (det_comp y y (- ((b - a) / inject_Z (Z.of_nat n))) _)]; auto; try reflexivity; now rewrite E.
Qed.

Definition row_of (ps : list (Q * Q)) : list Q * list Q := (map fst ps, map snd ps).
Lemma rev_rows_affine n ys : (0 < n)%nat -> forall s lx lz y ps fuel, lx <> lz -> 0 < rtol -> at_points s lx lz ps -> ps <> [] -> solvable F n (y :: ys) -> (2 <= fuel)%nat ->
  exists s' pss, rev_rows dir rtol eps fuel n lx lz y ys s = Some (Ok (s', map row_of pss)) /\ run dir n (y :: ys) (ps :: pss)
    /\ at_points s' lx lz (last pss ps) /\ forall l, l <> lx -> l <> lz -> s' l = s l.
Proof.
  intros Hn. induction ys as [|b t IH]; intros s lx lz y ps fuel N Hr A Hne Hs Hf.
  - exists s, []. cbn. repeat split; try apply A; try constructor.
  - cbn [rev_rows]. destruct Hs as [Hd Hs]. set (dy := Qred ((b - y) / inject_Z (Z.of_nat n))).
    assert (Edy : dy == (b - y) / inject_Z (Z.of_nat n)) by apply Qred_correct.
    destruct (substeps_affine n s lx lz y dy ps fuel N Hr A Hne) as (s1 & ps1 & y1 & -> & E1 & A1 & T1 & Hne1 & O1); [|exact Hf|].
    { intros y0. rewrite (det_comp y0 y0 dy ((b - y) / inject_Z (Z.of_nat n))); [apply Hd|reflexivity|exact Edy]. }
    assert (Eb : y1 == b). { rewrite E1, Edy. field. now apply injn_neq0. }
    destruct (IH s1 lx lz y1 ps1 fuel N Hr A1 Hne1) as (s2 & pss & -> & R2 & A2 & O2); [|exact Hf|].
    { apply (solvable_head_comp n b y1 t); [now symmetry|exact Hs]. }
    exists s2, (ps1 :: pss). split; [destruct A1 as [-> ->]; reflexivity|]. split; [|split].
    + constructor; [|now apply (run_head_comp n y1)]. eapply Forall2_impl; [|exact T1]. intros p q. apply chain_comp. now apply agrid_even_grid.
    + assert (L : last (ps1 :: pss) ps = last pss ps1). { clear. destruct pss as [|a pss]; [reflexivity|]. change (last (ps1 :: a :: pss) ps) with (last (a :: pss) ps). revert a. induction pss as [|b pss IH]; intros a; [reflexivity|]. cbn [last] in *. apply IH. }
      rewrite L. exact A2.
    + intros l L1 L2. now rewrite O2, O1.
Qed.

(** ** uniqueness and round trips *)
Lemma trapezoid_unique y y' p p' q q' : qeq2 p q -> trapezoid dir y y' p p' -> trapezoid dir y y' q q' -> ~ step_det F y' (y' - y) == 0 -> qeq2 p' q'.
Proof.
  intros [P1 P2] [T1 T2] [U1 U2] D. cbv zeta in *.
  destruct (respect_dir (fst p) (fst q) (snd p) (snd q) y y) as [A1 A2]; [assumption|assumption|reflexivity|].
  destruct (HF (fst p') (snd p') y') as [B1 B2]. destruct (HF (fst q') (snd q') y') as [B3 B4].
  rewrite B1, A1 in T1. rewrite B2, A2 in T2. rewrite B3 in U1. rewrite B4 in U2. rewrite P1 in T1. rewrite P2 in T2.
  set (g1 := fst (dir (fst q) (snd q) y)) in *. set (g2 := snd (dir (fst q) (snd q) y)) in *. clearbody g1 g2. clear A1 A2 B1 B2 B3 B4. unfold step_det in D.
  set (a11 := A11 F y') in *. set (a12 := A12 F y') in *. set (a21 := A21 F y') in *. set (a22 := A22 F y') in *. clearbody a11 a12 a21 a22.
  set (h := y' - y) in *. clearbody h.
  assert (X1 : (fst p' - fst q') * ((1#2) * a11 * h - 1) + (snd p' - snd q') * ((1#2) * a12 * h) == 0).
  { setoid_replace ((fst p' - fst q') * ((1#2) * a11 * h - 1) + (snd p' - snd q') * ((1#2) * a12 * h)) with
      (h * (1 # 2) * (g1 + (a11 * fst p' + a12 * snd p' + C1 F y')) - h * (1 # 2) * (g1 + (a11 * fst q' + a12 * snd q' + C1 F y')) - (fst p' - fst q') ) by ring.
    rewrite <- T1, <- U1. ring. }
  assert (X2 : (fst p' - fst q') * ((1#2) * a21 * h) + (snd p' - snd q') * ((1#2) * a22 * h - 1) == 0).
  { setoid_replace ((fst p' - fst q') * ((1#2) * a21 * h) + (snd p' - snd q') * ((1#2) * a22 * h - 1)) with
      (h * (1 # 2) * (g2 + (a21 * fst p' + a22 * snd p' + C2 F y')) - h * (1 # 2) * (g2 + (a21 * fst q' + a22 * snd q' + C2 F y')) - (snd p' - snd q') ) by ring.
    rewrite <- T2, <- U2. ring. }
  set (e1 := fst p' - fst q') in *. set (e2 := snd p' - snd q') in *.
  set (d := ((1 # 2) * a11 * h - 1) * ((1 # 2) * a22 * h - 1) - (1 # 2) * a12 * h * ((1 # 2) * a21 * h)) in *.
  assert (Y1 : e1 * d == 0).
  { setoid_replace (e1 * d) with ((e1 * ((1#2) * a11 * h - 1) + e2 * ((1#2) * a12 * h)) * ((1 # 2) * a22 * h - 1)
       - (e1 * ((1#2) * a21 * h) + e2 * ((1#2) * a22 * h - 1)) * ((1 # 2) * a12 * h)) by (unfold d; ring). rewrite X1, X2. ring. }
  assert (Y2 : e2 * d == 0).
  { setoid_replace (e2 * d) with ((e1 * ((1#2) * a21 * h) + e2 * ((1#2) * a22 * h - 1)) * ((1 # 2) * a11 * h - 1)
       - (e1 * ((1#2) * a11 * h - 1) + e2 * ((1#2) * a12 * h)) * ((1 # 2) * a21 * h)) by (unfold d; ring). rewrite X1, X2. ring. }
  apply Qmult_integral in Y1. apply Qmult_integral in Y2.
  split; [destruct Y1 as [Y|Y]|destruct Y2 as [Y|Y]]; try contradiction; unfold e1, e2 in Y; lra.
Qed.

(** equal steps of size d in a list of y values *)
Fixpoint uniform (d : Q) (l : list Q) : Prop := match l with a :: ((b :: _) as t) => b - a == d /\ uniform d t | _ => True end.
Lemma chain_unique d l p p' q q' : uniform d l -> (forall y, ~ step_det F y d == 0) -> qeq2 p q -> chain dir l p p' -> chain dir l q q' -> qeq2 p' q'.
Proof.
  intros U D E H. revert q q' E U. induction H as [y p|y y' l p p1 p' T H IH]; intros q q' E U K; inversion K; subst; [exact E|].
  destruct U as [U1 U2]. eapply IH; [|exact U2|eassumption]. eapply trapezoid_unique; [exact E|exact T|eassumption|].
  rewrite (det_comp y' y' (y' - y) d); [apply D|reflexivity|exact U1].
Qed.
Lemma even_grid_uniform n a b : uniform ((b - a) / inject_Z (Z.of_nat n)) (even_grid n a b).
Proof.
  unfold even_grid. generalize (n + 1)%nat at 1 as m. set (d := (b - a) / inject_Z (Z.of_nat n)). clearbody d.
  intros m. generalize 0%nat as k. induction m as [|m IH]; intros k; [exact I|]. cbn [seq map]. specialize (IH (S k)). destruct m as [|m]; [exact I|].
  cbn [seq map uniform] in *. split; [|exact IH]. rewrite Nat2Z.inj_succ. unfold Z.succ. rewrite inject_Z_plus. ring.
Qed.
Lemma Forall2_chain_unique d l ps ps' qs qs' : uniform d l -> (forall y, ~ step_det F y d == 0) -> Forall2 qeq2 ps qs -> Forall2 (chain dir l) ps ps' -> Forall2 (chain dir l) qs qs' -> Forall2 qeq2 ps' qs'.
Proof.
  intros U D E. revert ps' qs'. induction E as [|p q ps qs E H IH]; intros ps' qs' K K'; inversion K; inversion K'; subst; constructor; [|auto].
  eapply chain_unique; eassumption.
Qed.
Lemma run_unique n ys pss qss ps qs : solvable F n ys -> Forall2 qeq2 ps qs -> run dir n ys (ps :: pss) -> run dir n ys (qs :: qss) -> Forall2 (Forall2 qeq2) (ps :: pss) (qs :: qss).
Proof.
  intros S E H. revert qs qss E. remember (ps :: pss) as l eqn:El. revert ps pss El. induction H as [a ps0|a b t ps0 ps' r C H IH]; intros ps pss El qs qss E K.
  - injection El as -> <-. inversion K; subst. constructor; [exact E|constructor].
  - injection El as -> <-. inversion K as [|? ? ? ? qs' r' C' K']; subst. destruct S as [S1 S2]. constructor; [exact E|].
    eapply IH; [exact S2|reflexivity| |exact K']. refine (Forall2_chain_unique ((b - a) / inject_Z (Z.of_nat n)) (even_grid n a b) ps ps' qs qs' (even_grid_uniform n a b) _ E C C'). intros y. exact (proj1 (S1 y)).
Qed.

Lemma Forall2_nth_Qeq a b : length a = length b -> (forall i, (i < length a)%nat -> nth i a 0 == nth i b 0) -> Forall2 Qeq a b.
Proof.
  revert b. induction a as [|x a IH]; intros [|y b] L H; try discriminate; constructor.
  - apply (H 0%nat). cbn. lia.
  - apply IH; [now injection L|]. intros i Hi. apply (H (S i)). cbn. lia.
Qed.
Lemma even_grid_rev n a b : (0 < n)%nat -> Forall2 Qeq (rev (even_grid n a b)) (even_grid n b a).
Proof.
  intros Hn. unfold even_grid. apply Forall2_nth_Qeq; [now rewrite rev_length, !map_length|]. rewrite rev_length, map_length, seq_length. intros i Hi.
  rewrite rev_nth by (rewrite map_length, seq_length; exact Hi). rewrite map_length, seq_length.
  rewrite (nth_map' _ _ _ _ 0%nat) by (rewrite seq_length; lia). rewrite (nth_map' _ _ _ _ 0%nat) by (rewrite seq_length; lia). rewrite !seq_nth by lia.
  replace (0 + (n + 1 - S i))%nat with (n - i)%nat by lia. rewrite Nat2Z.inj_sub by lia. unfold Z.sub. rewrite inject_Z_plus, inject_Z_opp. cbn [Nat.add]. field. now apply injn_neq0.
Qed.
Lemma run_snoc n l a b pss ps ps' : run dir n (l ++ [a]) (pss ++ [ps]) -> Forall2 (chain dir (even_grid n a b)) ps ps' -> run dir n (l ++ [a; b]) (pss ++ [ps; ps']).
Proof.
  intros H C. remember (l ++ [a]) as m eqn:E. remember (pss ++ [ps]) as r eqn:E'. revert l pss E E'. induction H as [a0 ps0|a0 b0 t ps0 ps1 r C0 H IH]; intros l pss E E'.
  - destruct l as [|? l]; [|destruct l; discriminate]. destruct pss as [|? pss]; [|destruct pss; discriminate]. cbn in *. injection E as ->. injection E' as ->.
    constructor; [exact C|constructor].
  - destruct l as [|? l]; [discriminate|]. destruct pss as [|? pss]; [discriminate|]. cbn in E, E'. injection E as -> E. injection E' as -> E'. specialize (IH l pss E E').
    destruct l as [|? l]; cbn in E; injection E as -> E; destruct pss as [|? pss]; cbn in E'; injection E' as -> E'; cbn in IH |- *; constructor; assumption.
Qed.
Lemma Forall2_flip' {A B} (P : A -> B -> Prop) (R : B -> A -> Prop) l m : (forall a b, P a b -> R b a) -> Forall2 P l m -> Forall2 R m l.
Proof. intros H. induction 1; constructor; auto. Qed.
Lemma run_rev n ys pss : (0 < n)%nat -> run dir n ys pss -> run dir n (rev ys) (rev pss).
Proof.
  intros Hn H. induction H as [a ps|a b t ps ps' r C H IH]; [constructor|]. cbn [rev] in *. rewrite <- !app_assoc. cbn [app].
  apply run_snoc; [exact IH|]. eapply Forall2_flip'; [|exact C]. intros p q K. eapply chain_comp; [now apply even_grid_rev|]. now apply chain_rev.
Qed.
Lemma solvable_snoc n l a b : solvable F n (l ++ [a]) -> (forall y, ~ step_det F y ((b - a) / inject_Z (Z.of_nat n)) == 0 /\ ~ step_det F y (- ((b - a) / inject_Z (Z.of_nat n))) == 0) -> solvable F n (l ++ [a; b]).
Proof.
  induction l as [|c l IH]; intros H D; [cbn; auto|]. destruct l as [|c' l]; [cbn in *; destruct H; auto|]. cbn [app solvable] in *. destruct H as [H1 H2]. split; [exact H1|]. now apply IH.
Qed.
Lemma solvable_rev n l : solvable F n l -> solvable F n (rev l).
Proof.
  induction l as [|a l IH]; [auto|]. destruct l as [|b l]; [cbn; auto|]. intros [H1 H2]. specialize (IH H2). cbn [rev] in *. rewrite <- app_assoc. cbn [app].
  apply solvable_snoc; [exact IH|]. intros y. destruct (H1 y) as [A B].
  assert (E : (a - b) / inject_Z (Z.of_nat n) == - ((b - a) / inject_Z (Z.of_nat n))) by (unfold Qdiv; ring).
  split.
  - rewrite (det_comp y y _ (- ((b - a) / inject_Z (Z.of_nat n)))); [exact B|reflexivity|exact E].
  - rewrite (det_comp y y _ ((b - a) / inject_Z (Z.of_nat n))); [exact A|reflexivity|rewrite E; ring].
Qed.
Lemma qeq2_refl_all ps : Forall2 qeq2 ps ps.
Proof. induction ps; constructor; [split; reflexivity|assumption]. Qed.
End Step.
