(** How far the positions of FieldTracerReversible are from the field lines. *)
From Coq Require Import List ZArith QArith Qabs Reals Qreals Lia Lra Rpower.
From Verif Require Import Prelude PreludeFacts TracerModel TracerSpec TracerProofs RevModel RevSpec RevProofs RevFollow RevLipSpec RevLip.
Import ListNotations.
Open Scope R_scope.

(** ** the error of the trapezoidal rule *)
Lemma grows f f' F F' h : 0 <= h -> (forall s, 0 <= s <= h -> derivable_pt_lim f s (f' s)) -> (forall s, 0 <= s <= h -> derivable_pt_lim F s (F' s)) ->
  (forall s, 0 <= s <= h -> Rabs (f' s) <= F' s) -> f 0 = 0 -> F 0 = 0 -> Rabs (f h) <= F h.
Proof.
  intros Hh Df DF B f0 F0. destruct (Req_dec h 0) as [->|Nh]; [rewrite f0, F0, Rabs_R0; lra|]. assert (P : 0 < h) by lra.
  destruct (MVT_cor2 (fun s => F s - f s) (fun s => F' s - f' s) 0 h P) as (c & E & Hc).
  { intros c Hc. apply (derivable_pt_lim_minus F f c); auto. }
  destruct (MVT_cor2 (fun s => F s + f s) (fun s => F' s + f' s) 0 h P) as (c' & E' & Hc').
  { intros c' Hc'. apply (derivable_pt_lim_plus F f c'); auto. }
  assert (X := B c ltac:(lra)). assert (X' := B c' ltac:(lra)). rewrite f0, F0 in E, E'.
  assert (0 <= F' c - f' c) by (unfold Rabs in X; destruct (Rcase_abs (f' c)); lra).
  assert (0 <= F' c' + f' c') by (unfold Rabs in X'; destruct (Rcase_abs (f' c')); lra).
  assert (0 <= (F' c - f' c) * (h - 0)) by (apply Rmult_le_pos; lra).
  assert (0 <= (F' c' + f' c') * (h - 0)) by (apply Rmult_le_pos; lra).
  apply Rabs_le. lra.
Qed.

Lemma shift_lim f f' t0 s : (forall t, derivable_pt_lim f t (f' t)) -> derivable_pt_lim (fun s => f (t0 + s)) s (f' (t0 + s)).
Proof.
  intros D. replace (f' (t0 + s)) with (f' (t0 + s) * 1) by ring. apply (derivable_pt_lim_comp (fun s => t0 + s) f s 1 (f' (t0 + s))); [|apply D].
  replace 1 with (0 + 1) by ring. apply (derivable_pt_lim_plus (fun _ => t0) (fun s => s) s 0 1); [apply derivable_pt_lim_const|apply derivable_pt_lim_id].
Qed.

Lemma trapezoid_error_pos M f f' t0 h : smooth M f f' -> 0 <= h -> Rabs (f (t0 + h) - f t0 - h / 2 * (f' t0 + f' (t0 + h))) <= M * (h * h * h) / 12.
Proof.
  intros (f2 & f3 & D1 & D2 & D3 & B) Hh. assert (M0 : 0 <= M) by (apply Rle_trans with (2 := B 0); apply Rabs_pos).
  set (g := fun s => f (t0 + s) - f t0 - s / 2 * (f' t0 + f' (t0 + s))).
  set (g1 := fun s => / 2 * (f' (t0 + s) - f' t0) - s / 2 * f2 (t0 + s)).
  assert (G2 : forall s, 0 <= s -> Rabs (g1 s) <= M * (s * s) / 4).
  { intros s0 Hs0. apply (grows g1 (fun s => - (s / 2) * f3 (t0 + s)) (fun s => M * (s * s) / 4) (fun s => M * s / 2) s0 Hs0).
    - intros s Hs. unfold g1.
      replace (- (s / 2) * f3 (t0 + s)) with (/ 2 * (f2 (t0 + s) - 0) - (/ 2 * f2 (t0 + s) + s / 2 * f3 (t0 + s))) by field.
      apply (derivable_pt_lim_minus (fun s => / 2 * (f' (t0 + s) - f' t0)) (fun s => s / 2 * f2 (t0 + s))).
      + apply (derivable_pt_lim_scal (fun s => f' (t0 + s) - f' t0)). apply (derivable_pt_lim_minus (fun s => f' (t0 + s)) (fun _ => f' t0)); [now apply shift_lim|apply derivable_pt_lim_const].
      + apply (derivable_pt_lim_mult (fun s => s / 2) (fun s => f2 (t0 + s))); [|now apply shift_lim].
        replace (/ 2) with (/ 2 * 1) by ring. apply (derivable_pt_lim_ext (fun s => / 2 * s)); [intros; field|]. apply (derivable_pt_lim_scal (fun s => s)). apply derivable_pt_lim_id.
    - intros s Hs. replace (M * s / 2) with (M / 4 * (1 * s + s * 1)) by field. apply (derivable_pt_lim_ext (fun s => M / 4 * (s * s))); [intros; field|].
      apply (derivable_pt_lim_scal (fun s => s * s)). apply (derivable_pt_lim_mult (fun s => s) (fun s => s)); apply derivable_pt_lim_id.
    - intros s Hs. rewrite Rabs_mult, Rabs_Ropp, (Rabs_pos_eq (s / 2)) by lra. replace (M * s / 2) with (s / 2 * M) by field. apply Rmult_le_compat_l; [lra|apply B].
    - unfold g1. rewrite Rplus_0_r. field.
    - field. }
  apply (grows g g1 (fun s => M * (s * s * s) / 12) (fun s => M * (s * s) / 4) h Hh).
  - intros s Hs. unfold g, g1.
    replace (/ 2 * (f' (t0 + s) - f' t0) - s / 2 * f2 (t0 + s)) with (f' (t0 + s) - 0 - (/ 2 * (f' t0 + f' (t0 + s)) + s / 2 * (0 + f2 (t0 + s)))) by field.
    apply (derivable_pt_lim_minus (fun s => f (t0 + s) - f t0) (fun s => s / 2 * (f' t0 + f' (t0 + s)))).
    + apply (derivable_pt_lim_minus (fun s => f (t0 + s)) (fun _ => f t0)); [now apply shift_lim|apply derivable_pt_lim_const].
    + apply (derivable_pt_lim_mult (fun s => s / 2) (fun s => f' t0 + f' (t0 + s))).
      * replace (/ 2) with (/ 2 * 1) by ring. apply (derivable_pt_lim_ext (fun s => / 2 * s)); [intros; field|]. apply (derivable_pt_lim_scal (fun s => s)). apply derivable_pt_lim_id.
      * apply (derivable_pt_lim_plus (fun _ => f' t0) (fun s => f' (t0 + s))); [apply derivable_pt_lim_const|now apply shift_lim].
  - intros s Hs. replace (M * (s * s) / 4) with (M / 12 * ((1 * s + s * 1) * s + s * s * 1)) by field. apply (derivable_pt_lim_ext (fun s => M / 12 * (s * s * s))); [intros; field|].
    apply (derivable_pt_lim_scal (fun s => s * s * s)). apply (derivable_pt_lim_mult (fun s => s * s) (fun s => s)); [|apply derivable_pt_lim_id].
    apply (derivable_pt_lim_mult (fun s => s) (fun s => s)); apply derivable_pt_lim_id.
  - intros s Hs. apply G2. lra.
  - unfold g. rewrite Rplus_0_r. field.
  - field.
Qed.

Lemma trapezoid_error M f f' t t' : smooth M f f' -> Rabs (f t' - f t - (t' - t) / 2 * (f' t + f' t')) <= M * (Rabs (t' - t) * Rabs (t' - t) * Rabs (t' - t)) / 12.
Proof.
  intros Sm. destruct (Rle_dec t t') as [H|H].
  - rewrite (Rabs_pos_eq (t' - t)) by lra. assert (E := trapezoid_error_pos M f f' t (t' - t) Sm ltac:(lra)). replace (t + (t' - t)) with t' in E by ring. exact E.
  - rewrite (Rabs_left (t' - t)) by lra. assert (E := trapezoid_error_pos M f f' t' (t - t') Sm ltac:(lra)). replace (t' + (t - t')) with t in E by ring.
    rewrite <- Rabs_Ropp. replace (- (f t' - f t - (t' - t) / 2 * (f' t + f' t'))) with (f t - f t' - (t - t') / 2 * (f' t' + f' t)) by field. replace (- (t' - t)) with (t - t') by ring. exact E.
Qed.

(** ** two approximate solutions of the rule *)
Definition growth (a b S e : R) : R := exp (a * S) * (e + b * S).
Lemma growth_comp a b S S' e : 0 <= a -> 0 <= b -> 0 <= S -> 0 <= S' -> growth a b S' (growth a b S e) <= growth a b (S + S') e.
Proof.
  intros Ha Hb HS HS'. unfold growth. rewrite !Rmult_plus_distr_l, exp_plus. assert (P := exp_pos (a * S)). assert (P' := exp_pos (a * S')).
  assert (Q : 1 <= exp (a * S)) by (apply Rle_trans with (1 + a * S); [assert (0 <= a * S) by (now apply Rmult_le_pos); lra|apply exp_ineq1_le]).
  set (E := exp (a * S)) in *. set (E' := exp (a * S')) in *.
  assert (0 <= E' * (b * S') * (E - 1)) by (apply Rmult_le_pos; [apply Rmult_le_pos; [lra|now apply Rmult_le_pos]|lra]). nra.
Qed.
Lemma growth_mono a b S S' e : 0 <= a -> 0 <= b -> 0 <= S <= S' -> 0 <= e -> growth a b S e <= growth a b S' e.
Proof.
  intros Ha Hb HS He. unfold growth. assert (a * S <= a * S') by (apply Rmult_le_compat_l; lra). assert (b * S <= b * S') by (apply Rmult_le_compat_l; lra).
  assert (exp (a * S) <= exp (a * S')) by (destruct H as [H|H]; [left; now apply exp_increasing|right; now rewrite H]).
  apply Rmult_le_compat; [left; apply exp_pos|assert (0 <= b * S) by (apply Rmult_le_pos; lra); lra|assumption|lra].
Qed.

Section A.
Variable u v : R -> R -> R -> R.
Variable L : R.
Hypothesis HL : lipschitz_R u v L.
Hypothesis L0 : 0 <= L.

Definition rstep (k t t' : R) (p p' : R * R) : Prop :=
  Rabs (fst p' - fst p - (t' - t) / 2 * (u (fst p) (snd p) t + u (fst p') (snd p') t')) <= Rabs (t' - t) * k /\
  Rabs (snd p' - snd p - (t' - t) / 2 * (v (fst p) (snd p) t + v (fst p') (snd p') t')) <= Rabs (t' - t) * k.
Definition apart (e : R) (p q : R * R) : Prop := Rabs (fst q - fst p) <= e /\ Rabs (snd q - snd p) <= e.
Definition dist2 (p q : R * R) : R := Rmax (Rabs (fst q - fst p)) (Rabs (snd q - snd p)).
Lemma apart_dist p q : apart (dist2 p q) p q.
Proof. split; [apply Rmax_l|apply Rmax_r]. Qed.
Lemma dist_le e p q : apart e p q -> dist2 p q <= e.
Proof. intros (A & B). now apply Rmax_lub. Qed.

Lemma one_step k k' t t' p p' q q' e : 0 <= k -> 0 <= k' -> Rabs (t' - t) * L <= / 4 -> rstep k t t' p p' -> rstep k' t t' q q' -> apart e p q ->
  apart (growth (3 / 2 * L) (8 / 7 * (k + k')) (Rabs (t' - t)) e) p' q'.
Proof.
  intros Hk Hk' HS (P1 & P2) (Q1 & Q2) (E1 & E2). set (e' := dist2 p' q'). assert (A := apart_dist p' q'). fold e' in A.
  set (h := t' - t) in *. set (H := Rabs h) in *. assert (H0 : 0 <= H) by apply Rabs_pos. assert (e0 : 0 <= e) by (apply Rle_trans with (2 := E1); apply Rabs_pos).
  destruct A as (A1 & A2). assert (e0' : 0 <= e') by (apply Rle_trans with (2 := A1); apply Rabs_pos).
  destruct (HL (fst p) (snd p) (fst q) (snd q) t e E1 E2) as (U & V). destruct (HL (fst p') (snd p') (fst q') (snd q') t' e' A1 A2) as (U' & V').
  assert (GEN : forall x x' y y' du du', Rabs (x' - x - h / 2 * du) <= H * k -> Rabs (y' - y - h / 2 * du') <= H * k' -> Rabs (y - x) <= e ->
    Rabs (du' - du) <= L * e + L * e' -> Rabs (y' - x') <= e + H * L / 2 * (e + e') + H * (k + k')).
  { intros x x' y y' du du' X Y W D. replace (y' - x') with ((y - x) + h / 2 * (du' - du) + ((y' - y - h / 2 * du') + - (x' - x - h / 2 * du))) by ring.
    apply Rle_trans with (1 := Rabs_triang _ _). assert (T1 := Rabs_triang (y - x) (h / 2 * (du' - du))).
    assert (T2 := Rabs_triang (y' - y - h / 2 * du') (- (x' - x - h / 2 * du))). rewrite Rabs_Ropp in T2.
    rewrite Rabs_mult in T1. assert (HH : Rabs (h / 2) = H / 2) by (unfold Rdiv, H; rewrite Rabs_mult, (Rabs_pos_eq (/ 2)) by lra; reflexivity). rewrite HH in T1.
    assert (H / 2 * Rabs (du' - du) <= H / 2 * (L * e + L * e')) by (apply Rmult_le_compat_l; lra).
    unfold Rminus in *. lra. }
  assert (BD : e' <= e + H * L / 2 * (e + e') + H * (k + k')).
  { apply dist_le. split; eapply GEN; eauto.
    - match goal with |- Rabs ?w <= _ => replace w with ((u (fst q) (snd q) t - u (fst p) (snd p) t) + (u (fst q') (snd q') t' - u (fst p') (snd p') t')) by ring end.
      apply Rle_trans with (1 := Rabs_triang _ _). lra.
    - match goal with |- Rabs ?w <= _ => replace w with ((v (fst q) (snd q) t - v (fst p) (snd p) t) + (v (fst q') (snd q') t' - v (fst p') (snd p') t')) by ring end.
      apply Rle_trans with (1 := Rabs_triang _ _). lra. }
  set (a := H * L / 2) in *. assert (Ha : 0 <= a <= / 8) by (unfold a; split; [assert (0 <= H * L) by (now apply Rmult_le_pos); lra|lra]).
  set (c := H * (k + k')) in *. assert (C0 : 0 <= c) by (unfold c; apply Rmult_le_pos; lra).
  assert (FIN : e' <= (1 + 3 * a) * (e + 8 / 7 * c)).
  { apply Rmult_le_reg_l with (1 - a); [lra|]. assert (0 <= a * e) by (apply Rmult_le_pos; lra). assert (0 <= a * c) by (apply Rmult_le_pos; lra).
    assert (0 <= a * e * (1 - 3 * a)) by (apply Rmult_le_pos; lra). assert (0 <= c * (/ 8 - a)) by (apply Rmult_le_pos; lra). assert (0 <= a * c * (1 - a)) by (apply Rmult_le_pos; lra). nra. }
  assert (G : (1 + 3 * a) * (e + 8 / 7 * c) <= growth (3 / 2 * L) (8 / 7 * (k + k')) H e).
  { unfold growth. replace (8 / 7 * (k + k') * H) with (8 / 7 * c) by (unfold c; ring). apply Rmult_le_compat_r; [lra|]. replace (3 / 2 * L * H) with (3 * a) by (unfold a; field). apply exp_ineq1_le. }
  fold H. split; lra.
Qed.

Inductive rchain (k : R) : list R -> R * R -> R * R -> Prop :=
| rone t p : rchain k [t] p p
| rcons t t' l p p' q : rstep k t t' p p' -> rchain k (t' :: l) p' q -> rchain k (t :: t' :: l) p q.
Fixpoint total (l : list R) : R := match l with a :: ((b :: _) as t) => Rabs (b - a) + total t | _ => 0 end.
Fixpoint adjacent (P : R -> R -> Prop) (l : list R) : Prop := match l with a :: ((b :: _) as t) => P a b /\ adjacent P t | _ => True end.
Lemma total_nonneg l : 0 <= total l.
Proof. induction l as [|a [|b l] IH]; cbn [total] in *; [lra|lra|]. assert (0 <= Rabs (b - a)) by apply Rabs_pos. lra. Qed.

Lemma apart_le e e' p q : e <= e' -> apart e p q -> apart e' p q.
Proof. intros H (A & B). split; lra. Qed.

Lemma two_chains k k' l : 0 <= k -> 0 <= k' -> adjacent (fun a b => Rabs (b - a) * L <= / 4) l -> forall p p' q q' e, rchain k l p p' -> rchain k' l q q' -> apart e p q ->
  apart (growth (3 / 2 * L) (8 / 7 * (k + k')) (total l) e) p' q'.
Proof.
  intros Hk Hk'. induction l as [|t [|t' l] IH]; intros HA p p' q q' e C C' E.
  - inversion C.
  - inversion C; subst. inversion C'; subst. cbn [total]. unfold growth. rewrite Rmult_0_r, exp_0. apply apart_le with e; [lra|exact E].
  - destruct HA as (H1 & H2). inversion C as [|? ? ? ? p1 ? S1 C1]; subst. inversion C' as [|? ? ? ? q1 ? S1' C1']; subst.
    assert (K := one_step k k' t t' p p1 q q1 e Hk Hk' H1 S1 S1' E). specialize (IH H2 p1 p' q1 q' _ C1 C1' K).
    eapply apart_le; [|exact IH]. change (total (t :: t' :: l)) with (Rabs (t' - t) + total (t' :: l)).
    apply growth_comp; [lra|lra|apply Rabs_pos|apply total_nonneg].
Qed.

(** ** the field line as such a solution *)
Lemma line_chain M H X Z0 l t : 0 <= H -> field_line u v M X Z0 -> adjacent (fun a b => Rabs (b - a) <= H) (t :: l) ->
  rchain (M * (H * H) / 12) (t :: l) (X t, Z0 t) (X (last (t :: l) 0), Z0 (last (t :: l) 0)).
Proof.
  intros H0 (SX & SZ). assert (M0 : 0 <= M) by (destruct SX as (f2 & f3 & _ & _ & _ & B); apply Rle_trans with (2 := B 0); apply Rabs_pos).
  revert t. induction l as [|t' l IH]; intros t HA; [constructor|]. destruct HA as (H1 & H2).
  apply rcons with (X t', Z0 t'); [|change (last (t :: t' :: l) 0) with (last (t' :: l) 0); now apply IH].
  assert (E1 := trapezoid_error M X _ t t' SX). assert (E2 := trapezoid_error M Z0 _ t t' SZ). cbv beta in E1, E2.
  assert (BB : M * (Rabs (t' - t) * Rabs (t' - t) * Rabs (t' - t)) / 12 <= Rabs (t' - t) * (M * (H * H) / 12)).
  { set (h := Rabs (t' - t)) in *. assert (0 <= h) by apply Rabs_pos. assert (h * h <= H * H) by (apply Rmult_le_compat; lra).
    assert (0 <= (H * H - h * h) * (h * M)) by (apply Rmult_le_pos; [lra|now apply Rmult_le_pos]). lra. }
  split; cbn [fst snd]; lra.
Qed.
End A.

(** ** from rational to real numbers *)
Lemma Q2R_abs q : Q2R (Qabs q) = Rabs (Q2R q).
Proof. destruct (Qlt_le_dec q 0) as [H|H]. 
  - rewrite (Qeq_eqR _ _ (Qabs_neg q ltac:(apply Qlt_le_weak, H))). rewrite Q2R_opp. rewrite Rabs_left; [reflexivity|]. apply Qlt_Rlt in H. unfold Q2R in H at 2. cbn in H. lra.
  - rewrite (Qeq_eqR _ _ (Qabs_pos q H)). rewrite Rabs_pos_eq; [reflexivity|]. apply Qle_Rle in H. unfold Q2R in H at 1. cbn in H. lra.
Qed.
Lemma Q2R_half : Q2R (1 # 2) = / 2.
Proof. unfold Q2R. cbn. lra. Qed.
Lemma Q2R_0 : Q2R 0 = 0.
Proof. unfold Q2R. cbn. lra. Qed.
Definition toR (p : Q * Q) : R * R := (Q2R (fst p), Q2R (snd p)).

Section B.
Variable u v : R -> R -> R -> R.
Variable dir : Q -> Q -> Q -> Q * Q.
Hypothesis HE : extends u v dir.

Lemma near_rstep k y y' p p' : near_trapezoid dir k y y' p p' -> rstep u v (Q2R k) (Q2R y) (Q2R y') (toR p) (toR p').
Proof.
  intros (A & B). unfold rstep, toR. cbn [fst snd]. destruct (HE (fst p) (snd p) y) as (-> & ->). destruct (HE (fst p') (snd p') y') as (-> & ->).
  apply Qle_Rle in A. apply Qle_Rle in B. rewrite Q2R_abs, Q2R_mult, Q2R_abs in A, B. rewrite !Q2R_minus, !Q2R_mult, Q2R_plus, Q2R_half, !Q2R_minus in A, B. split; assumption.
Qed.
Lemma near_rchain k l p q : near_chain dir k l p q -> rchain u v (Q2R k) (map Q2R l) (toR p) (toR q).
Proof. intros H. induction H as [y p|y y' l p p' q T H IH]; cbn [map] in *; [constructor|]. apply rcons with (toR p'); [apply near_rstep; exact T|exact IH]. Qed.

Lemma arith_adjacent (P : R -> R -> Prop) (f : nat -> R) n : (forall i, P (f i) (f (S i))) -> forall s, adjacent P (map f (seq s (n + 1))).
Proof. intros H. induction n as [|n IH]; intros s; [exact I|]. cbn [Nat.add seq map]. specialize (IH (S s)). rewrite Nat.add_1_r in *. cbn [seq map adjacent] in *. split; [apply H|exact IH]. Qed.
Lemma arith_total (f : nat -> R) d n : (forall i, Rabs (f (S i) - f i) = d) -> forall s, total (map f (seq s (n + 1))) = INR n * d.
Proof.
  intros H. induction n as [|n IH]; intros s; [cbn; ring|]. specialize (IH (S s)). rewrite S_INR. rewrite Nat.add_1_r in *. cbn [seq map] in *. change (total (f s :: f (S s) :: map f (seq (S (S s)) n))) with (Rabs (f (S s) - f s) + total (f (S s) :: map f (seq (S (S s)) n))).
  rewrite IH, H. ring.
Qed.
Lemma Q2R_nat n : Q2R (inject_Z (Z.of_nat n)) = INR n.
Proof. unfold Q2R. cbn. rewrite INR_IZR_INZ. field. Qed.

Section G.
Variable n : nat.
Hypothesis Hn : (0 < n)%nat.
Lemma n_pos : 0 < INR n. Proof. now apply lt_0_INR. Qed.
Definition gridR (a b : Q) (i : nat) : R := Q2R a + INR i * ((Q2R b - Q2R a) / INR n).
Lemma even_grid_R a b : map Q2R (even_grid n a b) = map (gridR a b) (seq 0 (n + 1)).
Proof.
  unfold even_grid. rewrite map_map. apply map_ext. intros i. unfold gridR. rewrite Q2R_plus, Q2R_mult, Q2R_nat. rewrite Q2R_div by (now apply injn_neq0). rewrite Q2R_minus, Q2R_nat. reflexivity.
Qed.
Lemma gridR_step a b i : Rabs (gridR a b (S i) - gridR a b i) = Rabs (Q2R b - Q2R a) / INR n.
Proof.
  unfold gridR. rewrite S_INR. replace (Q2R a + (INR i + 1) * ((Q2R b - Q2R a) / INR n) - (Q2R a + INR i * ((Q2R b - Q2R a) / INR n))) with ((Q2R b - Q2R a) * / INR n) by (field; apply Rgt_not_eq, n_pos).
  rewrite Rabs_mult, (Rabs_pos_eq (/ INR n)); [reflexivity|]. left. apply Rinv_0_lt_compat, n_pos.
Qed.
Lemma even_total a b : total (map Q2R (even_grid n a b)) = Rabs (Q2R b - Q2R a).
Proof. rewrite even_grid_R, (arith_total _ _ n (gridR_step a b)). field. apply Rgt_not_eq, n_pos. Qed.
Lemma even_adjacent (P : R -> Prop) a b : P (Rabs (Q2R b - Q2R a) / INR n) -> adjacent (fun s t => P (Rabs (t - s))) (map Q2R (even_grid n a b)).
Proof. intros H. rewrite even_grid_R. apply arith_adjacent. intros i. now rewrite gridR_step. Qed.
Lemma even_ends a b : exists l, map Q2R (even_grid n a b) = Q2R a :: l /\ last (Q2R a :: l) 0 = Q2R b.
Proof.
  rewrite even_grid_R. rewrite Nat.add_1_r. cbn [seq map]. exists (map (gridR a b) (seq 1 n)). assert (E : gridR a b 0 = Q2R a) by (unfold gridR; cbn; ring).
  split; [now rewrite E|]. rewrite <- E. change (gridR a b 0 :: map (gridR a b) (seq 1 n)) with (map (gridR a b) (seq 0 (S n))). rewrite seq_S, map_app. cbn [map Nat.add]. rewrite last_last.
  unfold gridR. field. apply Rgt_not_eq, n_pos.
Qed.

(** one line through several y values *)
Inductive rrun (k : R) : list Q -> list (R * R) -> Prop :=
| rrun_one a p : rrun k [a] [p]
| rrun_cons a b t p p' r : rchain u v k (map Q2R (even_grid n a b)) p p' -> rrun k (b :: t) (p' :: r) -> rrun k (a :: b :: t) (p :: p' :: r).

Lemma Forall2_nth' {A B} (P : A -> B -> Prop) l m d d' i : Forall2 P l m -> (i < length l)%nat -> P (nth i l d) (nth i m d').
Proof. intros H. revert i. induction H; intros [|i] Hi; cbn in *; try lia; auto. apply IHForall2. lia. Qed.
Lemma near_rrun k ys pss i : near_run dir k n ys pss -> (forall ps, In ps pss -> (i < length ps)%nat) -> rrun (Q2R k) ys (map (fun ps => toR (nth i ps (0, 0)%Q)) pss).
Proof.
  intros H. induction H as [a ps|a b t ps ps' r C H IH]; intros Hi; cbn [map] in *; [constructor|]. constructor; [|apply IH; intros; apply Hi; now right].
  apply near_rchain. apply Forall2_nth'; [exact C|apply Hi; now left].
Qed.
Lemma near_widths k ys ps pss : near_run dir k n ys (ps :: pss) -> length (ps :: pss) = length ys /\ forall qs, In qs (ps :: pss) -> length qs = length ps.
Proof.
  intros H. remember (ps :: pss) as l eqn:E. revert ps pss E. induction H as [a ps0|a b t ps0 ps' r C H IH]; intros ps pss E; injection E as <- <-.
  - split; [reflexivity|]. now intros qs [<-|[]].
  - destruct (IH _ _ eq_refl) as (I1 & I2). split; [cbn in *; now rewrite I1|]. intros qs [<-|Hq]; [reflexivity|]. rewrite (I2 qs Hq). symmetry. exact (Forall2_length' _ _ _ C).
Qed.

Variable L : R.
Hypothesis HL : lipschitz_R u v L.
Hypothesis L0 : 0 <= L.
Variable H : Q.
Hypothesis HH : Q2R H * L <= / 4.
Hypothesis H0 : (0 <= H)%Q.

Lemma steps_R a b : (Qabs (b - a) <= H * inject_Z (Z.of_nat n))%Q -> Rabs (Q2R b - Q2R a) / INR n <= Q2R H.
Proof.
  intros S. apply Qle_Rle in S. rewrite Q2R_abs, Q2R_minus, Q2R_mult, Q2R_nat in S. assert (P := n_pos). apply Rmult_le_reg_r with (INR n); [exact P|].
  unfold Rdiv. rewrite Rmult_assoc, Rinv_l by (apply Rgt_not_eq, P). lra.
Qed.

Lemma way_nonneg k ys : 0 <= Q2R (way k ys).
Proof.
  revert ys. induction k as [|k IH]; intros [|a [|b t]]; try (cbn [way]; rewrite Q2R_0; lra).
  change (way (S k) (a :: b :: t)) with (Qabs (b - a) + way k (b :: t))%Q. rewrite Q2R_plus, Q2R_abs. assert (X := Rabs_pos (Q2R (b - a))). specialize (IH (b :: t)). lra.
Qed.

Lemma two_runs k k' ys : 0 <= k -> 0 <= k' -> steps_below H n ys -> forall p r q r' e, rrun k ys (p :: r) -> rrun k' ys (q :: r') -> apart e p q ->
  forall j, (j < length ys)%nat -> apart (growth (3 / 2 * L) (8 / 7 * (k + k')) (Q2R (way j ys)) e) (nth j (p :: r) (0, 0)) (nth j (q :: r') (0, 0)).
Proof.
  intros Hk Hk'. induction ys as [|a [|b t] IH]; intros HS p r q r' e R1 R2 E j Hj; [cbn in Hj; lia| |].
  - cbn in Hj. replace j with 0%nat by lia. cbn [nth way]. rewrite Q2R_0. unfold growth. rewrite Rmult_0_r, exp_0. apply apart_le with e; [lra|exact E].
  - destruct HS as (S1 & S2). inversion R1 as [|? ? ? ? p1 r1 C1 R1']; subst. inversion R2 as [|? ? ? ? q1 r1' C2 R2']; subst. destruct j as [|j].
    + cbn [nth way]. rewrite Q2R_0. unfold growth. rewrite Rmult_0_r, exp_0. apply apart_le with e; [lra|exact E].
    + assert (AD : adjacent (fun s t => Rabs (t - s) * L <= / 4) (map Q2R (even_grid n a b))).
      { apply (even_adjacent (fun w => w * L <= / 4)). apply Rle_trans with (2 := HH). apply Rmult_le_compat_r; [exact L0|]. now apply steps_R. }
      assert (K := two_chains u v L HL L0 k k' _ Hk Hk' AD p p1 q q1 e C1 C2 E). rewrite even_total in K.
      assert (J := IH S2 p1 r1 q1 r1' _ R1' R2' K j ltac:(cbn in Hj |- *; lia)). cbn [nth].
      eapply apart_le; [|exact J]. change (way (S j) (a :: b :: t)) with (Qabs (b - a) + way j (b :: t))%Q. rewrite Q2R_plus, Q2R_abs, Q2R_minus.
      apply growth_comp; [lra|lra|apply Rabs_pos|apply way_nonneg].
Qed.

Lemma line_run M X Z0 ys : field_line u v M X Z0 -> steps_below H n ys -> ys <> [] -> rrun (M * (Q2R H * Q2R H) / 12) ys (map (fun y => (X (Q2R y), Z0 (Q2R y))) ys).
Proof.
  intros HF. induction ys as [|a [|b t] IH]; intros HS Hne; [easy|constructor|]. destruct HS as (S1 & S2). cbn [map]. constructor; [|now apply IH].
  destruct (even_ends a b) as (l & E & El). assert (AD : adjacent (fun s t => Rabs (t - s) <= Q2R H) (map Q2R (even_grid n a b))) by (apply (even_adjacent (fun w => w <= Q2R H)); now apply steps_R).
  rewrite E in *. assert (C := line_chain u v M (Q2R H) X Z0 l (Q2R a) ltac:(apply Qle_Rle in H0; rewrite Q2R_0 in H0; exact H0) HF AD). rewrite El in C. exact C.
Qed.
End G.
End B.

Lemma lipschitz_of_R u v dir L : extends u v dir -> lipschitz_R u v (Q2R L) -> (0 <= L)%Q -> lipschitz dir L.
Proof.
  intros HE HL L0. split; [exact L0|]. split.
  - intros x z x' z' y h A B. apply Qle_Rle in A. apply Qle_Rle in B. rewrite Q2R_abs, Q2R_minus in A, B. destruct (HL (Q2R x) (Q2R z) (Q2R x') (Q2R z') (Q2R y) (Q2R h) A B) as (U & V).
    destruct (HE x z y) as (E1 & E2). destruct (HE x' z' y) as (E1' & E2'). rewrite E1, E1' in U. rewrite E2, E2' in V.
    split; apply Rle_Qle; rewrite Q2R_abs, Q2R_minus, Q2R_mult; assumption.
  - intros x z y y' E. destruct (HE x z y) as (E1 & E2). destruct (HE x z y') as (E1' & E2'). rewrite (Qeq_eqR _ _ E) in E1, E2.
    split; apply eqR_Qeq; congruence.
Qed.

Lemma kappa_R L sigma : Q2R ((3 # 2) * L * sigma) = 3 / 2 * Q2R L * Q2R sigma.
Proof. rewrite !Q2R_mult. replace (Q2R (3 # 2)) with (3 / 2) by (unfold Q2R; cbn; lra). reflexivity. Qed.

Lemma follow_accuracy u v dir rtol eps L sigma M H n s x z ys sh fx fz X Z0 e :
  extends u v dir -> lipschitz_R u v (Q2R L) -> (0 <= L)%Q -> ~ (eps == 0)%Q -> (0 < rtol)%Q -> (0 <= sigma)%Q -> (rtol <= sigma * sigma)%Q ->
  (0 < n)%nat -> (2 <= length ys)%nat -> ~ aliased x z ->
  wf (arg_nda s x) -> wf (arg_nda s z) -> starts (arg_nda s x) (arg_nda s z) sh fx fz -> (0 < nsize sh)%nat -> (0 <= H)%Q -> steps_below H n ys -> (H * L <= 1 # 4)%Q ->
  (forall idx, valid sh idx -> field_line u v M (X idx) (Z0 idx) /\
    Rabs (X idx (Q2R (nth 0 ys 0%Q)) - Q2R (fx idx)) <= e /\ Rabs (Z0 idx (Q2R (nth 0 ys 0%Q)) - Q2R (fz idx)) <= e) ->
  exists N s' rows, (forall fuel, (N <= fuel)%nat -> rev_follow dir rtol eps fuel n s x z ys = Some (Ok (s', rows))) /\ length rows = length ys /\
    forall k idx, (k < length ys)%nat -> valid sh idx ->
      let S := Q2R (way k ys) in
      let bound := exp (3 / 2 * Q2R L * S) * (e + 8 / 7 * (3 / 2 * Q2R L * Q2R sigma + M * (Q2R H * Q2R H) / 12) * S) in
      Rabs (X idx (Q2R (nth k ys 0%Q)) - Q2R (nth (offset sh idx) (fst (nth k rows ([], []))) 0%Q)) <= bound /\
      Rabs (Z0 idx (Q2R (nth k ys 0%Q)) - Q2R (nth (offset sh idx) (snd (nth k rows ([], []))) 0%Q)) <= bound.
Proof.
  intros HE HL L0 He Hr Hs Hrs Hn Hy Ha Wx Wz St Hsz H0 Sv HH HX.
  destruct (rev_follow_near dir rtol eps L sigma (lipschitz_of_R u v dir L HE HL L0) He Hr Hs Hrs H n s x z ys sh fx fz Hn Hy Ha Wx Wz St Hsz Sv HH) as (N & s' & ps & pss & F & R & Lp & Pt).
  exists N, s', (map row_of (ps :: pss)). split; [exact F|]. destruct (near_widths dir n _ _ _ _ R) as (W1 & W2). split; [now rewrite map_length|].
  intros k idx Hk Hv. cbv zeta. destruct (HX idx Hv) as (FL & E1 & E2).
  assert (L0R : 0 <= Q2R L) by (apply Qle_Rle in L0; rewrite Q2R_0 in L0; exact L0). assert (S0R : 0 <= Q2R sigma) by (apply Qle_Rle in Hs; rewrite Q2R_0 in Hs; exact Hs).
  assert (HHR : Q2R H * Q2R L <= / 4) by (apply Qle_Rle in HH; rewrite Q2R_mult in HH; unfold Q2R in HH at 3; cbn in HH; lra).
  assert (M0 : 0 <= M) by (destruct FL as ((f2 & f3 & _ & _ & _ & B) & _); apply Rle_trans with (2 := B 0); apply Rabs_pos).
  set (i := offset sh idx) in *. assert (Hi : (i < nsize sh)%nat) by (unfold i; now apply offset_lt).
  assert (RR := near_rrun u v dir HE n Hn _ ys (ps :: pss) i R ltac:(intros qs Hq; rewrite (W2 qs Hq), Lp; exact Hi)). rewrite kappa_R in RR. cbn [map] in RR.
  assert (Yn : ys <> []) by (destruct ys; [cbn in Hy; lia|easy]).
  assert (LR := line_run u v n Hn H H0 M (X idx) (Z0 idx) ys FL Sv Yn).
  destruct ys as [|y0 ys]; [easy|]. cbn [map] in LR.
  assert (KK : 0 <= 3 / 2 * Q2R L * Q2R sigma) by (apply Rmult_le_pos; lra).
  assert (KM : 0 <= M * (Q2R H * Q2R H) / 12) by (assert (0 <= M * (Q2R H * Q2R H)) by (apply Rmult_le_pos; [exact M0|apply Rle_0_sqr]); lra).
  assert (A := two_runs u v n Hn (Q2R L) HL L0R H HHR _ _ (y0 :: ys) KK KM Sv _ _ _ _ e RR LR).
  specialize (A ltac:(unfold apart, toR; cbn [fst snd nth] in *; assert (Pi := Pt idx Hv); fold i in Pi; rewrite Pi; cbn [fst snd]; split; assumption) k Hk).
  change (toR (nth i ps (0%Q, 0%Q)) :: map (fun ps0 => toR (nth i ps0 (0%Q, 0%Q))) pss) with (map (fun ps0 => toR (nth i ps0 (0%Q, 0%Q))) (ps :: pss)) in A.
  change ((X idx (Q2R y0), Z0 idx (Q2R y0)) :: map (fun y => (X idx (Q2R y), Z0 idx (Q2R y))) ys) with (map (fun y => (X idx (Q2R y), Z0 idx (Q2R y))) (y0 :: ys)) in A.
  rewrite (nth_map' _ _ _ _ []) in A by (rewrite W1; exact Hk). rewrite (nth_map' _ _ _ _ 0%Q) in A by exact Hk.
  rewrite (nth_map' _ _ _ _ []) by (rewrite W1; exact Hk).
  assert (Wk : length (nth k (ps :: pss) []) = nsize sh) by (rewrite <- Lp; apply W2, nth_In; rewrite W1; exact Hk).
  unfold row_of. cbn [fst snd]. rewrite (nth_map' fst _ _ _ (0%Q, 0%Q)) by lia. rewrite (nth_map' snd _ _ _ (0%Q, 0%Q)) by lia.
  unfold apart, toR in A. cbn [fst snd] in A. unfold growth in A. exact A.
Qed.
