(** C117, C118: FieldTracerReversible on any smooth field. *)
From Coq Require Import List ZArith QArith Qabs Reals Qreals Lia Lra.
From Verif Require Import Prelude PreludeFacts TracerModel TracerSpec TracerProofs RevModel RevSpec RevProofs RevFollow RevLipSpec RevLip RevAcc RevBack.
Import ListNotations.

(** * C117 *)
(** With steps short against the gradient of the field every Newton iteration ends, and every
    step obeys the trapezoidal rule up to the tolerance. *)
Theorem C117_solves_rule dir rtol eps L sigma H n s x z ys sh fx fz : lipschitz dir L -> ~ (eps == 0)%Q -> (0 < rtol)%Q -> (0 <= sigma)%Q -> (rtol <= sigma * sigma)%Q ->
  (0 < n)%nat -> (2 <= length ys)%nat -> ~ aliased x z ->
  wf (arg_nda s x) -> wf (arg_nda s z) -> starts (arg_nda s x) (arg_nda s z) sh fx fz -> (0 < nsize sh)%nat -> steps_below H n ys -> (H * L <= 1 # 4)%Q ->
  exists N s' ps pss, (forall fuel, (N <= fuel)%nat -> rev_follow dir rtol eps fuel n s x z ys = Some (Ok (s', map row_of (ps :: pss)))) /\
    near_run dir ((3 # 2) * L * sigma) n ys (ps :: pss) /\
    length ps = nsize sh /\ (forall idx, valid sh idx -> nth (offset sh idx) ps (0, 0)%Q = (fx idx, fz idx)).
Proof. exact (fun HL He Hr Hs Hrs => rev_follow_near dir rtol eps L sigma HL He Hr Hs Hrs H n s x z ys sh fx fz). Qed.
Print Assumptions C117_solves_rule.

Open Scope R_scope.
(** So the positions stay within the step squared, the tolerance and the error of the start
    from the field lines. *)
Theorem C117_accuracy u v dir rtol eps L sigma M H n s x z ys sh fx fz X Z0 e :
  extends u v dir -> lipschitz_R u v (Q2R L) -> (0 <= L)%Q -> ~ (eps == 0)%Q -> (0 < rtol)%Q -> (0 <= sigma)%Q -> (rtol <= sigma * sigma)%Q ->
  (0 < n)%nat -> (2 <= length ys)%nat -> ~ aliased x z ->
  wf (arg_nda s x) -> wf (arg_nda s z) -> starts (arg_nda s x) (arg_nda s z) sh fx fz -> (0 < nsize sh)%nat -> (0 <= H)%Q -> steps_below H n ys -> (H * L <= 1 # 4)%Q ->
  (forall idx, valid sh idx -> field_line u v M (X idx) (Z0 idx) /\
    Rabs (X idx (Q2R (nth 0 ys 0%Q)) - Q2R (fx idx)) <= e /\ Rabs (Z0 idx (Q2R (nth 0 ys 0%Q)) - Q2R (fz idx)) <= e) ->
  exists N s' rows, (forall fuel, (N <= fuel)%nat -> rev_follow dir rtol eps fuel n s x z ys = Some (Ok (s', rows))) /\ length rows = length ys /\
    forall k idx, (k < length ys)%nat -> valid sh idx ->
      let S := Q2R (way k ys) in
      let bound := exp (3 / 2 * Q2R L * S) * (e + 8 / 7 * (3 / 2 * Q2R L * Q2R sigma + M * (Q2R H * Q2R H) / 12) * S) in
      Rabs (X idx (Q2R (nth k ys 0%Q)) - Q2R (nth (offset sh idx) (fst (nth k rows ([], []))) 0%Q)) <= bound /\
      Rabs (Z0 idx (Q2R (nth k ys 0%Q)) - Q2R (nth (offset sh idx) (snd (nth k rows ([], []))) 0%Q)) <= bound.
Proof. exact (follow_accuracy u v dir rtol eps L sigma M H n s x z ys sh fx fz X Z0 e). Qed.
Print Assumptions C117_accuracy.

(** Met by the circles of a rotating field, started on them, *)
Example C117_example :
  let dir := fun x z y : Q => ((- z)%Q, x) in let u := fun x z y : R => - z in let v := fun x z y : R => x in
  extends u v dir /\ lipschitz_R u v (Q2R 1) /\ steps_below (1 # 8) 8 [0; 1; 2; 1]%Q /\ ((1 # 8) * 1 <= 1 # 4)%Q /\ ((1 # 100000000) <= (1 # 10000) * (1 # 10000))%Q /\
  field_line u v 1 cos sin /\ cos (Q2R 0) = Q2R 1 /\ sin (Q2R 0) = Q2R 0 /\ (way 3 [0; 1; 2; 1] == 3)%Q.
Proof.
  cbv zeta. assert (E0 : Q2R 0 = 0) by (unfold Q2R; cbn; lra). assert (E1 : Q2R 1 = 1) by (unfold Q2R; cbn; lra). rewrite E0, E1. split; [|split; [|split; [|split; [|split; [|split; [|split; [|split]]]]]]].
  - intros x z y. cbn [fst snd]. now rewrite Q2R_opp.
  - intros x z x' z' y h A B. rewrite Rmult_1_l. split; [rewrite <- Rabs_Ropp; replace (- (- z' - - z)) with (z' - z) by ring|]; assumption.
  - cbn [steps_below]. repeat split; vm_compute; discriminate.
  - discriminate.
  - discriminate.
  - split.
    + exists (fun t => - cos t), sin. split; [apply derivable_pt_lim_cos|]. split; [intros t; apply (derivable_pt_lim_opp sin), derivable_pt_lim_sin|].
      split; [|intros t; apply Rabs_le; apply SIN_bound]. intros t. rewrite <- (Ropp_involutive (sin t)). apply (derivable_pt_lim_opp cos), derivable_pt_lim_cos.
    + exists (fun t => - sin t), (fun t => - cos t). split; [apply derivable_pt_lim_sin|]. split; [apply derivable_pt_lim_cos|].
      split; [intros t; apply (derivable_pt_lim_opp sin), derivable_pt_lim_sin|]. intros t. rewrite Rabs_Ropp. apply Rabs_le, COS_bound.
  - exact cos_0.
  - exact sin_0.
  - reflexivity.
Qed.
(** and by a field that is not affine. *)
Example C117_not_affine :
  let dir := fun x z y : Q => (0, / (1 + x * x))%Q in let u := fun x z y : R => 0 in let v := fun x z y : R => / (1 + x * x) in
  extends u v dir /\ lipschitz_R u v (Q2R 1) /\ forall x0 z0, field_line u v 0 (fun _ => x0) (fun t => z0 + t * / (1 + x0 * x0)).
Proof.
  cbv zeta. assert (P : forall x : R, 0 < 1 + x * x) by (intros x; assert (T := Rle_0_sqr x); unfold Rsqr in T; lra). assert (E1 : Q2R 1 = 1) by (unfold Q2R; cbn; lra). split; [|split].
  - intros x z y. cbn [fst snd]. split; [unfold Q2R; cbn; lra|]. rewrite Q2R_inv, Q2R_plus, Q2R_mult, E1; [reflexivity|].
    intros C. apply Qeq_eqR in C. rewrite Q2R_plus, Q2R_mult, E1 in C. specialize (P (Q2R x)). replace (Q2R 0) with 0 in C by (unfold Q2R; cbn; lra). lra.
  - intros x z x' z' y h A B. rewrite E1, Rmult_1_l. split; [unfold Rminus; rewrite Ropp_0, Rplus_0_r, Rabs_R0; apply Rle_trans with (2 := A); apply Rabs_pos|].
    assert (P1 := P x). assert (P2 := P x'). replace (/ (1 + x' * x') - / (1 + x * x)) with ((x' - x) * (- (x + x') / ((1 + x * x) * (1 + x' * x')))) by (field; lra).
    rewrite Rabs_mult. apply Rle_trans with (2 := A). rewrite <- (Rmult_1_r (Rabs (x' - x))) at 2. apply Rmult_le_compat_l; [apply Rabs_pos|].
    assert (Q0 : 0 < (1 + x * x) * (1 + x' * x')) by now apply Rmult_lt_0_compat.
    assert (S0 : 0 <= (x * x') * (x * x')) by apply Rle_0_sqr. assert (S1 : 0 <= (x - 1) * (x - 1)) by apply Rle_0_sqr. assert (S2 : 0 <= (x' - 1) * (x' - 1)) by apply Rle_0_sqr.
    assert (S3 : 0 <= (x + 1) * (x + 1)) by apply Rle_0_sqr. assert (S4 : 0 <= (x' + 1) * (x' + 1)) by apply Rle_0_sqr.
    apply Rabs_le. split; apply Rmult_le_reg_r with ((1 + x * x) * (1 + x' * x')); try exact Q0; unfold Rdiv; rewrite Rmult_assoc, Rinv_l by lra; nra.
  - intros x0 z0. split.
    + exists (fun _ => 0), (fun _ => 0). split; [intros t; apply derivable_pt_lim_const|]. split; [intros t; apply derivable_pt_lim_const|]. split; [intros t; apply derivable_pt_lim_const|]. intros t. rewrite Rabs_R0. lra.
    + exists (fun _ => 0), (fun _ => 0). split; [|split; [intros t; apply derivable_pt_lim_const|split; [intros t; apply derivable_pt_lim_const|intros t; rewrite Rabs_R0; lra]]].
      intros t. generalize (/ (1 + x0 * x0)). intros c. apply (derivable_pt_lim_ext (fun t => z0 + c * t)); [intros; ring|].
      assert (D : derivable_pt_lim (fun t => z0 + c * t) t (0 + c * 1)) by (apply (derivable_pt_lim_plus (fun _ => z0) (fun t => c * t)); [apply derivable_pt_lim_const|apply (derivable_pt_lim_scal (fun t => t)), derivable_pt_lim_id]).
      replace (0 + c * 1) with c in D by ring. exact D.
Qed.

(** * C118: there and back *)
Theorem C118_round_trip u v dir rtol eps L sigma H n s x z ys sh fx fz :
  extends u v dir -> lipschitz_R u v (Q2R L) -> (0 <= L)%Q -> ~ (eps == 0)%Q -> (0 < rtol)%Q -> (0 <= sigma)%Q -> (rtol <= sigma * sigma)%Q ->
  (0 < n)%nat -> (2 <= length ys)%nat -> ~ aliased x z ->
  wf (arg_nda s x) -> wf (arg_nda s z) -> starts (arg_nda s x) (arg_nda s z) sh fx fz -> (0 < nsize sh)%nat -> (0 <= H)%Q -> steps_below H n ys -> (H * L <= 1 # 4)%Q ->
  exists N s' rows, (forall fuel, (N <= fuel)%nat -> rev_follow dir rtol eps fuel n s x z ys = Some (Ok (s', rows))) /\ length rows = length ys /\
    let '(xe, ze) := last rows ([], []) in
    exists N' s'' rows', (forall fuel, (N' <= fuel)%nat ->
        rev_follow dir rtol eps fuel n s (Fresh {| shape := [nsize sh]; data := xe |}) (Fresh {| shape := [nsize sh]; data := ze |}) (rev ys) = Some (Ok (s'', rows'))) /\ length rows' = length ys /\
      forall k i, (k < length ys)%nat -> (i < nsize sh)%nat ->
        let S := Q2R (way k (rev ys)) in
        let bound := exp (3 / 2 * Q2R L * S) * (24 / 7 * (Q2R L * Q2R sigma) * S) in
        Rabs (Q2R (nth i (fst (nth k rows' ([], []))) 0%Q) - Q2R (nth i (fst (nth (length ys - 1 - k) rows ([], []))) 0%Q)) <= bound /\
        Rabs (Q2R (nth i (snd (nth k rows' ([], []))) 0%Q) - Q2R (nth i (snd (nth (length ys - 1 - k) rows ([], []))) 0%Q)) <= bound.
Proof. exact (follow_back u v dir rtol eps L sigma H n s x z ys sh fx fz). Qed.
Print Assumptions C118_round_trip.
(** The start itself does not come back: 1/(1 + x^2) from 0 over a step of 1 and back, one iteration each. *)
Definition curved (x z y : Q) : Q * Q := (/ (1 + x * x), 0)%Q.
Definition one_point (q : Q) : arg := Fresh {| shape := [1%nat]; data := [q] |}.
Theorem C118_exact_refuted : ~ forall rtol eps fuel n x z y y' s' rows s'' rows' xe ze, (0 < rtol)%Q -> ~ (eps == 0)%Q -> (0 < n)%nat ->
  rev_follow curved rtol eps fuel n (fun _ => []) (one_point x) (one_point z) [y; y'] = Some (Ok (s', rows)) -> nth 1 rows ([], []) = ([xe], [ze]) ->
  rev_follow curved rtol eps fuel n (fun _ => []) (one_point xe) (one_point ze) [y'; y] = Some (Ok (s'', rows')) ->
  exists xb zb, nth 1 rows' ([], []) = ([xb], [zb]) /\ (xb == x)%Q.
Proof. exact back_elsewhere. Qed.
Print Assumptions C118_exact_refuted.
