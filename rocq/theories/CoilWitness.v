(** Cases that meet the hypotheses of the theorems in CoilProps.v. *)
From Coq Require Import List Reals Lra Lia.
From Verif Require Import Prelude FieldReal CoilSpec CoilProofs CoilThms VmecProofs.
Import ListNotations.
Open Scope R_scope.

(** the axis of the straight stellarator is a field line *)
Lemma coil_list_cs p phi : let c := cos (iota p * phi) in let s := sin (iota p * phi) in
  coil_list p phi = [(xcentre p + radius p * c, zcentre p + radius p * s, I_coil p); (xcentre p - radius p * s, zcentre p + radius p * c, - I_coil p);
                     (xcentre p - radius p * c, zcentre p - radius p * s, I_coil p); (xcentre p + radius p * s, zcentre p - radius p * c, - I_coil p)].
Proof.
  intros c s. unfold coil_list, coil. cbn [map seq Nat.modulo Nat.divmod fst snd Nat.sub].
  replace (INR 0 / 2 * PI + iota p * phi) with (iota p * phi) by (cbn [INR]; field).
  replace (INR 1 / 2 * PI + iota p * phi) with (PI / 2 + iota p * phi) by (cbn [INR]; field).
  replace (INR 2 / 2 * PI + iota p * phi) with (iota p * phi + PI) by (cbn [INR]; field).
  replace (INR 3 / 2 * PI + iota p * phi) with ((PI / 2 + iota p * phi) + PI) by (cbn [INR]; field).
  rewrite !neg_cos, !neg_sin, cos_plus, sin_plus, cos_PI2, sin_PI2. fold c s.
  assert (T : forall a b d a' b' d' : R, a = a' -> b = b' -> d = d' -> (a, b, d) = (a', b', d')) by (intros; congruence).
  repeat (apply f_equal2; [apply T; ring|]). reflexivity.
Qed.
Lemma axis_r2 p phi c : In c (coil_list p phi) -> r2 c (xcentre p) (zcentre p) = radius p ^ 2.
Proof.
  assert (S := sin2_cos2 (iota p * phi)). unfold Rsqr in S.
  rewrite coil_list_cs. cbv zeta. intros H. unfold r2.
  repeat (destruct H as [<-|H]; [cbn [fst snd]; replace (radius p ^ 2) with (radius p ^ 2 * (sin (iota p * phi) * sin (iota p * phi) + cos (iota p * phi) * cos (iota p * phi))) by (rewrite S; ring); ring|]).
  destruct H.
Qed.
Lemma axis_away p phi : radius p <> 0 -> away (coil_list p phi) (xcentre p) (zcentre p).
Proof.
  intros N c H. assert (E := axis_r2 p phi c H). unfold r2 in E.
  destruct (Req_dec (xcentre p) (fst (fst c))) as [E1|]; [|now left]. destruct (Req_dec (zcentre p) (snd (fst c))) as [E2|]; [|now right].
  exfalso. rewrite <- E1, <- E2 in E. apply N, Rsqr_0_uniq. unfold Rsqr. lra.
Qed.
Lemma axis_B p s : radius p <> 0 -> Bxfunc p (xcentre p) (zcentre p) s = 0 /\ Bzfunc p (xcentre p) (zcentre p) s = 0.
Proof.
  intros N. unfold Bxfunc, Bzfunc. rewrite Bx_coils_eq, Bz_coils_eq by now apply axis_away.
  assert (EX : rsum (map (fun c => snd c * (2 / 10) * (zcentre p - snd (fst c)) / r2 c (xcentre p) (zcentre p)) (coil_list p s)) = 0).
  { rewrite (rsum_ext (fun c => snd c * (2 / 10) * (zcentre p - snd (fst c)) / r2 c (xcentre p) (zcentre p)) (fun c => snd c * (2 / 10) * (zcentre p - snd (fst c)) / radius p ^ 2)) by (intros c H; now rewrite (axis_r2 p s c H)).
    rewrite coil_list_cs. cbv zeta. cbn [map rsum fold_right fst snd]. field. exact N. }
  assert (EZ : rsum (map (fun c => - (snd c * (2 / 10) * (xcentre p - fst (fst c)) / r2 c (xcentre p) (zcentre p))) (coil_list p s)) = 0).
  { rewrite (rsum_ext (fun c => - (snd c * (2 / 10) * (xcentre p - fst (fst c)) / r2 c (xcentre p) (zcentre p))) (fun c => - (snd c * (2 / 10) * (xcentre p - fst (fst c)) / radius p ^ 2))) by (intros c H; now rewrite (axis_r2 p s c H)).
    rewrite coil_list_cs. cbv zeta. cbn [map rsum fold_right fst snd]. field. exact N. }
  now rewrite EX, EZ.
Qed.
Lemma axis_line p a b : radius p <> 0 -> field_line (Bxfunc p) one (Bzfunc p) one (fun _ => xcentre p) (fun _ => zcentre p) a b.
Proof.
  intros N s _. unfold one. split; [lra|]. destruct (axis_B p s N) as [-> ->].
  split; (eapply d_eq; [|exact (d_const _ s)]); field.
Qed.
Lemma axis_frozen p phi a b : radius p <> 0 ->
  field_line (fun x z _ => Bxfunc p x z phi) one (fun x z _ => Bzfunc p x z phi) one (fun _ => xcentre p) (fun _ => zcentre p) a b.
Proof.
  intros N s _. unfold one. split; [lra|]. destruct (axis_B p phi N) as [-> ->].
  split; (eapply d_eq; [|exact (d_const _ s)]); field.
Qed.

(** the unit circle is a field line of a screw pinch *)
Lemma circle_line a b : field_line (sp_Bx w_sp) one (sp_Bz w_sp) one cos sin a b.
Proof.
  intros s _. unfold one. split; [lra|]. destruct (sp_comp w_sp (cos s) (sin s) s) as [-> ->].
  assert (E : sp_r w_sp (cos s) (sin s) = 1).
  { unfold sp_r. cbn [w_sp sp_x sp_z]. assert (S := sin2_cos2 s). unfold Rsqr in S.
    replace ((cos s - 0) ^ 2 + (sin s - 0) ^ 2) with (sin s * sin s + cos s * cos s) by ring. rewrite S. apply sqrt_1. }
  rewrite E. cbn [w_sp sp_x sp_z shear]. split.
  - eapply d_eq; [|apply derivable_pt_lim_cos]. field.
  - eapply d_eq; [|apply derivable_pt_lim_sin]. field.
Qed.

(** psi = x z: the line x = 1 / (1 + s), z = 1 + s *)
Definition w_gq : geqdsk := {| psi_func := fun x z => x * z; psi_dx := fun x z => z; psi_dy := fun x z => x; psinorm_func := fun x z => x * z; f_spl := fun _ => 1 |}.
Lemma w_gq_line : field_line (gq_Bx w_gq) (gq_By w_gq) (gq_Bz w_gq) (gq_R w_gq) (fun s => 1 / (1 + s)) (fun s => 1 + s) 0 1.
Proof.
  intros s Hs. unfold gq_Bx, gq_By, gq_Bz, gq_R. cbn [w_gq psi_func psi_dx psi_dy psinorm_func f_spl].
  assert (1 + s <> 0) by lra. split; [|split].
  - replace (1 / (1 / (1 + s))) with (1 + s) by (field; lra). lra.
  - eapply d_eq; [|apply d_div; [apply d_const|apply d_add; [apply d_const|apply d_id]|lra]]. cbv beta. unfold Rsqr. field. lra.
  - eapply d_eq; [|apply d_add; [apply d_const|apply d_id]]. cbv beta. field. lra.
Qed.
Lemma w_gq_diff x z : differentiable2 (psi_func w_gq) x z (psi_dx w_gq x z) (psi_dy w_gq x z).
Proof.
  intros eps He. exists eps. split; [exact He|]. intros h k Hh Hk. cbn [w_gq psi_func psi_dx psi_dy].
  replace ((x + h) * (z + k) - x * z - z * h - x * k) with (h * k) by ring. rewrite Rabs_mult.
  assert (0 <= Rabs h) by apply Rabs_pos. assert (0 <= Rabs k) by apply Rabs_pos. nra.
Qed.

(** an equilibrium with a circular surface *)
Definition w_circle : vmec := {| xm := [0; 1]; xn := [0; 0]; rmnc := [[3; 1]]; zmns := [[0; 1]]; asym := None |}.
Lemma w_circle_fits : fits (xm w_circle) (xn w_circle) (rmnc w_circle) /\ fits (xm w_circle) (xn w_circle) (zmns w_circle).
Proof. split; (split; [reflexivity|repeat constructor]). Qed.
Lemma w_circle_has k : (k < 5)%nat -> has_entry [[[1]; [1]; [1]; [1]; [1]]] 0 k 0.
Proof. intros H. unfold has_entry. cbn [nth length]. repeat split; try lia. do 5 (destruct k as [|k]; [cbn; lia|]). lia. Qed.
