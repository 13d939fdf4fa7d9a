(** Proofs about poloidal grids. *)
From Coq Require Import List ZArith QArith Qround Qfield Lia Lqa Bool.
From Verif Require Import Prelude PreludeFacts PolModel PolSpec.
Import ListNotations.
Open Scope Q_scope.

(** ** Rectangular grids *)

Lemma injz_neq0 n : n <> 0%Z -> ~ inject_Z n == 0.
Proof. intros H C. apply H. unfold Qeq in C. cbn in C. lia. Qed.

Lemma rect_ok nx nz Lx Lz Rc Zc M : (nx <> 2 * M)%Z -> (nz <> 0)%Z ->
  exists r, rect_init nx nz Lx Lz Rc Zc M = Ok r /\
    r_dR r == Lx / inject_Z (nx - 2 * M) /\ r_dZ r == Lz / inject_Z nz /\
    r_Rmin r == Rc - r_dR r * (inject_Z nx - 1) / 2 /\ r_Zmin r == Zc - r_dZ r * (inject_Z nz - 1) / 2.
Proof.
  intros H1 H2. unfold rect_init. destruct (Z.eqb_spec (nx - 2 * M) 0); [lia|]. destruct (Z.eqb_spec nz 0); [lia|].
  eexists. split; [reflexivity|]. cbn. repeat split; reflexivity.
Qed.

Lemma div_neq0 a b : ~ a == 0 -> ~ b == 0 -> ~ a / b == 0.
Proof. intros Ha Hb C. apply Ha. assert (a == a / b * b) by (field; exact Hb). rewrite H, C. ring. Qed.

Lemma get00 r x z : rect_getCoordinate r x z 0 0 = Ok (r_Rmin r + x * r_dR r, r_Zmin r + z * r_dZ r).
Proof. reflexivity. Qed.

Section Rect.
Variable nx nz : Z.
Variable Lx Lz Rc Zc : Q.
Variable M : Z.
Variable r : rect.
Hypothesis E : rect_init nx nz Lx Lz Rc Zc M = Ok r.

Lemma rect_fields : (nx <> 2 * M)%Z /\ (nz <> 0)%Z /\
    r_dR r == Lx / inject_Z (nx - 2 * M) /\ r_dZ r == Lz / inject_Z nz /\
    r_Rmin r == Rc - r_dR r * (inject_Z nx - 1) / 2 /\ r_Zmin r == Zc - r_dZ r * (inject_Z nz - 1) / 2.
Proof.
  revert E. unfold rect_init. destruct (Z.eqb_spec (nx - 2 * M) 0); [discriminate|].
  destruct (Z.eqb_spec nz 0); [discriminate|]. intros [= <-]. cbn [r_dR r_dZ r_Rmin r_Zmin]. split; [lia|]. split; [lia|].
  repeat split; reflexivity.
Qed.

Lemma dR_neq : ~ Lx == 0 -> ~ r_dR r == 0.
Proof.
  intros HL. destruct rect_fields as (H1 & H2 & H3 & H4 & _). rewrite H3. apply div_neq0; [exact HL|]. apply injz_neq0. lia.
Qed.
Lemma dZ_neq : ~ Lz == 0 -> ~ r_dZ r == 0.
Proof.
  intros HL. destruct rect_fields as (H1 & H2 & H3 & H4 & _). rewrite H4. apply div_neq0; [exact HL|]. apply injz_neq0. lia.
Qed.

Lemma rect_inverse : ~ Lx == 0 -> ~ Lz == 0 ->
  (forall x z R Z, rect_getCoordinate r x z 0 0 = Ok (R, Z) ->
     fst (rect_findIndex r R Z) == x /\ snd (rect_findIndex r R Z) == z) /\
  (forall R Z, exists R' Z',
     rect_getCoordinate r (fst (rect_findIndex r R Z)) (snd (rect_findIndex r R Z)) 0 0 = Ok (R', Z') /\ R' == R /\ Z' == Z).
Proof.
  intros HL HZ. assert (NR := dR_neq HL). assert (NZ := dZ_neq HZ). split.
  - intros x z R Z. cbn. intros [= <- <-]. cbn. split; field; assumption.
  - intros R Z. do 2 eexists. split; [reflexivity|]. cbn. split; field; assumption.
Qed.

Lemma rect_affine x z R Z : rect_getCoordinate r x z 0 0 = Ok (R, Z) ->
  R == Rc + (x - (inject_Z nx - 1) / 2) * (Lx / inject_Z (nx - 2 * M)) /\
  Z == Zc + (z - (inject_Z nz - 1) / 2) * (Lz / inject_Z nz).
Proof.
  rewrite get00. intros [= <- <-]. destruct rect_fields as (H1 & H2 & H3 & H4 & H5 & H6). rewrite H5, H6, H3, H4. split; field; apply injz_neq0; lia.
Qed.

(** cells tile an interval: index of cell via floor *)
Lemma tiles (a h : Q) (lo hi : Z) v : 0 < h ->
  (within (a + inject_Z lo * h) (a + inject_Z hi * h) v <->
   exists! i, (lo <= i < hi)%Z /\ within (a + inject_Z i * h) (a + inject_Z (i + 1) * h) v).
Proof.
  intros Hh. assert (U : forall i, within (a + inject_Z i * h) (a + inject_Z (i + 1) * h) v <-> Qfloor ((v - a) / h) = i).
  { intros i. rewrite Qfloor_spec. unfold within. rewrite inject_Z_plus. change (inject_Z 1) with 1.
    assert (L1 : a + inject_Z i * h <= v <-> inject_Z i <= (v - a) / h).
    { split; intros H.
      - apply Qle_shift_div_l; [exact Hh|]. lra.
      - assert (inject_Z i * h <= (v - a) / h * h) by (apply Qmult_le_compat_r; lra).
        assert ((v - a) / h * h == v - a) by (field; lra). lra. }
    assert (L2 : v < a + (inject_Z i + 1) * h <-> (v - a) / h < inject_Z i + 1).
    { split; intros H.
      - apply Qlt_shift_div_r; [exact Hh|]. lra.
      - assert ((v - a) / h * h < (inject_Z i + 1) * h) by (apply Qmult_lt_compat_r; lra).
        assert ((v - a) / h * h == v - a) by (field; lra). lra. }
    tauto. }
  split.
  - intros [H1 H2]. exists (Qfloor ((v - a) / h)). split.
    + split.
      * assert (Hl : inject_Z lo <= (v - a) / h) by (apply Qle_shift_div_l; [exact Hh|lra]).
        assert (Hu : (v - a) / h < inject_Z hi) by (apply Qlt_shift_div_r; [exact Hh|lra]).
        pose proof (Qfloor_le ((v - a) / h)) as F1. pose proof (Qlt_floor ((v - a) / h)) as F2.
        split.
        -- assert (inject_Z lo < inject_Z (Qfloor ((v - a) / h) + 1)) by lra. rewrite <- Zlt_Qlt in H. lia.
        -- assert (inject_Z (Qfloor ((v - a) / h)) < inject_Z hi) by lra. rewrite <- Zlt_Qlt in H. lia.
      * now apply U.
    + intros i [_ Hi]. now apply U in Hi.
  - intros (i & [[I1 I2] [W1 W2]] & _). split.
    + assert (inject_Z lo <= inject_Z i) by (rewrite <- Zle_Qle; lia).
      assert (inject_Z lo * h <= inject_Z i * h) by (apply Qmult_le_compat_r; lra). lra.
    + assert (inject_Z (i + 1) <= inject_Z hi) by (rewrite <- Zle_Qle; lia).
      assert (inject_Z (i + 1) * h <= inject_Z hi * h) by (apply Qmult_le_compat_r; lra). lra.
Qed.

Lemma within_compat a b c d v : a == c -> b == d -> (within a b v <-> within c d v).
Proof. unfold within. intros H1 H2. rewrite H1, H2. tauto. Qed.

Lemma rect_tiles : 0 < Lx -> (0 < nx - 2 * M)%Z -> 0 < Lz -> (0 < nz)%Z ->
  let pos i j := match rect_getCoordinate r (inject_Z i) (inject_Z j) 0 0 with Ok p => p | Err _ => (0, 0) end in
  (forall v, within (Rc - Lx / 2) (Rc + Lx / 2) v <->
     exists! i, (M <= i < nx - M)%Z /\ within (fst (pos i 0%Z) - r_dR r / 2) (fst (pos i 0%Z) + r_dR r / 2) v) /\
  (forall v, within (Zc - Lz / 2) (Zc + Lz / 2) v <->
     exists! j, (0 <= j < nz)%Z /\ within (snd (pos 0%Z j) - r_dZ r / 2) (snd (pos 0%Z j) + r_dZ r / 2) v).
Proof.
  intros HL Hn HZ Hnz pos. destruct rect_fields as (H1 & H2 & H3 & H4 & H5 & H6).
  assert (Pn : 0 < inject_Z (nx - 2 * M)) by (change 0 with (inject_Z 0); rewrite <- Zlt_Qlt; lia).
  assert (Pz : 0 < inject_Z nz) by (change 0 with (inject_Z 0); rewrite <- Zlt_Qlt; lia).
  assert (PR : 0 < r_dR r) by (rewrite H3; apply Qlt_shift_div_l; [exact Pn|lra]).
  assert (PZ : 0 < r_dZ r) by (rewrite H4; apply Qlt_shift_div_l; [exact Pz|lra]).
  assert (EL : Lx == inject_Z (nx - 2 * M) * r_dR r) by (rewrite H3; field; lra).
  assert (EZ : Lz == inject_Z nz * r_dZ r) by (rewrite H4; field; lra).
  assert (EN : inject_Z (nx - 2 * M) == inject_Z nx - 2 * inject_Z M).
  { unfold Z.sub. rewrite inject_Z_plus, inject_Z_opp, inject_Z_mult. change (inject_Z 2) with 2. ring. }
  split; intros v.
  - rewrite (within_compat _ _ (r_Rmin r - r_dR r / 2 + inject_Z M * r_dR r) (r_Rmin r - r_dR r / 2 + inject_Z (nx - M) * r_dR r)).
    + rewrite (tiles _ _ _ _ _ PR). assert (K : forall i, within (r_Rmin r - r_dR r / 2 + inject_Z i * r_dR r) (r_Rmin r - r_dR r / 2 + inject_Z (i + 1) * r_dR r) v
        <-> within (fst (pos i 0%Z) - r_dR r / 2) (fst (pos i 0%Z) + r_dR r / 2) v).
      { intros i. apply within_compat; cbn; [|rewrite inject_Z_plus; change (inject_Z 1) with 1]; field. }
      split; intros (i & [Hi Hw] & Hu); exists i; (split; [split; [exact Hi|now apply K]|]);
        intros k [Hk Hk']; apply Hu; (split; [exact Hk|now apply K]).
    + rewrite H5, EL, EN. field.
    + rewrite H5, EL, EN. unfold Z.sub. rewrite inject_Z_plus, inject_Z_opp. field.
  - rewrite (within_compat _ _ (r_Zmin r - r_dZ r / 2 + inject_Z 0 * r_dZ r) (r_Zmin r - r_dZ r / 2 + inject_Z nz * r_dZ r)).
    + rewrite (tiles _ _ _ _ _ PZ). assert (K : forall i, within (r_Zmin r - r_dZ r / 2 + inject_Z i * r_dZ r) (r_Zmin r - r_dZ r / 2 + inject_Z (i + 1) * r_dZ r) v
        <-> within (snd (pos 0%Z i) - r_dZ r / 2) (snd (pos 0%Z i) + r_dZ r / 2) v).
      { intros i. apply within_compat; cbn; [|rewrite inject_Z_plus; change (inject_Z 1) with 1]; field. }
      split; intros (i & [Hi Hw] & Hu); exists i; (split; [split; [exact Hi|now apply K]|]);
        intros k [Hk Hk']; apply Hu; (split; [exact Hk|now apply K]).
    + rewrite H6, EZ. change (inject_Z 0) with 0. field.
    + rewrite H6, EZ. field.
Qed.

Lemma rect_outside : 0 < Lx -> (0 < nx - 2 * M)%Z -> forall R Z,
  (R < Rc - Lx / 2 <-> fst (rect_findIndex r R Z) < inject_Z M - (1#2)) /\
  (Rc + Lx / 2 < R <-> inject_Z (nx - M - 1) + (1#2) < fst (rect_findIndex r R Z)).
Proof.
  intros HL Hn R Z. destruct rect_fields as (H1 & H2 & H3 & H4 & H5 & H6). cbn.
  assert (Pn : 0 < inject_Z (nx - 2 * M)) by (change 0 with (inject_Z 0); rewrite <- Zlt_Qlt; lia).
  assert (PR : 0 < r_dR r) by (rewrite H3; apply Qlt_shift_div_l; [exact Pn|lra]).
  assert (EL : Lx == inject_Z (nx - 2 * M) * r_dR r) by (rewrite H3; field; lra).
  assert (EN : inject_Z (nx - 2 * M) == inject_Z nx - 2 * inject_Z M).
  { unfold Z.sub. rewrite inject_Z_plus, inject_Z_opp, inject_Z_mult. change (inject_Z 2) with 2. ring. }
  assert (EM : inject_Z (nx - M - 1) == inject_Z nx - inject_Z M - 1).
  { unfold Z.sub. rewrite !inject_Z_plus, !inject_Z_opp. change (inject_Z 1) with 1. ring. }
  assert (V : R == r_Rmin r + (R - r_Rmin r) / r_dR r * r_dR r) by (field; lra).
  set (q := (R - r_Rmin r) / r_dR r) in *.
  assert (W : R - (Rc - Lx / 2) == (q - (inject_Z M - (1#2))) * r_dR r).
  { rewrite EL, EN. rewrite V at 1. rewrite H5. field. }
  assert (W2 : R - (Rc + Lx / 2) == (q - (inject_Z (nx - M - 1) + (1#2))) * r_dR r).
  { rewrite EL, EN, EM. rewrite V at 1. rewrite H5. field. }
  assert (S : forall t, (t * r_dR r < 0 <-> t < 0)).
  { intros t. split; intros H; [destruct (Qlt_le_dec t 0) as [|C]; [assumption|]; assert (0 * r_dR r <= t * r_dR r) by (apply Qmult_le_compat_r; lra); lra|].
    assert (t * r_dR r < 0 * r_dR r) by (apply Qmult_lt_compat_r; lra). lra. }
  assert (S' : forall t, (0 < t * r_dR r <-> 0 < t)).
  { intros t. specialize (S (- t)). assert (- t * r_dR r == - (t * r_dR r)) by ring. rewrite H in S. split; intros; [apply Qnot_le_lt; intro|]; 
    [assert (t < 0 \/ t == 0) as [?|C] by (destruct (Qlt_le_dec t 0); [now left|right; lra]); [|rewrite C in H0; lra]|].
    - assert (t * r_dR r < 0 * r_dR r) by (apply Qmult_lt_compat_r; lra). lra.
    - assert (- (t * r_dR r) < 0) by (apply S; lra). lra. }
  split.
  - specialize (S (q - (inject_Z M - (1#2)))). rewrite <- W in S. split; intros H; [assert (q - (inject_Z M - (1#2)) < 0) by (apply S; lra)|assert (R - (Rc - Lx / 2) < 0) by (apply S; lra)]; lra.
  - specialize (S' (q - (inject_Z (nx - M - 1) + (1#2)))). rewrite <- W2 in S'. split; intros H; [assert (0 < q - (inject_Z (nx - M - 1) + (1#2))) by (apply S'; lra)|assert (0 < R - (Rc + Lx / 2)) by (apply S'; lra)]; lra.
Qed.
End Rect.

(** derivatives *)
Definition coordR (r : rect) (a b : nat) (x z : Q) : Q :=
  match rect_getCoordinate r x z (Z.of_nat a) (Z.of_nat b) with Ok p => fst p | Err _ => 0 end.
Definition coordZ (r : rect) (a b : nat) (x z : Q) : Q :=
  match rect_getCoordinate r x z (Z.of_nat a) (Z.of_nat b) with Ok p => snd p | Err _ => 0 end.

Lemma get_ok r x z a b : exists p, rect_getCoordinate r x z (Z.of_nat a) (Z.of_nat b) = Ok p.
Proof.
  unfold rect_getCoordinate. destruct (Z.leb_spec 0 (Z.of_nat a)); [|lia]. destruct (Z.leb_spec 0 (Z.of_nat b)); [|lia]. cbn [negb].
  destruct (2 <? _)%Z; [eauto|]. destruct (_ =? _)%Z; [eauto|]. destruct (_ =? _)%Z; eauto.
Qed.

Lemma get_high r x z a b : (2 < a + b)%nat -> rect_getCoordinate r x z (Z.of_nat a) (Z.of_nat b) = Ok (0, 0).
Proof.
  intros H. unfold rect_getCoordinate. destruct (Z.leb_spec 0 (Z.of_nat a)); [|lia]. destruct (Z.leb_spec 0 (Z.of_nat b)); [|lia]. cbn [negb].
  destruct (Z.ltb_spec 2 (Z.of_nat a + Z.of_nat b)); [reflexivity|lia].
Qed.

(** derivative orders can be rearranged to end at zero: from a zero function all slopes are zero *)
Lemma der_zero_up (f : Q -> Q -> Q) a b : derivative a b f (fun _ _ => 0) -> forall m n, derivative (m + a) (n + b) f (fun _ _ => 0).
Proof.
  intros H m n. induction m as [|m IH].
  - induction n as [|n IHn]; [exact H|]. cbn. eapply der_z; [exact IHn|]. intros x z h Hh. field. exact Hh.
  - cbn. eapply der_x; [exact IH|]. intros x z h Hh. field. exact Hh.
Qed.

Lemma der_ext a b f g g' : derivative a b f g -> (forall x z, g x z == g' x z) -> derivative a b f g'.
Proof.
  intros H E. inversion H; subst.
  - apply der_0. intros. now rewrite H0, E.
  - eapply der_x; [eassumption|]. intros x z k Hk. rewrite <- E. now apply H1.
  - eapply der_z; [eassumption|]. intros x z k Hk. rewrite <- E. now apply H1.
Qed.

Lemma affine_second (c0 cx cz : Q) (f : Q -> Q -> Q) : (forall x z, f x z == c0 + cx * x + cz * z) ->
  derivative 1 0 f (fun _ _ => cx) /\ derivative 0 1 f (fun _ _ => cz) /\
  forall a b, (2 <= a + b)%nat -> derivative a b f (fun _ _ => 0).
Proof.
  intros E.
  assert (D0 : derivative 0 0 f f) by (apply der_0; reflexivity).
  assert (D1 : derivative 1 0 f (fun _ _ => cx)).
  { eapply der_x; [exact D0|]. intros x z h Hh. rewrite !E. field. exact Hh. }
  assert (D2 : derivative 0 1 f (fun _ _ => cz)).
  { eapply der_z; [exact D0|]. intros x z h Hh. rewrite !E. field. exact Hh. }
  split; [exact D1|split; [exact D2|]]. intros a b H.
  destruct a as [|a].
  - destruct b as [|[|b]]; [lia|lia|].
    assert (D : derivative 0 2 f (fun _ _ => 0)) by (eapply der_z; [exact D2|]; intros x z h Hh; field; exact Hh).
    pose proof (der_zero_up f 0 2 D 0 b) as K. replace (S (S b)) with (b + 2)%nat by lia. exact K.
  - destruct b as [|b].
    + destruct a as [|a]; [lia|].
      assert (D : derivative 2 0 f (fun _ _ => 0)) by (eapply der_x; [exact D1|]; intros x z h Hh; field; exact Hh).
      pose proof (der_zero_up f 2 0 D a 0) as K. replace (S (S a)) with (a + 2)%nat by lia. exact K.
    + assert (D : derivative 1 1 f (fun _ _ => 0)) by (eapply der_z; [exact D1|]; intros x z h Hh; field; exact Hh).
      pose proof (der_zero_up f 1 1 D a b) as K. replace (S a) with (a + 1)%nat by lia. replace (S b) with (b + 1)%nat by lia. exact K.
Qed.

Lemma rect_derivatives r a b : (a + b <> 2)%nat ->
  derivative a b (coordR r 0 0) (coordR r a b) /\ derivative a b (coordZ r 0 0) (coordZ r a b).
Proof.
  intros H.
  assert (AR : forall x z, coordR r 0 0 x z == r_Rmin r + r_dR r * x + 0 * z) by (intros; unfold coordR; cbn; ring).
  assert (AZ : forall x z, coordZ r 0 0 x z == r_Zmin r + 0 * x + r_dZ r * z) by (intros; unfold coordZ; cbn; ring).
  destruct (affine_second _ _ _ _ AR) as (R1 & R2 & R3). destruct (affine_second _ _ _ _ AZ) as (Z1 & Z2 & Z3).
  destruct (Nat.le_gt_cases 3 (a + b)) as [L|L].
  - split.
    + eapply der_ext; [apply R3; lia|]. intros. unfold coordR. rewrite get_high by lia. reflexivity.
    + eapply der_ext; [apply Z3; lia|]. intros. unfold coordZ. rewrite get_high by lia. reflexivity.
  - destruct a as [|[|a]]; destruct b as [|[|b]]; try lia.
    + split; apply der_0; reflexivity.
    + split; [eapply der_ext; [exact R2|]|eapply der_ext; [exact Z2|]]; intros; reflexivity.
    + split; [eapply der_ext; [exact R1|]|eapply der_ext; [exact Z1|]]; intros; reflexivity.
Qed.

(** the derivative is unique, so anything else is wrong *)
Lemma derivative_affine a b f h : derivative a b f h ->
  (exists c0 cx cz, forall x z, f x z == c0 + cx * x + cz * z) -> (2 <= a + b)%nat -> forall x z, h x z == 0.
Proof.
  intros H (c0 & cx & cz & E) Hab. revert H.
  assert (G : forall a b k, derivative a b f k ->
     match a, b with
     | O, O => forall x z, k x z == c0 + cx * x + cz * z
     | S O, O => forall x z, k x z == cx
     | O, S O => forall x z, k x z == cz
     | _, _ => forall x z, k x z == 0
     end).
  { clear Hab a b h. intros a b k H. revert E. induction H as [f k E0|a b f g k H IH S|a b f g k H IH S]; intros E.
    - intros. rewrite <- E0. apply E.
    - specialize (IH E). assert (N1 : ~ 1 == 0) by (intro C; discriminate C).
      destruct a as [|[|a]]; destruct b as [|b]; try (destruct b); intros x z; rewrite <- (S x z 1 N1), !IH; field.
    - specialize (IH E). assert (N1 : ~ 1 == 0) by (intro C; discriminate C).
      destruct a as [|[|a]]; destruct b as [|[|b]]; intros x z; rewrite <- (S x z 1 N1), !IH; field. }
  intros H. specialize (G _ _ _ H). destruct a as [|[|a]]; destruct b as [|[|b]]; try lia; exact G.
Qed.

Lemma coordR_affine r : exists c0 cx cz, forall x z, coordR r 0 0 x z == c0 + cx * x + cz * z.
Proof. exists (r_Rmin r), (r_dR r), 0. intros. unfold coordR. cbn. ring. Qed.
Lemma coordZ_affine r : exists c0 cx cz, forall x z, coordZ r 0 0 x z == c0 + cx * x + cz * z.
Proof. exists (r_Zmin r), 0, (r_dZ r). intros. unfold coordZ. cbn. ring. Qed.
