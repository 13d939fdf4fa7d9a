(** The theorems about the coefficients, stated for the result of [doit]. *)
From Coq Require Import List ZArith QArith Bool Lia Lqa.
From Verif Require Import Prelude PreludeFacts PolModel DagpModel DagpSpec DagpProofs DagpLinear DagpThms
  DagpVolume DagpRect DagpWitness.
Import ListNotations.
Open Scope Q_scope.

Lemma apply_op_ext nx nz cX cZ f g i j k : (1 <= i < nx - 1)%Z ->
  (forall i k, f i j k == g i j k) -> apply_op nx nz cX cZ f i j k == apply_op nx nz cX cZ g i j k.
Proof.
  intros Hi H. rewrite !apply_op_cell by exact Hi. unfold flux_through_x, flux_through_z. cbv zeta.
  rewrite !H. reflexivity.
Qed.

Lemma pol_of_nth pols j p : nth_error pols j = Some p -> pol_of pols (Z.of_nat j) = p.
Proof.
  intros H. unfold pol_of. rewrite Nat2Z.id. now apply nth_error_nth.
Qed.

Lemma structured_coefs sqrt junk pols s vol cX cZ j p :
  doit sqrt junk pols s = Ok (vol, cX, cZ) -> (forall q, In q pols -> structured q) ->
  nth_error pols j = Some p ->
  coefficients sqrt s None (p_nx p) (Z.of_nat (length pols)) (p_nz p) (pol_of pols) = Ok (cX, cZ) /\
  (0 <= Z.of_nat j < Z.of_nat (length pols))%Z /\ structured p /\
  vol = volume junk s (p_nx p) (pol_of pols).
Proof.
  intros H Hq Hj. apply doit_inv in H. destruct H as (Lz & nx & nz & EL & Hne & Hx & Hsz & Hc & Hv).
  assert (Hp : In p pols) by (eapply nth_error_In; eassumption).
  destruct (Hsz p Hp) as [-> ->].
  assert (Lz = None).
  { destruct (common_Lz_inv _ _ EL) as [_ HA]. specialize (HA p Hp). destruct (Hq p Hp) as [HN _].
    destruct Lz as [l|]; [|reflexivity]. destruct HA as (l' & A & _). congruence. }
  subst Lz. apply nth_error_lt in Hj.
  split; [exact Hc|]. split; [lia|]. split; [apply Hq, Hp|exact Hv].
Qed.

Lemma doit_linear sqrt junk pols vol cX cZ a b c j p i k :
  root_like sqrt -> doit sqrt junk pols true = Ok (vol, cX, cZ) ->
  (forall q, In q pols -> structured q) -> nth_error pols j = Some p ->
  (1 <= i < p_nx p - 1)%Z -> (0 <= k < p_nz p)%Z ->
  apply_op (p_nx p) (p_nz p) cX cZ (linear_on p a b c) i (Z.of_nat j) k == 0.
Proof.
  intros Hs H Hq Hj Hi Hk.
  destruct (structured_coefs _ _ _ _ _ _ _ _ _ H Hq Hj) as (Hc & Hr & (_ & He & Hcl & Hp) & _).
  assert (Ej := pol_of_nth _ _ _ Hj).
  rewrite (apply_op_ext _ _ cX cZ (linear_on p a b c) (linear a b c (pol_of pols)) i (Z.of_nat j) k Hi).
  - apply (op_linear_zero sqrt (p_nx p) (Z.of_nat (length pols)) (p_nz p) (pol_of pols) cX cZ);
      rewrite ?Ej; assumption || reflexivity.
  - intros i' k'. unfold linear, linear_on. rewrite Ej. reflexivity.
Qed.

Lemma doit_toroidal sqrt junk pols vol cX cZ a b c j p i k :
  root_like sqrt -> doit sqrt junk pols false = Ok (vol, cX, cZ) ->
  (forall q, In q pols -> structured q) -> nth_error pols j = Some p ->
  (1 <= i < p_nx p - 1)%Z -> (0 <= k < p_nz p)%Z ->
  apply_op (p_nx p) (p_nz p) cX cZ (linear_on p a b c) i (Z.of_nat j) k ==
  a * (- polygon_area2 (cell_polygon p i k) / 2).
Proof.
  intros Hs H Hq Hj Hi Hk.
  destruct (structured_coefs _ _ _ _ _ _ _ _ _ H Hq Hj) as (Hc & Hr & (_ & He & Hcl & Hp) & _).
  assert (Ej := pol_of_nth _ _ _ Hj).
  rewrite (apply_op_ext _ _ cX cZ (linear_on p a b c) (linear a b c (pol_of pols)) i (Z.of_nat j) k Hi).
  - rewrite <- (volume_polygon p i k He). 
    transitivity (a * cell_volume true (pol_of pols (Z.of_nat j)) i k); [|rewrite Ej; reflexivity].
    apply (op_linear_tor sqrt (p_nx p) (Z.of_nat (length pols)) (p_nz p) (pol_of pols) cX cZ);
      rewrite ?Ej; assumption || reflexivity.
  - intros i' k'. unfold linear, linear_on. rewrite Ej. reflexivity.
Qed.

Lemma doit_volume sqrt junk pols vol cX cZ s j p i k :
  doit sqrt junk pols s = Ok (vol, cX, cZ) -> nth_error pols j = Some p ->
  vol i (Z.of_nat j) k =
  (if ((1 <=? i) && (i <? p_nx p - 1))%Z then cell_volume s p i k else junk i (Z.of_nat j) k).
Proof.
  intros H Hj. apply doit_inv in H. destruct H as (Lz & nx & nz & _ & _ & _ & Hsz & _ & ->).
  destruct (Hsz p (nth_error_In _ _ Hj)) as [-> _]. unfold volume. now rewrite (pol_of_nth _ _ _ Hj).
Qed.

Lemma doit_polygon sqrt junk pols vol cX cZ j p i k :
  doit sqrt junk pols true = Ok (vol, cX, cZ) -> nth_error pols j = Some p -> extensional (p_coord p) ->
  (1 <= i < p_nx p - 1)%Z ->
  vol i (Z.of_nat j) k == - polygon_area2 (cell_polygon p i k) / 2 /\
  (right_handed p i k -> 0 < vol i (Z.of_nat j) k).
Proof.
  intros H Hj He Hi. rewrite (doit_volume _ _ _ _ _ _ _ _ _ i k H Hj).
  replace (1 <=? i)%Z with true by (symmetry; apply Z.leb_le; lia).
  replace (i <? p_nx p - 1)%Z with true by (symmetry; apply Z.ltb_lt; lia). cbn [andb].
  split; [apply volume_polygon, He|apply volume_positive, He].
Qed.

Lemma doit_edge_rows sqrt junk pols vol cX cZ s j p i k :
  doit sqrt junk pols s = Ok (vol, cX, cZ) -> nth_error pols j = Some p ->
  (i = 0 \/ i = p_nx p - 1)%Z -> vol i (Z.of_nat j) k = junk i (Z.of_nat j) k.
Proof.
  intros H Hj Hi. rewrite (doit_volume _ _ _ _ _ _ _ _ _ i k H Hj).
  destruct Hi as [-> | ->]; [reflexivity|]. rewrite Z.ltb_irrefl, andb_false_r. reflexivity.
Qed.

Lemma rect_total sqrt junk s rs nx nz Lz :
  root_like sqrt -> rs <> [] -> (forall r, In r rs -> rectangular nx nz Lz r) ->
  (4 <= nx)%Z -> (3 <= nz)%Z -> 0 < Lz ->
  exists vol cX cZ, doit sqrt junk (map (fun r => of_rect r Lz) rs) s = Ok (vol, cX, cZ) /\
  forall j r, nth_error rs j = Some r ->
  forall i k, (1 <= i < nx - 1)%Z -> (0 <= k < nz)%Z ->
    let R x := major_radius s r x in
    vol i (Z.of_nat j) k == r_dR r * r_dZ r * R (inject_Z i) /\
    forall f, apply_op nx nz cX cZ f i (Z.of_nat j) k ==
      r_dR r * r_dZ r *
      ((R (inject_Z i + (1#2)) * (f (i + 1)%Z (Z.of_nat j) k - f i (Z.of_nat j) k)
        - R (inject_Z i - (1#2)) * (f i (Z.of_nat j) k - f (i - 1)%Z (Z.of_nat j) k)) / (r_dR r * r_dR r)
       + R (inject_Z i) * (f i (Z.of_nat j) ((k + 1) mod nz)%Z - 2 * f i (Z.of_nat j) k
          + f i (Z.of_nat j) ((k - 1) mod nz)%Z) / (r_dZ r * r_dZ r)).
Proof.
  intros Hs Hne Hr Hx Hz HL.
  assert (Hg : forall r, In r rs -> is_rect_grid nx nz Lz r).
  { intros r Hin. apply rectangular_grid; [lia|]. apply Hr, Hin. }
  destruct (rect_doit sqrt s rs nx nz Lz Hg Hx Hz HL Hne junk) as (cX & cZ & E & Ec).
  exists (volume junk s nx (pol_of (map (fun r => of_rect r Lz) rs))), cX, cZ. split; [exact E|].
  intros j r Hj i k Hi Hk R.
  assert (Hlt : (j < length rs)%nat) by (eapply nth_error_lt; eassumption).
  assert (Hj' : (0 <= Z.of_nat j < Z.of_nat (length rs))%Z) by lia.
  assert (En : nth (Z.to_nat (Z.of_nat j)) rs rect0 = r) by (rewrite Nat2Z.id; now apply nth_error_nth).
  split.
  - rewrite volume_at by exact Hi. rewrite pol_of_map by exact Hj'. rewrite En. apply rect_volume.
  - intros f. rewrite (rect_op sqrt s rs nx nz Lz Hs Hg Hz HL cX cZ Ec f i (Z.of_nat j) k Hi Hj' Hk).
    rewrite En. fold (R (inject_Z i)) (R (inject_Z i + (1#2))) (R (inject_Z i - (1#2))).
    assert (Gr : is_rect_grid nx nz Lz r) by (apply Hg; eapply nth_error_In; eassumption).
    assert (Hd := dZ_pos r nx nz Lz Gr Hz HL). destruct Gr as (_ & _ & _ & HdR).
    field. split; [lra|exact HdR].
Qed.

Lemma doit_ok_inv sqrt junk pols s out : doit sqrt junk pols s = Ok out ->
  pols <> [] /\ exists nx nz, (4 <= nx)%Z /\ ((nz <= 0)%Z \/ (3 <= nz)%Z \/ exists p l, In p pols /\ p_Lz p = Some l /\ l <= 0) /\
    (forall p, In p pols -> p_nx p = nx /\ p_nz p = nz) /\
    ((forall p, In p pols -> p_Lz p = None) \/
     exists L, forall p, In p pols -> exists l, p_Lz p = Some l /\ l == L).
Proof.
  intros H. destruct out as [[vol cX] cZ]. assert (H0 := H).
  apply doit_inv in H. destruct H as (Lz & nx & nz & EL & Hne & Hx & Hsz & Hc & Hv).
  split; [exact Hne|]. exists nx, nz. split; [exact Hx|]. split.
  { destruct (Z_le_gt_dec nz 0) as [?|?]; [left; lia|]. right.
    destruct (Z_le_gt_dec 3 nz) as [?|?]; [left; lia|]. right.
    assert (D : (exists p l, In p pols /\ p_Lz p = Some l /\ l <= 0) \/
                forall p l, In p pols -> p_Lz p = Some l -> 0 < l).
    { clear. induction pols as [|q pols IH]; [right; intros p l []|].
      destruct IH as [(p & l & A & B & C)|IH].
      - left. exists p, l. split; [now right|]. now split.
      - destruct (p_Lz q) as [l|] eqn:E.
        + destruct (Qlt_le_dec 0 l) as [L|L].
          * right. intros p l' [<-|Hp] Hl; [rewrite E in Hl; injection Hl as <-; exact L|exact (IH p l' Hp Hl)].
          * left. exists q, l. split; [now left|]. now split.
        + right. intros p l' [<-|Hp] Hl; [congruence|exact (IH p l' Hp Hl)]. }
    destruct D as [D|D]; [exact D|]. exfalso.
    destruct (few_points sqrt junk pols s nz) with (2 := conj (ltac:(lia) : (1 <= nz)%Z) (ltac:(lia) : (nz <= 2)%Z)) as [e E].
    - intros p Hp. apply (Hsz p Hp).
    - exact D.
    - congruence. }
  split; [exact Hsz|].
  destruct (common_Lz_inv _ _ EL) as [_ HA]. destruct Lz as [L|]; [right; exists L; exact HA|left; exact HA].
Qed.

Lemma doit_refuses sqrt junk pols s :
  (pols = [] \/ (exists p q, In p pols /\ In q pols /\
     (p_nx p <> p_nx q \/ p_nz p <> p_nz q \/ (p_Lz p = None /\ p_Lz q <> None) \/
      exists l l', p_Lz p = Some l /\ p_Lz q = Some l' /\ ~ l == l')) \/
   (exists p, In p pols /\ (p_nx p < 4)%Z)) ->
  exists e, doit sqrt junk pols s = Err e.
Proof.
  intros H. destruct (doit sqrt junk pols s) as [out|e] eqn:E; [|eexists; reflexivity]. exfalso.
  apply doit_ok_inv in E. destruct E as (Hne & nx & nz & Hx & _ & Hsz & HL).
  destruct H as [->|[(p & q & Hp & Hq & H)|(p & Hp & H)]]; [congruence| |].
  - destruct (Hsz p Hp) as [A B]. destruct (Hsz q Hq) as [C D].
    destruct H as [H|[H|[[H1 H2]|(l & l' & H1 & H2 & H3)]]]; [congruence|congruence| |].
    + destruct HL as [HL|(L & HL)]; [apply H2, HL, Hq|]. destruct (HL p Hp) as (l & F & _). congruence.
    + destruct HL as [HL|(L & HL)]; [rewrite (HL p Hp) in H1; discriminate|].
      destruct (HL p Hp) as (m & F & G). destruct (HL q Hq) as (m' & F' & G').
      rewrite H1 in F. rewrite H2 in F'. injection F as <-. injection F' as <-. apply H3. rewrite G, G'. reflexivity.
  - destruct (Hsz p Hp) as [A B]. lia.
Qed.

(** Witnesses. *)
Lemma diamond_structured : structured diamond.
Proof. split; [reflexivity|]. split; [exact diamond_ext|]. split; [exact diamond_closes|exact diamond_faces]. Qed.

Lemma diamond_result s : exists vol cX cZ,
  doit root0 (fun _ _ _ => 0) [diamond; diamond] s = Ok (vol, cX, cZ).
Proof.
  assert (H := diamond_doit s).
  destruct (doit root0 (fun _ _ _ => 0) [diamond; diamond] s) as [[[vol cX] cZ]|e]; [|discriminate].
  exists vol, cX, cZ. reflexivity.
Qed.
