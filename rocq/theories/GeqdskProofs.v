(** Proofs about the constructor of GEQDSK. *)
From Coq Require Import List ZArith QArith Bool Lia Lqa.
From Verif Require Import Prelude PreludeFacts BoundaryModel BoundarySpec BoundaryProofs BoundaryConvex MapsModel SurfProofs W7xModel W7xHist W7xInterp GeqdskModel GeqdskSpec.
Import ListNotations.
Open Scope Q_scope.

Lemma last_nth {A} (l : list A) d : last l d = nth (length l - 1) l d.
Proof.
  induction l as [|a l IH]; [reflexivity|]. destruct l as [|b l]; [reflexivity|].
  change (last (a :: b :: l) d) with (last (b :: l) d). rewrite IH. cbn [length]. replace (S (S (length l)) - 1)%nat with (S (S (length l) - 1)) by lia. reflexivity.
Qed.
Lemma mapM_nth {A B} (f : A -> res B) l r d d' k : mapM f l = Ok r -> (k < length l)%nat -> length r = length l /\ f (nth k l d) = Ok (nth k r d').
Proof.
  intros E H. destruct (mapM_inv f l r E) as (L & K). split; [exact L|].
  apply (K k (nth k l d) d' d). now apply nth_error_nth'.
Qed.
Lemma mask_nth core r z mask i j : outside_mask core r z = Ok mask -> (i < length r)%nat -> (j < length z)%nat ->
  polygon_outside core (nth i r 0) (nth j z 0) = Ok (mask i j).
Proof.
  intros E Hi Hj. unfold outside_mask in E. destruct (mapM _ r) as [rows|] eqn:Er; cbn [bind] in E; [|discriminate]. injection E as <-.
  destruct (mapM_nth _ _ _ 0 [] i Er Hi) as (_ & K). exact (proj2 (mapM_nth _ _ _ 0 false j K Hj)).
Qed.

Section Proofs.
Variable rect_spline : list Q -> list Q -> array2 (option Q) -> res spline2.
Variable line_spline : list Q -> list Q -> nat -> res (Q -> Q).
Hypothesis Hr : through_mesh rect_spline.
Hypothesis Hl : through_line line_spline.
Notation init := (geqdsk_init rect_spline line_spline).

Lemma init_inv d o g : init d = (o, Ok g) -> exists core mask,
  let nr := len1 (psirz d) in let nz := len0 (psirz d) in
  gr g = W7xModel.linspace (rleft d) (rdim d + rleft d) nr /\ gz g = W7xModel.linspace (zmid d - (1 # 2) * zdim d) (zmid d + (1 # 2) * zdim d) nz /\
  rect_spline (gr g) (gz g) {| len0 := nr; len1 := nz; cell := fun i j => Some (cell (psirz d) j i) |} = Ok (gpsi g) /\ o = Some (gpsi g) /\
  polygon_init (rbdry d) (zbdry d) = Ok core /\ outside_mask core (gr g) (gz g) = Ok mask /\
  rect_spline (gr g) (gz g) (masked (norm_psi d (transpose (psirz d))) mask) = Ok (gnorm g) /\
  line_spline (W7xModel.linspace 0 1 nr) (fpol d) 3 = Ok (gf g) /\ line_spline (W7xModel.linspace 0 1 nr) (pres d) 3 = Ok (gp g) /\
  match rlim d with [] => limiter g = None | _ => exists b, polygon_init (rlim d) (zlim d) = Ok b /\ limiter g = Some b end.
Proof.
  unfold geqdsk_init. intros E. cbn [transpose len0 len1 cell] in E.
  destruct (rect_spline _ _ _) as [ps|] eqn:E1; [|discriminate]. injection E as <- E.
  destruct (polygon_init (rbdry d) (zbdry d)) as [core|] eqn:E2; cbn [bind] in E; [|discriminate].
  destruct (outside_mask _ _ _) as [mask|] eqn:E3; cbn [bind] in E; [|discriminate].
  destruct (rect_spline _ _ (masked _ _)) as [pn|] eqn:E4; cbn [bind] in E; [|discriminate].
  destruct (line_spline _ (fpol d) _) as [f|] eqn:E5; cbn [bind] in E; [|discriminate].
  destruct (line_spline _ (pres d) _) as [p|] eqn:E6; cbn [bind] in E; [|discriminate].
  exists core, mask. cbv zeta.
  destruct (rlim d) as [|a t] eqn:El; cbn [bind] in E.
  - injection E as <-. cbn [gr gz gpsi gnorm gf gp limiter]. repeat split; assumption.
  - destruct (polygon_init (a :: t) (zlim d)) as [b|] eqn:E7; cbn [bind] in E; [|discriminate]. injection E as <-.
    cbn [gr gz gpsi gnorm gf gp limiter]. repeat split; try assumption. exists b. split; reflexivity.
Qed.

Lemma built_sizes d o g : init d = (o, Ok g) ->
  (4 <= len0 (psirz d))%nat /\ (4 <= len1 (psirz d))%nat /\ length (fpol d) = len1 (psirz d) /\ length (pres d) = len1 (psirz d) /\
  length (gr g) = len1 (psirz d) /\ length (gz g) = len0 (psirz d).
Proof.
  intros E. destruct (init_inv d o g E) as (core & mask & Er & Ez & E1 & _ & _ & _ & _ & E5 & E6 & _). cbv zeta in *.
  destruct (Hr _ _ _ _ E1) as (_ & _ & A & B & _). cbn [len0 len1] in A, B.
  destruct (Hl _ _ _ E5) as (C & _). destruct (Hl _ _ _ E6) as (D & _). rewrite linspace_length in C, D.
  rewrite Er, Ez, !linspace_length. repeat split; auto.
Qed.

Lemma built_axes d o g : init d = (o, Ok g) ->
  (forall i, (i < len1 (psirz d))%nat -> nth i (gr g) 0 == rleft d + inject_Z (Z.of_nat i) * (rdim d / inject_Z (Z.of_nat (len1 (psirz d) - 1)))) /\
  (forall j, (j < len0 (psirz d))%nat -> nth j (gz g) 0 == zmid d - zdim d / 2 + inject_Z (Z.of_nat j) * (zdim d / inject_Z (Z.of_nat (len0 (psirz d) - 1)))).
Proof.
  intros E. destruct (built_sizes d o g E) as (Sz & Sr & _). destruct (init_inv d o g E) as (core & mask & Er & Ez & _). cbv zeta in *.
  rewrite Er, Ez. split; intros i Hi; rewrite linspace_nth by lia.
  - setoid_replace (rdim d + rleft d - rleft d) with (rdim d) by ring. reflexivity.
  - setoid_replace (zmid d + (1 # 2) * zdim d - (zmid d - (1 # 2) * zdim d)) with (zdim d) by ring.
    setoid_replace ((1 # 2) * zdim d) with (zdim d / 2) by field. reflexivity.
Qed.

Lemma built_flux d o g i j : init d = (o, Ok g) -> (i < len1 (psirz d))%nat -> (j < len0 (psirz d))%nat ->
  same (ev (gpsi g) (nth i (gr g) 0) (nth j (gz g) 0)) (Some (cell (psirz d) j i)).
Proof.
  intros E Hi Hj. destruct (init_inv d o g E) as (core & mask & Er & Ez & E1 & _). cbv zeta in *.
  destruct (Hr _ _ _ _ E1) as (_ & _ & _ & _ & K). exact (K i j Hi Hj).
Qed.

Lemma built_mask d o g core i j : init d = (o, Ok g) -> polygon_init (rbdry d) (zbdry d) = Ok core -> (i < len1 (psirz d))%nat -> (j < len0 (psirz d))%nat ->
  exists b, polygon_outside core (nth i (gr g) 0) (nth j (gz g) 0) = Ok b /\
    same (ev (gnorm g) (nth i (gr g) 0) (nth j (gz g) 0)) (if b then Some 1 else quotient (cell (psirz d) j i - simagx d) (sibdry d - simagx d)).
Proof.
  intros E Ec Hi Hj. destruct (built_sizes d o g E) as (_ & _ & _ & _ & Lr & Lz). destruct (init_inv d o g E) as (core' & mask & Er & Ez & E1 & _ & E2 & E3 & E4 & _). cbv zeta in *.
  assert (core' = core) as -> by congruence. exists (mask i j). split; [apply mask_nth with (1 := E3); rewrite ?Lr, ?Lz; assumption|].
  destruct (Hr _ _ _ _ E4) as (_ & _ & _ & _ & K). exact (K i j Hi Hj).
Qed.

(** The profiles at a value of the normalised flux *)
Lemma line_values n vs f : line_spline (W7xModel.linspace 0 1 n) vs 3 = Ok f ->
  (forall t, 1 <= t -> f t == last vs 0) /\ (forall t, t <= 0 -> f t == nth 0 vs 0) /\
  (forall k t, (k < n)%nat -> t == inject_Z (Z.of_nat k) / inject_Z (Z.of_nat (n - 1)) -> f t == nth k vs 0) /\ (forall s t, s == t -> f s == f t).
Proof.
  intros E. destruct (Hl _ _ _ E) as (L & L4 & P & K & A & B). rewrite linspace_length in L4, K.
  repeat split.
  - intros t Ht. apply B. rewrite last_nth, linspace_length, linspace_last by lia. exact Ht.
  - intros t Ht. apply A. rewrite linspace_first by lia. exact Ht.
  - intros k t Hk Ht. rewrite <- (K k Hk). apply P. rewrite linspace_nth by lia. rewrite Ht.
    assert (N : ~ inject_Z (Z.of_nat (n - 1)) == 0) by (intros C; assert (Z.of_nat (n - 1) = 0%Z) by (apply inject_Z_injective; exact C); lia).
    field. exact N.
  - exact P.
Qed.

Lemma Qeq_bool_no a b : ~ a == b -> Qeq_bool a b = false.
Proof. intros H. destruct (Qeq_bool a b) eqn:E; [|reflexivity]. apply Qeq_bool_iff in E. destruct (H E). Qed.
Lemma over_same a b x : same a (Some b) -> ~ x == 0 -> same (over a x) (Some (b / x)).
Proof.
  destruct a as [a|]; [|intros []]. cbn [same]. intros H Hx. unfold over, quotient. rewrite (Qeq_bool_no x 0 Hx).
  cbn [same]. rewrite H. reflexivity.
Qed.
Lemma map_same f a b c : same a (Some b) -> (forall t, t == b -> f t == c) -> same (option_map f a) (Some c).
Proof. destruct a as [a|]; [|intros []]. cbn [same option_map]. intros H K. exact (K a H). Qed.

Section Node.
Variables (d : eqdsk) (o : option spline2) (g : geqdsk) (core : polygon_boundary) (i j : nat).
Hypothesis E : init d = (o, Ok g).
Hypothesis Ec : polygon_init (rbdry d) (zbdry d) = Ok core.
Hypothesis Hi : (i < len1 (psirz d))%nat.
Hypothesis Hj : (j < len0 (psirz d))%nat.
Notation x := (nth i (gr g) 0).
Notation z := (nth j (gz g) 0).

(** Whatever the normalised flux of the node is, if it is in [P] *)
Lemma node_value t cf cp : same (ev (gnorm g) x z) (Some t) -> (forall s, s == t -> gf g s == cf) -> (forall s, s == t -> gp g s == cp) ->
  (~ x == 0 -> same (gBy g x z) (Some (cf / x))) /\ same (gpressure g x z) (Some cp).
Proof.
  intros H Kf Kp. split.
  - intros Hx. apply over_same; [|exact Hx]. exact (map_same _ _ _ _ H Kf).
  - exact (map_same _ _ _ _ H Kp).
Qed.

Lemma node_outside : polygon_outside core x z = Ok true ->
  (~ x == 0 -> same (gBy g x z) (Some (last (fpol d) 0 / x))) /\ same (gpressure g x z) (Some (last (pres d) 0)).
Proof.
  intros Ho. destruct (built_mask d o g core i j E Ec Hi Hj) as (b & Hb & Hs). assert (b = true) as -> by congruence.
  destruct (init_inv d o g E) as (core' & mask & _ & _ & _ & _ & _ & _ & _ & E5 & E6 & _). cbv zeta in *.
  destruct (line_values _ _ _ E5) as (F1 & _). destruct (line_values _ _ _ E6) as (P1 & _).
  apply (node_value 1 _ _ Hs); intros s Hsq; [apply F1|apply P1]; rewrite Hsq; lra.
Qed.

Lemma node_inside : polygon_outside core x z = Ok false -> ~ sibdry d == simagx d ->
  let t := (cell (psirz d) j i - simagx d) / (sibdry d - simagx d) in
  same (ev (gnorm g) x z) (Some t) /\
  (forall k, (k < len1 (psirz d))%nat -> t == inject_Z (Z.of_nat k) / inject_Z (Z.of_nat (len1 (psirz d) - 1)) ->
     (~ x == 0 -> same (gBy g x z) (Some (nth k (fpol d) 0 / x))) /\ same (gpressure g x z) (Some (nth k (pres d) 0))) /\
  (1 <= t -> (~ x == 0 -> same (gBy g x z) (Some (last (fpol d) 0 / x))) /\ same (gpressure g x z) (Some (last (pres d) 0))) /\
  (t <= 0 -> (~ x == 0 -> same (gBy g x z) (Some (nth 0 (fpol d) 0 / x))) /\ same (gpressure g x z) (Some (nth 0 (pres d) 0))).
Proof.
  intros Ho Hd t. destruct (built_mask d o g core i j E Ec Hi Hj) as (b & Hb & Hs). assert (b = false) as -> by congruence.
  unfold quotient in Hs. rewrite (Qeq_bool_no (sibdry d - simagx d) 0) in Hs by lra. fold t in Hs.
  destruct (init_inv d o g E) as (core' & mask & _ & _ & _ & _ & _ & _ & _ & E5 & E6 & _). cbv zeta in *.
  destruct (line_values _ _ _ E5) as (F1 & F0 & Fk & _). destruct (line_values _ _ _ E6) as (P1 & P0 & Pk & _).
  split; [exact Hs|]. repeat split.
  - intros Hx. apply (node_value t (nth k (fpol d) 0) (nth k (pres d) 0) Hs); try exact Hx; intros s Hq; [apply Fk|apply Pk]; try assumption; now rewrite Hq.
  - apply (node_value t (nth k (fpol d) 0) (nth k (pres d) 0) Hs); intros s Hq; [apply Fk|apply Pk]; try assumption; now rewrite Hq.
  - intros Hx. apply (node_value t (last (fpol d) 0) (last (pres d) 0) Hs); try exact Hx; intros s Hq; [apply F1|apply P1]; rewrite Hq; assumption.
  - apply (node_value t (last (fpol d) 0) (last (pres d) 0) Hs); intros s Hq; [apply F1|apply P1]; rewrite Hq; assumption.
  - intros Hx. apply (node_value t (nth 0 (fpol d) 0) (nth 0 (pres d) 0) Hs); try exact Hx; intros s Hq; [apply F0|apply P0]; rewrite Hq; assumption.
  - apply (node_value t (nth 0 (fpol d) 0) (nth 0 (pres d) 0) Hs); intros s Hq; [apply F0|apply P0]; rewrite Hq; assumption.
Qed.
End Node.

(** Nodes out of a convex core that are below or above none of its corners *)
Lemma node_convex d o g i j s vs : init d = (o, Ok g) -> (i < len1 (psirz d))%nat -> (j < len0 (psirz d))%nat ->
  rbdry d = map fst vs -> zbdry d = map snd vs -> ~ s == 0 -> convex s vs ->
  (forall v, In v vs -> ~ fst v == nth i (gr g) 0) ->
  (forall a b, In (a, b) (sides vs) -> ~ on_segment a b (nth i (gr g) 0, nth j (gz g) 0)) ->
  (forall a b, In (a, b) (sides vs) -> fst a == fst b \/ 1 # 1000000 <= Qabs.Qabs (fst b - fst a)) ->
  ~ convex_interior s vs (nth i (gr g) 0, nth j (gz g) 0) ->
  (~ nth i (gr g) 0 == 0 -> same (gBy g (nth i (gr g) 0) (nth j (gz g) 0)) (Some (last (fpol d) 0 / nth i (gr g) 0))) /\
  same (gpressure g (nth i (gr g) 0) (nth j (gz g) 0)) (Some (last (pres d) 0)).
Proof.
  intros E Hi Hj Rb Zb Hs Hc Hv Hon Hw Hout. destruct (init_inv d o g E) as (core & mask & _ & _ & _ & _ & Ec & _).
  apply (node_outside d o g core i j E Ec Hi Hj). rewrite Rb, Zb in Ec.
  destruct (polygon_convex s vs core (nth i (gr g) 0, nth j (gz g) 0) Hs Hc Ec Hv Hon Hw) as (b & Hb & Hiff).
  cbn [fst snd] in Hb. rewrite Hb, (proj2 Hiff Hout). reflexivity.
Qed.

(** The toroidal field is a function of the flux on the nodes in the core *)
Lemma flux_function d o g core i j i' j' : init d = (o, Ok g) -> polygon_init (rbdry d) (zbdry d) = Ok core -> ~ sibdry d == simagx d ->
  (i < len1 (psirz d))%nat -> (j < len0 (psirz d))%nat -> (i' < len1 (psirz d))%nat -> (j' < len0 (psirz d))%nat ->
  polygon_outside core (nth i (gr g) 0) (nth j (gz g) 0) = Ok false -> polygon_outside core (nth i' (gr g) 0) (nth j' (gz g) 0) = Ok false ->
  cell (psirz d) j i == cell (psirz d) j' i' ->
  exists f p, (~ nth i (gr g) 0 == 0 -> same (gBy g (nth i (gr g) 0) (nth j (gz g) 0)) (Some (f / nth i (gr g) 0))) /\
    (~ nth i' (gr g) 0 == 0 -> same (gBy g (nth i' (gr g) 0) (nth j' (gz g) 0)) (Some (f / nth i' (gr g) 0))) /\
    same (gpressure g (nth i (gr g) 0) (nth j (gz g) 0)) (Some p) /\ same (gpressure g (nth i' (gr g) 0) (nth j' (gz g) 0)) (Some p).
Proof.
  intros E Ec Hd Hi Hj Hi' Hj' Ho Ho' Hq. set (t := (cell (psirz d) j i - simagx d) / (sibdry d - simagx d)).
  destruct (node_inside d o g core i j E Ec Hi Hj Ho Hd) as (A & _). destruct (node_inside d o g core i' j' E Ec Hi' Hj' Ho' Hd) as (B & _). cbv zeta in A, B.
  destruct (init_inv d o g E) as (core' & mask & _ & _ & _ & _ & _ & _ & _ & E5 & E6 & _). cbv zeta in *.
  destruct (line_values _ _ _ E5) as (_ & _ & _ & F). destruct (line_values _ _ _ E6) as (_ & _ & _ & P).
  fold t in A. assert (B' : same (ev (gnorm g) (nth i' (gr g) 0) (nth j' (gz g) 0)) (Some t)).
  { revert B. destruct (ev (gnorm g) (nth i' (gr g) 0) (nth j' (gz g) 0)) as [v|]; [|intros []]. cbn [same]. intros B. rewrite B. unfold t. rewrite Hq. reflexivity. }
  exists (gf g t), (gp g t).
  destruct (node_value g i j t (gf g t) (gp g t) A (fun s => F s t) (fun s => P s t)) as (A1 & A2).
  destruct (node_value g i' j' t (gf g t) (gp g t) B' (fun s => F s t) (fun s => P s t)) as (B1 & B2).
  repeat split; assumption.
Qed.

(** Bx and Bz come from psi alone *)
Lemma poloidal_only_psi d d' o o' g g' x z : init d = (o, Ok g) -> init d' = (o', Ok g') ->
  rleft d = rleft d' -> rdim d = rdim d' -> zmid d = zmid d' -> zdim d = zdim d' -> psirz d = psirz d' ->
  gBx g x z = gBx g' x z /\ gBz g x z = gBz g' x z.
Proof.
  intros E E' H1 H2 H3 H4 H5. destruct (init_inv d o g E) as (c & m & A & B & C & _). destruct (init_inv d' o' g' E') as (c' & m' & A' & B' & C' & _). cbv zeta in *.
  rewrite H1, H2, H5 in A. rewrite H3, H4, H5 in B. rewrite A, B, H5 in C. rewrite A', B' in C'. assert (K : gpsi g = gpsi g') by congruence.
  unfold gBx, gBz. rewrite K. split; reflexivity.
Qed.

Lemma components g x z vx vz : ~ x == 0 -> ev_dx (gpsi g) x z = Some vx -> ev_dy (gpsi g) x z = Some vz ->
  same (gBx g x z) (Some (- vz / x)) /\ same (gBz g x z) (Some (vx / x)).
Proof.
  intros Hx Ex Ez. unfold gBx, gBz. rewrite Ex, Ez. cbn [option_map]. split; apply over_same; try exact Hx; cbn [same]; reflexivity.
Qed.

Lemma limiter_used d o g x z : init d = (o, Ok g) ->
  goutside g x z = match rlim d with [] => Ok false | _ => let* b := polygon_init (rlim d) (zlim d) in polygon_outside b x z end.
Proof.
  intros E. destruct (init_inv d o g E) as (c & m & _ & _ & _ & _ & _ & _ & _ & _ & _ & L). cbv zeta in L. unfold goutside.
  destruct (rlim d) as [|a t]; [now rewrite L|]. destruct L as (b & -> & ->). reflexivity.
Qed.

(** A file without a core boundary *)
Lemma no_core d o r : zbdry d = [] -> init d = (o, r) -> (exists e, r = Err e) /\ (o <> None -> r = Err ValueError).
Proof.
  intros H E. unfold geqdsk_init in E. cbn [transpose len0 len1 cell] in E. destruct (rect_spline _ _ _) as [ps|e].
  - rewrite H in E. cbn in E. injection E as <- <-. split; [eexists; reflexivity|reflexivity].
  - injection E as <- <-. split; [eexists; reflexivity|congruence].
Qed.
(** Tables of another length than the radial axis are refused *)
Lemma wrong_length d o r : (length (fpol d) <> len1 (psirz d) \/ length (pres d) <> len1 (psirz d)) -> init d = (o, r) -> exists e, r = Err e.
Proof.
  intros H E. destruct r as [g|e]; [|eexists; reflexivity]. destruct (built_sizes d o g E) as (_ & _ & A & B & _). lia.
Qed.
(** The flux has been entered before anything can go wrong after it *)
Lemma psi_entered d o g : init d = (o, Ok g) -> o = Some (gpsi g).
Proof. intros E. destruct (init_inv d o g E) as (c & m & _ & _ & _ & A & _). exact A. Qed.
(** sibdry = simagx: nothing finite in the core *)
Lemma flat d o g core i j : init d = (o, Ok g) -> polygon_init (rbdry d) (zbdry d) = Ok core -> (i < len1 (psirz d))%nat -> (j < len0 (psirz d))%nat ->
  sibdry d == simagx d -> polygon_outside core (nth i (gr g) 0) (nth j (gz g) 0) = Ok false ->
  gBy g (nth i (gr g) 0) (nth j (gz g) 0) = None /\ gpressure g (nth i (gr g) 0) (nth j (gz g) 0) = None.
Proof.
  intros E Ec Hi Hj Hd Ho. destruct (built_mask d o g core i j E Ec Hi Hj) as (b & Hb & Hs). assert (b = false) as -> by congruence.
  unfold quotient in Hs. assert (Qeq_bool (sibdry d - simagx d) 0 = true) as Q0 by (apply Qeq_bool_iff; lra). rewrite Q0 in Hs.
  unfold gBy, gpressure. revert Hs. destruct (ev (gnorm g) (nth i (gr g) 0) (nth j (gz g) 0)); [intros []|]. intros _. split; reflexivity.
Qed.
End Proofs.
