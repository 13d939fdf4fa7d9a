(** Proofs about fields on demand. *)
From Coq Require Import List ZArith Reals Bool Lia Lra.
From Verif Require Import Prelude PreludeFacts TracerModel FieldModel FieldMore FieldReal CoilThms DemandModel DemandSpec.
Import ListNotations.
Open Scope R_scope.

Lemma shape_eqb_spec a b : shape_eqb a b = true <-> a = b.
Proof. unfold shape_eqb. destruct (list_eq_dec Nat.eq_dec a b); split; congruence. Qed.
Lemma shape_eqb_no a b : a <> b -> shape_eqb a b = false.
Proof. unfold shape_eqb. destruct (list_eq_dec Nat.eq_dec a b); congruence. Qed.

Definition goes (sh : list nat) (a : rarr) : Prop := full a /\ (shp a = sh \/ shp a = []).
Lemma scalar_hd a : hd 0 (ent a) = nth 0 (ent a) 0. Proof. destruct (ent a); reflexivity. Qed.
Lemma entry_same sh a i : shp a = sh -> full a -> (i < nsize sh)%nat -> entry a i = nth i (ent a) 0.
Proof. intros <- F H. unfold entry. destruct (shp a) eqn:E; [|reflexivity]. cbn [nsize] in H. now replace i with 0%nat by lia. Qed.
Lemma entry_scalar a i : shp a = [] -> entry a i = nth 0 (ent a) 0. Proof. unfold entry. now intros ->. Qed.
Lemma nth_map_lt {A B} (f : A -> B) l i d d' : (i < length l)%nat -> nth i (map f l) d = f (nth i l d').
Proof. intros H. rewrite (nth_indep _ d (f d')) by (now rewrite map_length). apply map_nth. Qed.

Lemma bcast2_ok f sh a b : goes sh a -> goes sh b -> shp a = sh \/ shp b = sh ->
  exists c, bcast2 f a b = Ok c /\ holds c sh (fun i => f (entry a i) (entry b i)).
Proof.
  intros (Fa & Sa) (Fb & Sb) H. unfold bcast2.
  destruct (shape_eqb (shp a) (shp b)) eqn:E.
  - apply shape_eqb_spec in E. assert (A : shp a = sh) by (destruct H; congruence). assert (B : shp b = sh) by congruence.
    eexists. split; [reflexivity|]. assert (La : length (ent a) = nsize sh) by (rewrite <- A; exact Fa). assert (Lb : length (ent b) = nsize sh) by (rewrite <- B; exact Fb).
    unfold holds, full. cbn [shp ent]. rewrite map_length, combine_length. split; [exact A|]. split; [rewrite A; lia|].
    intros i Hi. rewrite (nth_map_lt _ _ _ _ (0, 0)) by (rewrite combine_length; lia). rewrite combine_nth by lia. cbn [fst snd].
    now rewrite (entry_same sh a i A Fa Hi), (entry_same sh b i B Fb Hi).
  - destruct (shp b) as [|nb tb] eqn:Eb.
    + assert (A : shp a = sh) by (destruct H as [H|H]; [exact H|]; destruct Sa as [Sa|Sa]; [exact Sa|]; rewrite Sa in E; discriminate E).
      assert (La : length (ent a) = nsize sh) by (rewrite <- A; exact Fa).
      exists {| shp := shp a; ent := map (fun x => f x (hd 0 (ent b))) (ent a) |}. split; [destruct (shp a); reflexivity|].
      unfold holds, full. cbn [shp ent]. rewrite map_length. split; [exact A|]. split; [rewrite A; exact La|].
      intros i Hi. rewrite (nth_map_lt _ _ _ _ 0) by lia. now rewrite (entry_same sh a i A Fa Hi), (entry_scalar b i Eb), scalar_hd.
    + assert (B : shp b = sh) by (destruct Sb as [Sb|Sb]; congruence).
      assert (A : shp a = []) by (destruct Sa as [Sa|Sa]; [|exact Sa]; exfalso; rewrite Sa, <- B, Eb in E; rewrite (proj2 (shape_eqb_spec _ _) eq_refl) in E; discriminate E).
      assert (Lb : length (ent b) = nsize sh) by (rewrite <- B; exact Fb).
      exists {| shp := shp b; ent := map (fun y => f (hd 0 (ent a)) y) (ent b) |}. split; [rewrite A, Eb; reflexivity|].
      unfold holds, full. cbn [shp ent]. rewrite map_length. split; [exact B|]. split; [rewrite B; exact Lb|].
      intros i Hi. rewrite (nth_map_lt _ _ _ _ 0) by lia. now rewrite (entry_same sh b i B Fb Hi), (entry_scalar a i A), scalar_hd.
Qed.
Lemma holds_goes a sh f : holds a sh f -> goes sh a. Proof. intros (A & B & _). split; [exact B|left; exact A]. Qed.
Lemma holds_entry a sh f i : holds a sh f -> (i < nsize sh)%nat -> entry a i = f i.
Proof. intros (A & B & C) Hi. rewrite (entry_same sh a i A B Hi). exact (C i Hi). Qed.

(** What both kinds of getB give *)
Definition gives (getB : rarr -> rarr -> rarr -> res triple) (F : R * R * R -> R * R * R) : Prop :=
  forall sh x z phi, positions sh x z phi -> exists B, getB x z phi = Ok B /\
    holds (fst (fst B)) sh (fun i => fst (fst (F (place x z phi i)))) /\ holds (snd (fst B)) sh (fun i => snd (fst (F (place x z phi i)))) /\
    holds (snd B) sh (fun i => snd (F (place x z phi i))).

Lemma positions_goes sh x z phi : positions sh x z phi -> goes sh x /\ goes sh phi /\ (shp x = sh \/ shp phi = sh).
Proof. intros (A & B & C & D & E & G). split; [|split]; [split; [exact A|destruct E as [E|[E _]]; auto]|split; [exact C|exact G]|destruct E as [E|[_ E]]; auto]. Qed.

Lemma service_gives answer c k F : set_config c = Ok k -> evaluates answer k F -> gives (fun x z phi => calc_B answer x z phi c) F.
Proof.
  intros Ek Hs sh x z phi P. destruct (positions_goes sh x z phi P) as (Gx & Gp & Or). destruct P as (_ & Fz & _ & Sz & _).
  unfold calc_B. destruct (bcast2_ok (fun r p => r * cos p) sh x phi Gx Gp Or) as (X & EX & HX). destruct (bcast2_ok (fun r p => r * sin p) sh x phi Gx Gp Or) as (Y & EY & HY).
  rewrite EX, EY. cbn [bind]. rewrite (proj2 (shape_eqb_spec (shp X) (shp z))) by (rewrite Sz; exact (proj1 HX)). cbn [negb]. rewrite Ek. cbn [bind].
  assert (Lz : length (ent z) = nsize sh) by (rewrite <- Sz; exact Fz).
  assert (LX : length (ent X) = nsize sh) by (destruct HX as (A & B & _); rewrite <- A; exact B).
  assert (LY : length (ent Y) = nsize sh) by (destruct HY as (A & B & _); rewrite <- A; exact B).
  rewrite calc_chunk_eq. cbv beta. destruct (Hs 0%nat (ent X) (ent Y) (ent z) ltac:(lia) ltac:(lia)) as (b1 & b2 & b3 & -> & L1 & L2 & L3 & V). cbn [bind].
  rewrite Sz. replace (length b1 =? nsize sh)%nat with true by (symmetry; apply Nat.eqb_eq; lia). replace (length b2 =? nsize sh)%nat with true by (symmetry; apply Nat.eqb_eq; lia).
  replace (length b3 =? nsize sh)%nat with true by (symmetry; apply Nat.eqb_eq; lia). cbn [andb].
  eexists. split; [reflexivity|]. cbn [fst snd].
  assert (K : forall i, (i < nsize sh)%nat -> F (place x z phi i) = (nth i b1 0, nth i b2 0, nth i b3 0)).
  { intros i Hi. rewrite (V i) by lia. unfold place. rewrite (proj2 (proj2 HX) i Hi), (proj2 (proj2 HY) i Hi), (entry_same sh z i Sz Fz Hi). reflexivity. }
  unfold holds, full. cbn [shp ent]. repeat split; try lia; intros i Hi; rewrite (K i Hi); reflexivity.
Qed.
Lemma backend_gives backend F : evaluates_arrays backend F -> gives (fusionsc_B backend) F.
Proof.
  intros Hs sh x z phi P. destruct (positions_goes sh x z phi P) as (Gx & Gp & Or). destruct P as (_ & Fz & _ & Sz & _).
  unfold fusionsc_B. destruct (bcast2_ok (fun r p => cos p * r) sh x phi Gx Gp Or) as (X & EX & HX). destruct (bcast2_ok (fun r p => sin p * r) sh x phi Gx Gp Or) as (Y & EY & HY).
  rewrite EX, EY. cbn [bind].
  destruct (Hs sh X Y z (proj1 (proj2 HX)) (proj1 (proj2 HY)) Fz (proj1 HX) (proj1 HY) Sz) as (b1 & b2 & b3 & -> & S1 & S2 & S3 & F1 & F2 & F3 & V).
  eexists. split; [reflexivity|]. cbn [fst snd].
  assert (K : forall i, (i < nsize sh)%nat -> F (place x z phi i) = (nth i (ent b1) 0, nth i (ent b2) 0, nth i (ent b3) 0)).
  { intros i Hi. rewrite (V i) by lia. unfold place. rewrite (proj2 (proj2 HX) i Hi), (proj2 (proj2 HY) i Hi), (entry_same sh z i Sz Fz Hi).
    now rewrite (Rmult_comm (cos _)), (Rmult_comm (sin _)). }
  unfold holds. repeat split; try assumption; intros i Hi; rewrite (K i Hi); reflexivity.
Qed.

Lemma holds_ext a sh f g : holds a sh f -> (forall i, (i < nsize sh)%nat -> f i = g i) -> holds a sh g.
Proof. intros (A & B & C) H. split; [exact A|]. split; [exact B|]. intros i Hi. rewrite (C i Hi). exact (H i Hi). Qed.

Section Components.
Variable getB : rarr -> rarr -> rarr -> res triple.
Variable F : R * R * R -> R * R * R.
Hypothesis HG : gives getB F.

Lemma combine_parts (f g : R -> R -> R) sh B0 B1 phi b0 b1 : holds B0 sh b0 -> holds B1 sh b1 -> goes sh phi ->
  exists C, (let* a := bcast2 f B0 phi in let* b := bcast2 g B1 phi in bcast2 Rplus a b) = Ok C /\ holds C sh (fun i => f (b0 i) (entry phi i) + g (b1 i) (entry phi i)).
Proof.
  intros H0 H1 Gp. destruct (bcast2_ok f sh B0 phi (holds_goes _ _ _ H0) Gp (or_introl (proj1 H0))) as (a & -> & Ha).
  destruct (bcast2_ok g sh B1 phi (holds_goes _ _ _ H1) Gp (or_introl (proj1 H1))) as (b & -> & Hb). cbn [bind].
  destruct (bcast2_ok Rplus sh a b (holds_goes _ _ _ Ha) (holds_goes _ _ _ Hb) (or_introl (proj1 Ha))) as (c & -> & Hc).
  exists c. split; [reflexivity|]. refine (holds_ext _ _ _ _ Hc _). intros i Hi.
  now rewrite (holds_entry _ _ _ i Ha Hi), (holds_entry _ _ _ i Hb Hi), (holds_entry _ _ _ i H0 Hi), (holds_entry _ _ _ i H1 Hi).
Qed.

Lemma components_hold sh x z phi : positions sh x z phi -> exists Bx By Bz Bm,
  c_Bx getB x z phi = Ok Bx /\ c_By getB x z phi = Ok By /\ c_Bz getB x z phi = Ok Bz /\ c_Bmag getB x z phi = Ok Bm /\ c_Bxyz getB x z phi = Ok (Bx, By, Bz) /\
  holds Bx sh (fun i => Br_of (F (place x z phi i)) (entry phi i)) /\ holds By sh (fun i => Bphi_of (F (place x z phi i)) (entry phi i)) /\
  holds Bz sh (fun i => snd (F (place x z phi i))) /\
  holds Bm sh (fun i => sqrt (nth i (ent Bx) 0 ^ 2 + nth i (ent By) 0 ^ 2 + nth i (ent Bz) 0 ^ 2)).
Proof.
  intros P. destruct (HG sh x z phi P) as (B & EB & H0 & H1 & H2). destruct (positions_goes sh x z phi P) as (_ & Gp & _).
  destruct (combine_parts (fun b p => b * cos p) (fun b p => b * sin p) sh _ _ phi _ _ H0 H1 Gp) as (Bx & EX & HX).
  destruct (combine_parts (fun b p => - b * sin p) (fun b p => b * cos p) sh _ _ phi _ _ H0 H1 Gp) as (By & EY & HY).
  destruct (bcast2_ok (fun a b => a ^ 2 + b ^ 2) sh _ _ (holds_goes _ _ _ H0) (holds_goes _ _ _ H1) (or_introl (proj1 H0))) as (q & Eq & Hq).
  destruct (bcast2_ok (fun a b => a + b ^ 2) sh q _ (holds_goes _ _ _ Hq) (holds_goes _ _ _ H2) (or_introl (proj1 Hq))) as (m & Em & Hm).
  exists Bx, By, (snd B), {| shp := shp m; ent := map sqrt (ent m) |}.
  unfold c_Bx, c_By, c_Bz, c_Bmag, c_Bxyz. rewrite EB. cbn [bind]. rewrite Eq. cbn [bind]. rewrite Em. cbn [bind].
  split; [exact EX|]. split; [exact EY|]. split; [reflexivity|]. split; [reflexivity|]. split.
  { destruct (bcast2 (fun b p => b * cos p) (fst (fst B)) phi) as [a|]; cbn [bind] in *; [|discriminate EX].
    destruct (bcast2 (fun b p => b * sin p) (snd (fst B)) phi) as [b|]; cbn [bind] in *; [|discriminate EX]. rewrite EX. cbn [bind].
    destruct (bcast2 (fun b p => - b * sin p) (fst (fst B)) phi) as [a'|]; cbn [bind] in *; [|discriminate EY].
    destruct (bcast2 (fun b p => b * cos p) (snd (fst B)) phi) as [b'|]; cbn [bind] in *; [|discriminate EY]. rewrite EY. reflexivity. }
  split; [exact HX|]. split; [exact HY|]. split; [exact H2|].
  destruct Hm as (Sm & Fm & Vm). unfold holds, full in *. cbn [shp ent]. rewrite map_length. split; [exact Sm|]. split; [exact Fm|].
  intros i Hi. rewrite (nth_map_lt _ _ _ _ 0) by (rewrite Fm, Sm; exact Hi). f_equal. rewrite (Vm i Hi), (holds_entry _ _ _ i Hq Hi), (holds_entry _ _ _ i H0 Hi), (holds_entry _ _ _ i H1 Hi), (holds_entry _ _ _ i H2 Hi).
  rewrite (proj2 (proj2 HX) i Hi), (proj2 (proj2 HY) i Hi), (proj2 (proj2 H2) i Hi). unfold Br_of, Bphi_of.
  set (b := F (place x z phi i)). assert (S := sin2_cos2 (entry phi i)). unfold Rsqr in S. set (s := sin _) in *. set (c := cos _) in *.
  replace (fst (fst b) ^ 2) with (fst (fst b) ^ 2 * (s * s + c * c)) by (rewrite S; ring). replace (snd (fst b) ^ 2) with (snd (fst b) ^ 2 * (s * s + c * c)) by (rewrite S; ring). ring.
Qed.

(** Turning everything about the axis *)
Lemma turned r z phi alpha : F (turn alpha (r * cos phi, r * sin phi, z)) = turn alpha (F (r * cos phi, r * sin phi, z)) ->
  let p := (r * cos phi, r * sin phi, z) in let q := (r * cos (phi + alpha), r * sin (phi + alpha), z) in
  Br_of (F q) (phi + alpha) = Br_of (F p) phi /\ Bphi_of (F q) (phi + alpha) = Bphi_of (F p) phi /\ snd (F q) = snd (F p).
Proof.
  intros H p q. assert (Q : q = turn alpha p).
  { unfold q, p, turn. cbn [fst snd]. rewrite cos_plus, sin_plus. f_equal. f_equal; ring. }
  rewrite Q. unfold p. rewrite H. set (b := F _). unfold Br_of, Bphi_of, turn. cbn [fst snd]. rewrite cos_plus, sin_plus.
  assert (S := sin2_cos2 alpha). unfold Rsqr in S. set (s := sin alpha) in *. set (c := cos alpha) in *. repeat split.
  - replace (fst (fst b) * cos phi + snd (fst b) * sin phi) with ((fst (fst b) * cos phi + snd (fst b) * sin phi) * (s * s + c * c)) by (rewrite S; ring). ring.
  - replace (- fst (fst b) * sin phi + snd (fst b) * cos phi) with ((- fst (fst b) * sin phi + snd (fst b) * cos phi) * (s * s + c * c)) by (rewrite S; ring). ring.
Qed.
End Components.

(** ** What is refused *)
Lemma shapes_refused answer c x z phi X : bcast2 (fun r p => r * cos p) x phi = Ok X -> shp X <> shp z -> calc_B answer x z phi c = Err ValueError.
Proof.
  intros E H. unfold calc_B. rewrite E. cbn [bind].
  assert (exists Y, bcast2 (fun r p => r * sin p) x phi = Ok Y) as (Y & ->).
  { revert E. unfold bcast2. destruct (shape_eqb (shp x) (shp phi)); [eexists; reflexivity|]. destruct (shp x); destruct (shp phi); try (eexists; reflexivity). discriminate. }
  cbn [bind]. now rewrite (shape_eqb_no _ _ H).
Qed.
Lemma config_refused answer c e sh x z phi : positions sh x z phi -> set_config c = Err e -> calc_B answer x z phi c = Err e.
Proof.
  intros P E. destruct (positions_goes sh x z phi P) as (Gx & Gp & Or). destruct P as (_ & Fz & _ & Sz & _). unfold calc_B.
  destruct (bcast2_ok (fun r p => r * cos p) sh x phi Gx Gp Or) as (X & EX & HX). destruct (bcast2_ok (fun r p => r * sin p) sh x phi Gx Gp Or) as (Y & EY & HY).
  rewrite EX, EY. cbn [bind]. rewrite (proj2 (shape_eqb_spec (shp X) (shp z))) by (rewrite Sz; exact (proj1 HX)). cbn [negb]. rewrite E. reflexivity.
Qed.
(** The request that is answered is the first or the second *)
Lemma retried answer c k sh x z phi e : positions sh x z phi -> set_config c = Ok k ->
  (forall xs ys zs, answer 0%nat k xs ys zs = Err e) ->
  calc_B answer x z phi c = calc_B (fun _ => answer 1%nat) x z phi c.
Proof.
  intros P E H. destruct (positions_goes sh x z phi P) as (Gx & Gp & Or). destruct P as (_ & Fz & _ & Sz & _). unfold calc_B.
  destruct (bcast2_ok (fun r p => r * cos p) sh x phi Gx Gp Or) as (X & EX & HX). destruct (bcast2_ok (fun r p => r * sin p) sh x phi Gx Gp Or) as (Y & EY & HY).
  rewrite EX, EY. cbn [bind]. destruct (negb _); [reflexivity|]. rewrite E. cbn [bind]. rewrite !calc_chunk_eq, H. cbv beta. destruct (answer 1%nat k (ent X) (ent Y) (ent z)) as [[[b1 b2] b3]|]; reflexivity.
Qed.
(** Two answers of the wrong size *)
Lemma size_refused answer c k sh x z phi b1 b2 b3 : positions sh x z phi -> set_config c = Ok k ->
  (forall xs ys zs, answer 0%nat k xs ys zs = Ok (b1, b2, b3)) -> length b1 <> nsize sh \/ length b2 <> nsize sh \/ length b3 <> nsize sh ->
  calc_B answer x z phi c = Err ValueError.
Proof.
  intros P E H L. destruct (positions_goes sh x z phi P) as (Gx & Gp & Or). destruct P as (_ & Fz & _ & Sz & _). unfold calc_B.
  destruct (bcast2_ok (fun r p => r * cos p) sh x phi Gx Gp Or) as (X & EX & HX). destruct (bcast2_ok (fun r p => r * sin p) sh x phi Gx Gp Or) as (Y & EY & HY).
  rewrite EX, EY. cbn [bind]. rewrite (proj2 (shape_eqb_spec (shp X) (shp z))) by (rewrite Sz; exact (proj1 HX)). cbn [negb]. rewrite E. cbn [bind].
  rewrite calc_chunk_eq, H. cbv beta. cbn [bind]. rewrite Sz. destruct (Nat.eqb_spec (length b1) (nsize sh)); [|reflexivity]. destruct (Nat.eqb_spec (length b2) (nsize sh)); [|reflexivity].
  destruct (Nat.eqb_spec (length b3) (nsize sh)); [lia|reflexivity].
Qed.

(** ** The mesh *)
Lemma flat_map_nth {A} (f : A -> list R) l m i j d : (forall a, In a l -> length (f a) = m) -> (i < length l)%nat -> (j < m)%nat ->
  nth (i * m + j) (flat_map f l) 0 = nth j (f (nth i l d)) 0.
Proof.
  revert i. induction l as [|a l IH]; intros i H Hi Hj; [cbn in Hi; lia|]. cbn [flat_map]. destruct i as [|i].
  - cbn [Nat.mul Nat.add nth]. rewrite app_nth1; [reflexivity|]. rewrite (H a (or_introl eq_refl)). exact Hj.
  - rewrite app_nth2; rewrite (H a (or_introl eq_refl)); [|lia]. replace (S i * m + j - m)%nat with (i * m + j)%nat by lia. cbn [nth length] in *.
    apply IH; [intros b Hb; apply H; right; exact Hb|lia|exact Hj].
Qed.
Lemma flat_map_len {A} (f : A -> list R) l m : (forall a, In a l -> length (f a) = m) -> length (flat_map f l) = (length l * m)%nat.
Proof. induction l as [|a l IH]; intros H; [reflexivity|]. cbn [flat_map length]. rewrite app_length, (H a (or_introl eq_refl)), IH; [lia|]. intros b Hb. apply H. now right. Qed.
Lemma mesh_nth (f : R -> R -> list R) r phi (z : list R) i j k : (forall a p, length (f a p) = length z) -> (i < length r)%nat -> (j < length phi)%nat -> (k < length z)%nat ->
  length (flat_map (fun a => flat_map (f a) phi) r) = (length r * (length phi * length z))%nat /\
  nth ((i * length phi + j) * length z + k) (flat_map (fun a => flat_map (f a) phi) r) 0 = nth k (f (nth i r 0) (nth j phi 0)) 0.
Proof.
  intros H Hi Hj Hk. assert (L : forall a, length (flat_map (f a) phi) = (length phi * length z)%nat) by (intros a; apply flat_map_len; intros; apply H).
  split; [apply flat_map_len; intros; apply L|].
  replace ((i * length phi + j) * length z + k)%nat with (i * (length phi * length z) + (j * length z + k))%nat by ring.
  rewrite (flat_map_nth _ r (length phi * length z) i _ 0) by (auto; nia). apply flat_map_nth; auto.
Qed.
Lemma mesh_positions r phi z : positions [length r; length phi; length z] (mesh_r r phi z) (mesh_z r phi z) (mesh_phi r phi z).
Proof.
  unfold positions, full, mesh_r, mesh_z, mesh_phi. cbn [shp ent nsize].
  assert (G : forall f : R -> R -> list R, (forall a p, length (f a p) = length z) -> length (flat_map (fun a => flat_map (f a) phi) r) = (length r * (length phi * (length z * 1)))%nat).
  { intros f H. rewrite (flat_map_len _ r (length phi * length z)); [f_equal; f_equal; lia|]. intros a _. apply flat_map_len. intros; apply H. }
  split; [|split; [|split; [|repeat split; auto]]].
  - apply (G (fun a _ => map (fun _ => a) z)). intros. apply map_length.
  - apply (G (fun _ _ => z)). reflexivity.
  - apply (G (fun _ p => map (fun _ => p) z)). intros. apply map_length.
Qed.
Lemma mesh_place r phi z i j k : (i < length r)%nat -> (j < length phi)%nat -> (k < length z)%nat ->
  let n := ((i * length phi + j) * length z + k)%nat in
  place (mesh_r r phi z) (mesh_z r phi z) (mesh_phi r phi z) n = (nth i r 0 * cos (nth j phi 0), nth i r 0 * sin (nth j phi 0), nth k z 0) /\
  entry (mesh_phi r phi z) n = nth j phi 0 /\ (n < nsize [length r; length phi; length z])%nat.
Proof.
  intros Hi Hj Hk n.
  destruct (mesh_nth (fun a _ => map (fun _ => a) z) r phi z i j k (fun a p => map_length _ _) Hi Hj Hk) as (_ & A).
  destruct (mesh_nth (fun _ p => map (fun _ => p) z) r phi z i j k (fun a p => map_length _ _) Hi Hj Hk) as (_ & B).
  destruct (mesh_nth (fun _ _ => z) r phi z i j k (fun a p => eq_refl) Hi Hj Hk) as (_ & C). fold n in A, B, C.
  assert (E1 : entry (mesh_r r phi z) n = nth i r 0) by (unfold entry, mesh_r; cbn [shp ent]; rewrite A; now rewrite (nth_map_lt _ _ _ _ 0) by exact Hk).
  assert (E2 : entry (mesh_phi r phi z) n = nth j phi 0) by (unfold entry, mesh_phi; cbn [shp ent]; rewrite B; now rewrite (nth_map_lt _ _ _ _ 0) by exact Hk).
  assert (E3 : entry (mesh_z r phi z) n = nth k z 0) by (unfold entry, mesh_z; cbn [shp ent]; exact C).
  unfold place. rewrite E1, E2, E3. repeat split. cbn [nsize]. unfold n.
  set (q := (i * length phi + j)%nat). assert (Q : (q + 1 <= length r * length phi)%nat) by (unfold q; nia). rewrite Nat.mul_1_r, Nat.mul_assoc.
  apply (Nat.mul_le_mono_r _ _ (length z)) in Q. lia.
Qed.

Lemma pressure_zero x z phi i : shp (c_pressure x z phi) = shp x /\ length (ent (c_pressure x z phi)) = length (ent x) /\ nth i (ent (c_pressure x z phi)) 0 = 0.
Proof.
  unfold c_pressure. cbn [shp ent]. rewrite map_length. repeat split. destruct (Nat.lt_ge_cases i (length (ent x))) as [H|H].
  - now rewrite (nth_map_lt _ _ _ _ 0) by exact H.
  - apply nth_overflow. now rewrite map_length.
Qed.
Lemma samples_hold answer c k F r phi z : set_config c = Ok k -> evaluates answer k F -> exists Br Bphi Bz,
  c_Bxyz (fun x z phi => calc_B answer x z phi c) (mesh_r r phi z) (mesh_z r phi z) (mesh_phi r phi z) = Ok (Br, Bphi, Bz) /\
  shp Br = [length r; length phi; length z] /\ shp Bphi = [length r; length phi; length z] /\ shp Bz = [length r; length phi; length z] /\
  forall i j l, (i < length r)%nat -> (j < length phi)%nat -> (l < length z)%nat ->
    let n := ((i * length phi + j) * length z + l)%nat in let p := nth j phi 0 in
    let b := F (nth i r 0 * cos p, nth i r 0 * sin p, nth l z 0) in
    nth n (ent Br) 0 = fst (fst b) * cos p + snd (fst b) * sin p /\ nth n (ent Bphi) 0 = - fst (fst b) * sin p + snd (fst b) * cos p /\ nth n (ent Bz) 0 = snd b.
Proof.
  intros E H. destruct (components_hold _ F (service_gives answer c k F E H) _ _ _ _ (mesh_positions r phi z)) as (Bx & By & Bz & Bm & _ & _ & _ & _ & E5 & HX & HY & HZ & _).
  exists Bx, By, Bz. split; [exact E5|]. split; [exact (proj1 HX)|]. split; [exact (proj1 HY)|]. split; [exact (proj1 HZ)|].
  intros i j l Hi Hj Hl n p b. destruct (mesh_place r phi z i j l Hi Hj Hl) as (P1 & P2 & P3). fold n in P1, P2, P3.
  rewrite (proj2 (proj2 HX) n P3), (proj2 (proj2 HY) n P3), (proj2 (proj2 HZ) n P3), P1, P2. repeat split.
Qed.
(** the height as a scalar beside arrays, or arrays of heights only *)
Lemma scalar_height answer c sh x z phi : full x -> full phi -> shp x = sh -> shp phi = sh \/ shp phi = [] -> shp z = [] -> sh <> [] -> calc_B answer x z phi c = Err ValueError.
Proof.
  intros Fx Fp Sx Sp Sz N. destruct (bcast2_ok (fun r p => r * cos p) sh x phi (conj Fx (or_introl Sx)) (conj Fp Sp) (or_introl Sx)) as (X & EX & HX).
  apply (shapes_refused _ _ _ _ _ X EX). rewrite Sz, (proj1 HX). exact N.
Qed.
Lemma only_heights answer c x z phi : shp x = [] -> shp phi = [] -> shp z <> [] -> calc_B answer x z phi c = Err ValueError.
Proof.
  intros Sx Sp Sz. destruct (bcast2 (fun r p => r * cos p) x phi) as [X|] eqn:EX; unfold bcast2 in EX; rewrite Sx, Sp in EX; cbn in EX; [|discriminate EX].
  apply (shapes_refused _ _ _ _ _ X); [unfold bcast2; rewrite Sx, Sp; exact EX|]. injection EX as <-. cbn [shp]. congruence.
Qed.

(** ** A service for the examples: the field of a straight wire along the axis plus a constant, by the second request *)
Definition w_F (p : R * R * R) : R * R * R := (- snd (fst p), fst (fst p), 2).
Definition w_answer (n : nat) (k : config) (xs ys zs : list R) : res (list R * list R * list R) :=
  match n with O => Err RuntimeError | _ => Ok (map Ropp ys, xs, map (fun _ => 2) zs) end.
Lemma w_evaluates k : evaluates (fun _ => w_answer 1) k w_F.
Proof.
  intros n xs ys zs L1 L2. exists (map Ropp ys), xs, (map (fun _ => 2) zs). split; [reflexivity|]. rewrite !map_length. repeat split; try assumption.
  intros i Hi. unfold w_F. cbn [fst snd]. rewrite !(nth_map_lt _ _ _ _ 0) by lia. reflexivity.
Qed.
Definition w_backend (X Y W : rarr) : res triple := Ok ({| shp := shp Y; ent := map Ropp (ent Y) |}, X, {| shp := shp W; ent := map (fun _ => 2) (ent W) |}).
Lemma w_backend_ok : evaluates_arrays w_backend w_F.
Proof.
  intros sh X Y W FX FY FW SX SY SW. eexists _, _, _. split; [reflexivity|]. unfold full in *. cbn [shp ent]. rewrite !map_length, SX, SY, SW in *. repeat split; try assumption.
  intros i Hi. unfold w_F. cbn [fst snd]. rewrite !(nth_map_lt _ _ _ _ 0) by lia. reflexivity.
Qed.
Lemma w_turn alpha p : w_F (turn alpha p) = turn alpha (w_F p).
Proof. unfold w_F, turn. cbn [fst snd]. f_equal. f_equal; ring. Qed.
Definition w_x : rarr := {| shp := [2%nat]; ent := [3; 5] |}.
Definition w_z : rarr := {| shp := [2%nat]; ent := [0; 1] |}.
Definition w_phi : rarr := {| shp := []; ent := [PI] |}.
Lemma w_positions : positions [2%nat] w_x w_z w_phi.
Proof. unfold positions, full. cbn. repeat split; auto. Qed.
