(** Concrete tracers and counterexamples for C45 to C51. *)
From Coq Require Import String List ZArith QArith Qfield Lia Lqa Bool.
From Verif Require Import Prelude PreludeFacts TracerModel TracerSpec TracerProofs PoincareProofs CacheProofs RevModel RevSpec RevProofs RevFollow EmcModel EmcProofs.
Import ListNotations.
Open Scope Q_scope.

(** a sheared slab: x stays, z advances with slope x *)
Definition w_flow (p : Q * Q) (y0 y : Q) : Q * Q := (fst p, snd p + fst p * (y - y0)).
Fixpoint unflat (l : list Q) : list (Q * Q) := match l with a :: b :: t => (a, b) :: unflat t | _ => [] end.
Definition w_odeint (pos ys : list Q) : list (list Q) := map (fun y => flat_points (map (fun p => w_flow p (hd 0 ys) y) (unflat pos))) ys.
Lemma unflat_flat ps : unflat (flat_points ps) = ps.
Proof. induction ps as [|[a b] ps IH]; [reflexivity|]. change (flat_points ((a, b) :: ps)) with (a :: b :: flat_points ps). cbn [unflat]. now rewrite IH. Qed.
Lemma w_pointwise : pointwise w_odeint w_flow.
Proof. intros ps ys. unfold w_odeint. now rewrite unflat_flat. Qed.
(** lines without memory of neighbours but rectangular for any position list of even length *)
Definition arr (sh : list nat) (l : list Q) : nda := {| shape := sh; data := l |}.
Definition checkQ (a b : list Q) : bool := (length a =? length b)%nat && forallb (fun p => Qeq_bool (fst p) (snd p)) (combine a b).

(** ** C45: a single number given as a [1, 1] array, with a one-dimensional x *)
Lemma w_extra_dims limit odeint : wf (arr [3%nat] [1; 2; 3]) /\ wf (arr [1%nat; 1%nat] [5]) /\ size (arr [1%nat; 1%nat] [5]) = 1%nat /\
  follow odeint limit (arr [3%nat] [1; 2; 3]) (arr [1%nat; 1%nat] [5]) [0; 1] = Err ValueError.
Proof. repeat split. Qed.

(** ** C46 *)
Definition w_dir (x z y : Q) : Q * Q := (0, x).
Definition w_F : affine := {| A11 := fun _ => 0; A12 := fun _ => 0; A21 := fun _ => 1; A22 := fun _ => 0; C1 := fun _ => 0; C2 := fun _ => 0 |}.
Lemma w_affine : is_affine w_F w_dir.
Proof. intros x z y. cbn. split; ring. Qed.
Lemma w_affine_ok : affine_ok w_F.
Proof. repeat split; intros a b _; reflexivity. Qed.
Lemma w_solvable n ys : solvable w_F n ys.
Proof.
  induction ys as [|a [|b t] IH]; cbn [solvable]; auto. split; [|exact IH]. intros y. unfold step_det. cbn [A11 A12 A21 A22 w_F]. split; intros C;
  match type of C with ?u == 0 => assert (u == 1) by ring end; lra.
Qed.
Definition w_store : store := fun l => match l with Caller 0 => [1; 2] | Caller 1 => [5; 5] | _ => [] end.
Lemma w_mutated : exists s' rows, rev_follow w_dir (1 # 100000000) (1 # 100000) 2 4 w_store (Ref 0 [2%nat]) (Ref 1 [2%nat]) [0; 1; 3] = Some (Ok (s', rows)) /\
  s' (Caller 1) <> w_store (Caller 1) /\ s' (Caller 1) = [8; 11].
Proof. eexists. eexists. split; [vm_compute; reflexivity|]. split; [discriminate|reflexivity]. Qed.
(** only x is a single number: z is still overwritten *)
Lemma w_mutated_scalar : exists s' rows, rev_follow w_dir (1 # 100000000) (1 # 100000) 2 4 w_store (Fresh (arr [1%nat] [2])) (Ref 1 [2%nat]) [0; 1] = Some (Ok (s', rows)) /\
  s' (Caller 1) = [7; 7].
Proof. eexists. eexists. split; [vm_compute; reflexivity|reflexivity]. Qed.
(** x and z the same array object: the iteration alternates between 1 and 2 *)
Lemma w_alias_loop fuel : forall s hs, (s (Caller 0) = [1] \/ s (Caller 0) = [2]) -> hs = [(2 # 2, 3 # 2)] ->
  newton w_dir (1 # 100000000) (1 # 100000) fuel s (Caller 0) (Caller 0) 1 1 hs = None.
Proof.
  induction fuel as [|fuel IH]; intros s hs H ->; [reflexivity|]. cbn [newton].
  destruct H as [H|H]; rewrite H.
  - match goal with |- context [all_some ?l] => let v := eval vm_compute in (all_some l) in assert (E : all_some l = v) by (vm_compute; reflexivity); rewrite E; clear E end.
    match goal with |- context [forallb ?f ?l] => assert (E : forallb f l = false) by (vm_compute; reflexivity); rewrite E; clear E end.
    apply IH; [|reflexivity]. right. rewrite upd_same, upd_same. vm_compute. reflexivity.
  - match goal with |- context [all_some ?l] => let v := eval vm_compute in (all_some l) in assert (E : all_some l = v) by (vm_compute; reflexivity); rewrite E; clear E end.
    match goal with |- context [forallb ?f ?l] => assert (E : forallb f l = false) by (vm_compute; reflexivity); rewrite E; clear E end.
    apply IH; [|reflexivity]. left. rewrite upd_same, upd_same. vm_compute. reflexivity.
Qed.
Lemma w_alias fuel : rev_follow w_dir (1 # 100000000) (1 # 100000) fuel 1 (fun _ => [1]) (Ref 0 [1%nat]) (Ref 0 [1%nat]) [0; 1] = None.
Proof.
  unfold rev_follow. cbn [arg_nda]. cbn -[newton Qred]. unfold substep. rewrite w_alias_loop; [reflexivity| |].
  - right. rewrite !upd_same. vm_compute. reflexivity.
  - vm_compute. reflexivity.
Qed.

(** ** C47: a field with a singular step: dx/dy = 2 x, one step of size 1 *)
Definition w_grow (x z y : Q) : Q * Q := (2 * x, 0).
Lemma newton_none dir rtol eps fuel s lx lz y dy hs h p : In (h, p) (combine hs (combine (s lx) (s lz))) -> newton_delta dir eps y dy h p = None ->
  newton dir rtol eps fuel s lx lz y dy hs = None.
Proof.
  intros H E. destruct fuel as [|fuel]; [reflexivity|]. cbn [newton].
  assert (A : forall (l : list ((Q * Q) * (Q * Q))), In (h, p) l -> all_some (map (fun hp => newton_delta dir eps y dy (fst hp) (snd hp)) l) = None).
  { induction l as [|q l IH]; intros Hin; [destruct Hin|]. cbn [map all_some]. destruct Hin as [->|Hin]; [cbn [fst snd]; now rewrite E|]. destruct (newton_delta dir eps y dy (fst q) (snd q)); [|reflexivity]. now rewrite (IH Hin). }
  now rewrite (A _ H).
Qed.
Lemma w_singular fuel : rev_follow w_grow (1 # 100000000) (1 # 100000) fuel 1 w_store (Fresh (arr [1%nat] [1])) (Fresh (arr [1%nat] [0])) [0; 1] = None.
Proof.
  unfold rev_follow. cbn [arg_nda match_shapes]. cbn. change (substep w_grow (1 # 100000000) (1 # 100000) fuel TmpX TmpZ 0 (Qred ((1 - 0) / inject_Z 1)) (upd (upd w_store TmpX [1]) TmpZ [0])) with
    (substep w_grow (1 # 100000000) (1 # 100000) fuel TmpX TmpZ 0 1 (upd (upd w_store TmpX [1]) TmpZ [0])).
  unfold substep. erewrite newton_none; [reflexivity|left; reflexivity|vm_compute; reflexivity].
Qed.

(** ** C50 *)
Open Scope string_scope.
Definition w_call (x z : Q) : nda * nda * list Q := ((arr [1%nat] [x], arr [1%nat] [z]), [0; 1]).
Lemma w_hit str digest t t' fs x z ys x' z' ys' r : t x z ys = Ok r -> find_file (key str digest x z ys) fs = None -> key str digest x z ys = key str digest x' z' ys' ->
  fst (cached_follow str digest t' (snd (cached_follow str digest t fs x z ys)) x' z' ys') = reshape (guess_shape x' ys') (data r).
Proof. intros E N K. unfold cached_follow. rewrite N, E. cbn [snd fst find_file]. rewrite <- K. now rewrite String.eqb_refl. Qed.
Lemma w_collision str digest : str 1 = "1.0" -> str 12 = "12.0" -> str (101 # 100) = "1.01" -> str 2 = "2.0" ->
  run_calls str digest (follow w_odeint 1000) [] [w_call 1 12; w_call (101 # 100) 2] <> map (ask (follow w_odeint 1000)) [w_call 1 12; w_call (101 # 100) 2].
Proof.
  intros S1 S12 S101 S2.
  assert (K : key str digest (arr [1%nat] [1]) (arr [1%nat] [12]) [0; 1] = key str digest (arr [1%nat] [101 # 100]) (arr [1%nat] [2]) [0; 1]).
  { unfold key, join. cbn [arr data map String.concat]. rewrite S1, S12, S101, S2. reflexivity. }
  assert (F1 : exists r, follow w_odeint 1000 (arr [1%nat] [1]) (arr [1%nat] [12]) [0; 1] = Ok r /\ data r = [1; 12 + 1 * (0 - 0); 1; 12 + 1 * (1 - 0)]) by (eexists; split; reflexivity).
  destruct F1 as (r & F1 & D). pose proof (w_hit str digest (follow w_odeint 1000) (follow w_odeint 1000) [] _ _ _ _ _ _ r F1 eq_refl K) as Hit. rewrite D in Hit.
  intros C. apply (f_equal (fun l => nth 1 l (Err OtherError))) in C. cbn [run_calls w_call fst snd nth map] in C. rewrite Hit in C.
  apply (f_equal (fun r => match r with Ok a => nth 0 (data a) 0 | Err _ => 0 end)) in C. vm_compute in C. discriminate.
Qed.
(** the wrapped tracer is not part of the file name *)
Lemma w_shared str digest t1 t2 x z ys r fs : t1 x z ys = Ok r -> find_file (key str digest x z ys) fs = None ->
  fst (cached_follow str digest t2 (snd (cached_follow str digest t1 fs x z ys)) x z ys) = reshape (guess_shape x ys) (data r).
Proof. intros E N. exact (w_hit str digest t1 t2 fs x z ys x z ys r E N eq_refl). Qed.
(** one number as x and several as z *)
Lemma w_scalar str digest : let x := arr [1%nat] [1] in let z := arr [2%nat] [5; 6] in
  is_ok (follow w_odeint 1000 x z [0; 1]) = true /\
  run_calls str digest (follow w_odeint 1000) [] [(x, z, [0; 1]); (x, z, [0; 1])] = [Err AssertionError; Err ValueError].
Proof. cbv zeta. split; [reflexivity|]. cbn [run_calls]. unfold cached_follow at 1 2. cbn [find_file fst snd].
  unfold cached_follow. cbn. rewrite String.eqb_refl. reflexivity.
Qed.

(** ** C51: meshes that widen with the angle, rz = (1 + phi) ab; period [0, 1] *)
Close Scope string_scope.
Definition w_place (phi : Q) (c : Q * Q) : Q * Q := ((1 + phi) * fst c, (1 + phi) * snd c).
Definition w_locate (phi : Q) (p : Q * Q) : res (Q * Q) := Ok (fst p / (1 + phi), snd p / (1 + phi)).
(** from 0 to 3/2: once across the end of the period, where the radius has doubled *)
Definition w_after (rz : Q * Q) : res (Q * Q) :=
  let* c := w_locate 0 rz in let* c' := w_locate 0 (w_place 1 c) in Ok (w_place (1 # 2) c').
Lemma w_discards : wrap_phi 5 0 1 0 = Some (0, 0%Z) /\ wrap_phi 5 0 1 (3 # 2) = Some (1 # 2, (-1)%Z) /\
  exists p q, w_after (1, 0) = Ok p /\ follow_point (Q * Q) w_locate w_place 0 1 [(0, 0%Z); (1 # 2, (-1)%Z)] (1, 0) = Ok [(1, 0); q] /\
    fst p == 3 /\ fst q == 3 # 2.
Proof. split; [reflexivity|]. split; [reflexivity|]. eexists. eexists. split; [reflexivity|]. split; [reflexivity|]. split; reflexivity. Qed.
(** the crossing itself runs from the wrong end: perBC < 0 means the line has left
    through pmax, but the code maps from the mesh at pmin to the mesh at pmax *)
Lemma w_direction locate place pmin pmax (c : Q * Q) : cross (Q * Q) locate place pmin pmax (0 <? -1)%Z c = locate pmax (place pmin c).
Proof. reflexivity. Qed.
