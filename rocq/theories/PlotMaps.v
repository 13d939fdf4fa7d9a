(** The plots of the maps of make_maps. *)
From Coq Require Import String List ZArith QArith Qround Lia Lqa Bool.
From Verif Require Import Prelude PreludeFacts NamingModel NamingSpec GridModel GridSpec GridProofs MapsModel MapsSpec MapsMain PlotModel PlotSpec PlotProofs.
Import ListNotations.
Open Scope Q_scope.

Lemma shows_ext s nx nz R R' Zc Zc' c c' : (forall x z, R x z = R' x z) -> (forall x z, Zc x z = Zc' x z) -> (forall x z, c x z <-> c' x z) ->
  shows s nx nz R Zc c -> shows s nx nz R' Zc' c'.
Proof.
  intros H1 H2 H3 (cells & N & Hc & E). exists cells. split; [exact N|]. split; [|rewrite E; apply map_ext; intros [x z]; cbn; now rewrite H1, H2].
  intros x z. rewrite Hc, H3. tauto.
Qed.

Section MakeMaps.
Variable repr : Q -> string.
Context {G : Type}.
Variable pR pZ : G -> arr2.
Variable pnx pnz : G -> nat.
Variable findIndex : G -> arr2 -> arr2 -> arr2 * arr2.
Variable trace : arr2 -> arr2 -> list Q -> list (arr2 * arr2).
Variable outside : arr2 -> Q -> arr2 -> Z -> Z -> bool.
Variable Byfunc : Q -> Q -> Q -> Q.
Variable roots_jacobi : nat -> list Q * list Q.
Variable fll : list (Q * Q) -> list Q -> Q.
Variable Jperp : G -> Z -> Z -> Q.
Variable is_slab : bool.
Variable flow : arr2 -> arr2 -> Q -> Q -> arr2 * arr2.
Variable t1 : Q -> Q -> list Q -> list (Q * Q).
Hypothesis Hflow : follows trace flow.
Hypothesis Ht : pointwise trace t1.
Hypothesis Hroots : forall n, length (fst (roots_jacobi n)) = n.
Variable g : grid G.
Hypothesis Wg : well_formed g.
Variables (nslice mxg spd : Z) (refine : nat).
Hypothesis Hns : (1 <= nslice)%Z.
Hypothesis Hspd : (1 <= spd)%Z.
Hypothesis Hacc : weights_accepted roots_jacobi spd = true.
Hypothesis Href : (1 <= refine)%nat.
Notation run := (make_maps repr G pR pZ pnx pnz findIndex trace outside Byfunc roots_jacobi fll Jperp is_slab g nslice mxg spd refine).

Lemma stored_name d f forward a : In f ["R"; "Z"; "xt_prime"]%string -> stored repr d f (OInt (step forward)) a -> d (prefix forward ++ ("_" ++ f))%string = Some (VArr a).
Proof.
  intros Hf (n & E & H). cbn in Hf.
  repeat destruct Hf as [<-|Hf]; try contradiction; destruct forward; cbv in E; injection E as <-; exact H.
Qed.

Lemma plotted n_chunks junk d forward y p0 rest pol yj p yn : n_chunks <> 0%nat -> run n_chunks junk = Ok d -> (0 <= y < ny g)%Z ->
  poloidal_grids g = p0 :: rest -> getPoloidalGrid g (inject_Z y) = Ok (Some pol, yj) -> getPoloidalGrid g (inject_Z (y + step forward)) = Ok (Some p, yn) ->
  let c := flow (pR pol) (pZ pol) yj yn in let xi := fst (findIndex p (fst c) (snd c)) in
  exists yb s1 s2 s3 s4, y_of g y (OInt (nslice * step forward)) yb /\ plot_map G pR pZ pnx pnz true forward g d y = Ok [s1; s2; s3; s4] /\
    shows s1 (pnx p) (pnz p) (pR p) (pZ p) (fun _ _ => True) /\ shows s2 (pnx p0) (pnz p0) (fst c) (snd c) (fun _ _ => True) /\
    shows s3 (pnx p0) (pnz p0) (fst c) (snd c) (fun x z => outside (fst c) yb (snd c) x z = true \/ xi x z < 0) /\
    shows s4 (pnx p0) (pnz p0) (fst c) (snd c) (fun x z => outside (fst c) yb (snd c) x z = false /\ inject_Z (Z.of_nat (pnx p0)) - (1 # 2) < xi x z) /\
    label s3 = "Inner boundary points"%string /\ label s4 = "Outer boundary points"%string.
Proof.
  intros Hn Hd Hy H0 Hj Hp c xi.
  destruct (end_points repr pR pZ pnx pnz findIndex trace outside Byfunc roots_jacobi fll Jperp is_slab flow t1 Hflow Ht Hroots g Wg nslice mxg spd refine
    ltac:(lia) Hspd Hacc Href n_chunks junk d (step forward) y Hn Hd ltac:(destruct forward; discriminate) ltac:(destruct forward; cbn; lia) Hy)
    as (yb & Hyb & pol' & yj' & po & yo & aR & aZ & ax & az & E1 & E2 & SR & SZ & Sx & Sz & Hall).
  rewrite Hj in E1. injection E1 as <- <-. cbn [offset_value] in E2.
  assert (E2' : getPoloidalGrid g (inject_Z (y + step forward)) = Ok (po, yo)) by (rewrite <- E2; unfold getPoloidalGrid; rewrite !(rec_int _ _ _ (y + step forward)%Z) by (try exact (ny_pos g Wg); rewrite ?inject_Z_plus; reflexivity); reflexivity).
  rewrite Hp in E2'. injection E2' as <- <-. fold c in Hall.
  destruct (map_shown pR pZ pnx pnz forward g d y p yn aR aZ ax p0 rest Wg ltac:(lia) H0 Hp (stored_name d "R" forward aR ltac:(cbn; tauto) SR)
    (stored_name d "Z" forward aZ ltac:(cbn; tauto) SZ) (stored_name d "xt_prime" forward ax ltac:(cbn; tauto) Sx))
    as (s1 & s2 & s3 & s4 & E & A1 & A2 & A3 & A4 & _ & _ & _ & _ & _ & _ & _ & _ & L3 & L4).
  rewrite Z.mod_small in A2, A3, A4 by exact Hy.
  exists yb, s1, s2, s3, s4. split; [replace (step forward) with (Z.sgn (step forward)) by (destruct forward; reflexivity); exact Hyb|].
  split; [exact E|]. split; [exact A1|].
  assert (HR : forall x z, aR x y z 0%Z = fst c x z) by (intros; apply Hall). assert (HZ : forall x z, aZ x y z 0%Z = snd c x z) by (intros; apply Hall).
  assert (Hx : forall x z, ax x y z 0%Z = if outside (fst c) yb (snd c) x z then -(1) else xi x z) by (intros; apply Hall).
  split; [|split; [|split; [|split; assumption]]].
  - revert A2. apply shows_ext; [exact HR|exact HZ|tauto].
  - revert A3. apply shows_ext; [exact HR|exact HZ|]. intros x z. rewrite Hx. destruct (outside (fst c) yb (snd c) x z); split; intros K; try tauto; try lra.

  - revert A4. apply shows_ext; [exact HR|exact HZ|]. intros x z. rewrite Hx. destruct (outside (fst c) yb (snd c) x z); split; intros K; try tauto.
    + exfalso. assert (0 <= inject_Z (Z.of_nat (pnx p0))) by (change 0 with (inject_Z 0); rewrite <- Zle_Qle; lia). lra.
    + now destruct K.
Qed.
End MakeMaps.
