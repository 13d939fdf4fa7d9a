(** Proofs about plot_poincare and plot_3d_field_line. *)
From Coq Require Import String List ZArith QArith Qround Qfield Lia Lqa Bool.
From Verif Require Import Prelude PreludeFacts MapsModel TracerModel TracerSpec TracerProofs PoincareProofs PlotModel PlotSpec.
Import ListNotations.
Open Scope string_scope.
Open Scope list_scope.
Open Scope Q_scope.

Lemma removelast_snoc {A} (l : list A) a : removelast (l ++ [a]) = l.
Proof. rewrite removelast_app by discriminate. cbn. apply app_nil_r. Qed.
Lemma section_get r revs np sh n k idx c : shape r = revs :: np :: sh ++ [2%nat] -> (n < revs)%nat -> valid sh idx ->
  get (section r k c) (n :: idx) = get r (n :: k :: idx ++ [c]).
Proof.
  intros S Hn Hv. unfold section. rewrite S. rewrite removelast_snoc. unfold get at 1. cbn [shape data offset].
  assert (O := offset_lt sh idx Hv).
  rewrite flat_map_concat_map, (nth_concat_rows _ (nsize sh)).
  - rewrite (nth_map' _ _ n [] 0%nat) by (rewrite seq_length; exact Hn). rewrite seq_nth by exact Hn.
    rewrite (nth_map' _ _ (offset sh idx) 0 0%nat) by (rewrite seq_length; exact O). rewrite seq_nth by exact O.
    unfold get. rewrite S. cbn [offset]. rewrite offset_app by exact Hv. cbn [nsize]. rewrite !nsize_app. cbn [nsize offset]. f_equal. lia.
  - intros row Hr. apply in_map_iff in Hr. destruct Hr as (i & <- & _). now rewrite map_length, seq_length.
  - now rewrite map_length, seq_length.
  - exact O.
Qed.
Lemma section_shape r revs np sh k c : shape r = revs :: np :: sh ++ [2%nat] -> shape (section r k c) = revs :: sh.
Proof. intros S. unfold section. rewrite S, removelast_snoc. reflexivity. Qed.
Lemma section_wf r revs np sh k c : shape r = revs :: np :: sh ++ [2%nat] -> wf (section r k c).
Proof.
  intros S. unfold wf, size. rewrite (section_shape r revs np sh k c S). unfold section. rewrite S, removelast_snoc. cbn [data nsize].
  rewrite flat_map_concat_map, (concat_rows_length _ (nsize sh)).
  - now rewrite map_length, seq_length.
  - intros row Hr. apply in_map_iff in Hr. destruct Hr as (i & <- & _). now rewrite map_length, seq_length.
Qed.
Lemma mapM_all {A B} (f : A -> res B) (h : A -> B) l : (forall a, In a l -> f a = Ok (h a)) -> mapM f l = Ok (map h l).
Proof.
  induction l as [|a l IH]; intros H; cbn; [reflexivity|]. rewrite (H a) by now left. cbn. rewrite IH by (intros; apply H; now right). reflexivity.
Qed.
Lemma nth_error_combine {A B} (a : list A) (b : list B) k x y : nth_error a k = Some x -> nth_error b k = Some y -> nth_error (combine a b) k = Some (x, y).
Proof. revert b k. induction a as [|u a IH]; intros [|v b] [|k]; cbn; intros E1 E2; try discriminate; [congruence|now apply IH]. Qed.

Section Lines.
Variable odeint : list Q -> list Q -> list (list Q).
Variable limit : nat.
Hypothesis Hl : (0 < limit)%nat.
Variable flow : Q * Q -> Q -> Q -> Q * Q.
Hypothesis Hp : pointwise odeint flow.
Variables (x z : nda) (sh : list nat) (fx fz : list nat -> Q).
Hypothesis Hx : wf x.
Hypothesis Hz : wf z.
Hypothesis Hs : starts x z sh fx fz.

Lemma poincare_drawn yperiod nplot y_slices revs nover slices : choose_slices yperiod nplot y_slices = Ok slices -> (1 <= revs)%Z -> (1 <= nover)%Z ->
  (2 <= Z.to_nat revs * length slices)%nat -> (length slices <= 6)%nat -> (length sh <= 1)%nat ->
  exists lines legend, plot_poincare odeint limit true x z yperiod nplot y_slices revs nover = Ok (lines, legend) /\ length lines = length slices /\ length legend = length slices /\
    NoDup (map snd legend) /\
    forall k, (k < length slices)%nat -> exists r z col, nth_error lines k = Some (r, z, col) /\ nth_error legend k = Some (nth k slices 0, col) /\
      shape r = Z.to_nat revs :: sh /\ shape z = Z.to_nat revs :: sh /\ wf r /\ wf z /\
      forall n idx, (n < Z.to_nat revs)%nat -> valid sh idx -> exists y, y == nth k slices 0 + inject_Z (Z.of_nat n) * yperiod /\
        (get r (n :: idx), get z (n :: idx)) = flow (fx idx, fz idx) (nth 0 slices 0) y.
Proof.
  intros Hc Hr Hn H2 H6 Hd. destruct (poincare_ok odeint limit flow x z yperiod nplot y_slices revs nover slices sh fx fz Hl Hp Hx Hz Hs Hc Hr Hn H2)
    as (res & E & Sh & W & Hres).
  unfold plot_poincare. cbn [available bind]. rewrite E. cbn [bind]. unfold colours at 1. cbn [List.length].
  destruct (Nat.ltb_spec 6 (length slices)) as [K|_]; [lia|]. cbn [bind].
  set (cs := ["k"; "b"; "r"; "g"; "c"; "m"]).
  rewrite (mapM_all _ (fun i => (section res i 0, section res i 1, nth i cs ""))).
  2:{ intros i _. unfold draw. rewrite (section_shape res _ _ sh i 0 Sh). cbn [List.length]. destruct (Nat.ltb_spec 2 (S (length sh))); [lia|reflexivity]. }
  cbn [bind]. do 2 eexists. split; [reflexivity|]. split; [now rewrite map_length, seq_length|]. split; [rewrite combine_length; cbn; lia|]. split.
  - assert (Hsn : map snd (combine slices cs) = firstn (length slices) cs).
    { clear -H6. assert (G : forall (a : list Q) (b : list string), (length a <= length b)%nat -> map snd (combine a b) = firstn (length a) b).
      { induction a as [|u a IH]; intros [|v b] H; cbn in *; try reflexivity; try lia. rewrite IH by lia. reflexivity. }
      apply G. cbn. lia. }
    rewrite Hsn. assert (N : NoDup cs) by (repeat constructor; cbn; intuition discriminate).
    rewrite <- (firstn_skipn (length slices) cs) in N. revert N. generalize (firstn (length slices) cs) (skipn (length slices) cs). clear.
    intros a b. induction a as [|u a IH]; cbn; intros N; [constructor|]. apply NoDup_cons_iff in N. destruct N as [N1 N2]. constructor; [|now apply IH].
    intros K. apply N1, in_app_iff. now left.
  - intros k Hk. exists (section res k 0), (section res k 1), (nth k cs ""). split; [|split; [|split; [|split; [|split; [|split]]]]].
    + rewrite nth_error_map. rewrite nth_error_nth' with (d := 0%nat) by (rewrite seq_length; exact Hk). rewrite seq_nth by exact Hk. reflexivity.
    + apply nth_error_combine; apply nth_error_nth'; [exact Hk|cbn; lia].
    + now apply section_shape with (np := length slices).
    + now apply section_shape with (np := length slices).
    + now apply section_wf with (revs := Z.to_nat revs) (np := length slices) (sh := sh).
    + now apply section_wf with (revs := Z.to_nat revs) (np := length slices) (sh := sh).
    + intros n idx Hn' Hv. destruct (Hres n k Hn' Hk) as (y & Ey & Y). exists y. split; [exact Ey|].
      rewrite !(section_get res _ _ sh n k idx _ Sh Hn' Hv). rewrite !Y by (exact Hv || lia). cbn [component]. now destruct (flow _ _ y).
Qed.

Lemma poincare_many yperiod nplot y_slices revs nover slices : choose_slices yperiod nplot y_slices = Ok slices -> (1 <= revs)%Z -> (1 <= nover)%Z ->
  (2 <= Z.to_nat revs * length slices)%nat -> (6 < length slices)%nat -> plot_poincare odeint limit true x z yperiod nplot y_slices revs nover = Err TypeError.
Proof.
  intros Hc Hr Hn H2 H6. destruct (poincare_ok odeint limit flow x z yperiod nplot y_slices revs nover slices sh fx fz Hl Hp Hx Hz Hs Hc Hr Hn H2) as (res & E & _).
  unfold plot_poincare. cbn [available bind]. rewrite E. cbn [bind]. unfold colours at 1. cbn [List.length]. destruct (Nat.ltb_spec 6 (length slices)); [reflexivity|lia].
Qed.

Lemma poincare_grid yperiod nplot y_slices revs nover slices : choose_slices yperiod nplot y_slices = Ok slices -> (1 <= revs)%Z -> (1 <= nover)%Z ->
  (2 <= Z.to_nat revs * length slices)%nat -> (length slices <= 6)%nat -> (2 <= length sh)%nat ->
  plot_poincare odeint limit true x z yperiod nplot y_slices revs nover = Err ValueError.
Proof.
  intros Hc Hr Hn H2 H6 Hd. destruct (poincare_ok odeint limit flow x z yperiod nplot y_slices revs nover slices sh fx fz Hl Hp Hx Hz Hs Hc Hr Hn H2)
    as (res & E & Sh & _).
  unfold plot_poincare. cbn [available bind]. rewrite E. cbn [bind]. unfold colours at 1. cbn [List.length].
  destruct (Nat.ltb_spec 6 (length slices)) as [K|_]; [lia|]. cbn [bind].
  destruct (length slices) as [|n] eqn:En; [lia|]. cbn [seq mapM]. unfold draw at 1. rewrite (section_shape res _ _ sh 0 0 Sh). cbn [List.length].
  destruct (Nat.ltb_spec 2 (S (length sh))); [reflexivity|lia].
Qed.

(** ** plot_3d_field_line *)
Lemma drawn_3d yperiod cycles y_res : nsize sh = 1%nat -> (2 <= cycles * y_res)%nat -> 0 < yperiod ->
  exists lines y0, plot_3d_field_line odeint limit true x z yperiod cycles y_res = Ok lines /\ length lines = cycles /\ y0 == 0 /\
  forall c, (c < cycles)%nat -> length (nth c lines []) = y_res /\
    forall m, (m < y_res)%nat -> exists y, y == (inject_Z (Z.of_nat c) + inject_Z (Z.of_nat m) / inject_Z (Z.of_nat y_res)) * yperiod /\
      let '(a, b, h) := nth m (nth c lines []) (0, 0, 0) in
      (a, b) = flow (fx (repeat 0%nat (length sh)), fz (repeat 0%nat (length sh))) y0 y /\ h == inject_Z (Z.of_nat m) / inject_Z (Z.of_nat y_res) * yperiod.
Proof.
  intros H1 H2 Hy. unfold plot_3d_field_line. cbn [available bind]. set (n := (y_res * cycles)%nat).
  set (phi := map _ (seq 0 n)). assert (Lp : length phi = n) by (unfold phi; now rewrite map_length, seq_length).
  destruct (follow_pointwise odeint limit flow x z phi sh fx fz Hl Hp ltac:(rewrite Lp; unfold n; lia) Hx Hz Hs) as (r & E & S & W & Hr).
  rewrite E. cbn [bind]. unfold reshape.
  assert (Ld : length (data r) = (n * 2)%nat) by (unfold wf, size in W; rewrite W, S; cbn [nsize]; rewrite nsize_app, H1, Lp; cbn; lia).
  destruct (Nat.eqb_spec (nsize [cycles; y_res; 2%nat]) (length (data r))) as [_|K]; [|exfalso; apply K; rewrite Ld; unfold n; cbn; lia].
  cbn [bind data]. eexists. exists (hd 0 phi). split; [reflexivity|]. split; [now rewrite map_length, seq_length|]. split.
  { unfold phi. destruct n as [|n']; [reflexivity|]. cbn [seq map hd]. change (Z.of_nat 0) with 0%Z. ring. }
  intros c Hc. rewrite (nth_map' _ _ c [] 0%nat) by (rewrite seq_length; exact Hc). rewrite seq_nth by exact Hc. cbn [Nat.add]. split; [now rewrite map_length, seq_length|].
  intros m Hm. rewrite (nth_map' _ _ m _ 0%nat) by (rewrite seq_length; exact Hm). rewrite seq_nth by exact Hm. cbn [Nat.add]. cbv zeta.
  set (i := (c * y_res + m)%nat). assert (Hi : (i < n)%nat) by (unfold i, n; nia).
  assert (Np : nth i phi 0 = inject_Z (Z.of_nat i) * (inject_Z (Z.of_nat cycles) * yperiod / inject_Z (Z.of_nat n))).
  { unfold phi. rewrite (nth_map' _ _ i 0 0%nat) by (rewrite seq_length; exact Hi). now rewrite seq_nth by exact Hi. }
  assert (Pos : forall k : nat, (0 < k)%nat -> ~ inject_Z (Z.of_nat k) == 0).
  { intros k Hk K. unfold Qeq in K. cbn in K. lia. }
  assert (Ey : nth i phi 0 == (inject_Z (Z.of_nat c) + inject_Z (Z.of_nat m) / inject_Z (Z.of_nat y_res)) * yperiod).
  { rewrite Np. unfold i, n. rewrite Nat2Z.inj_add, !Nat2Z.inj_mul, inject_Z_plus, !inject_Z_mult. field. split; apply Pos; nia. }
  exists (nth i phi 0). split; [exact Ey|].
  assert (V : valid sh (repeat 0%nat (length sh))).
  { clear -H1. revert H1. generalize sh. intros s. induction s as [|d s IH]; cbn [nsize length repeat]; intros H1; [constructor|]. destruct (Nat.eq_mul_1 d (nsize s)) as [H _]. destruct (H H1) as [-> Hs]. constructor; [lia|exact (IH Hs)]. }
  assert (G : forall cc, (cc < 2)%nat -> nth (2 * i + cc) (data r) 0 = component cc (flow (fx (repeat 0%nat (length sh)), fz (repeat 0%nat (length sh))) (hd 0 phi) (nth i phi 0))).
  { intros cc Hcc. rewrite <- (Hr i (repeat 0%nat (length sh)) cc) by (try rewrite Lp; assumption). unfold get. rewrite S, Lp.
    rewrite offset_result by exact V. rewrite offset_zeros, H1. f_equal. lia. }
  replace (2 * i)%nat with (2 * i + 0)%nat at 1 by lia. rewrite !G by lia. cbn [component]. split; [now destruct (flow _ _ _)|].
  rewrite (nth_map' _ _ i 0 0) by (rewrite Lp; exact Hi). unfold remainder.
  assert (Fl : Qfloor (nth i phi 0 / yperiod) = Z.of_nat c).
  { rewrite (Qfloor_comp _ (inject_Z (Z.of_nat c) + inject_Z (Z.of_nat m) / inject_Z (Z.of_nat y_res))).
    - assert (F0 : 0 <= inject_Z (Z.of_nat m) / inject_Z (Z.of_nat y_res) < 1).
      { assert (0 < inject_Z (Z.of_nat y_res)) by (change 0 with (inject_Z 0); rewrite <- Zlt_Qlt; lia).
        split; [apply Qle_shift_div_l|apply Qlt_shift_div_r]; try assumption; rewrite ?Qmult_0_l, ?Qmult_1_l; [change 0 with (inject_Z 0); rewrite <- Zle_Qle; lia|rewrite <- Zlt_Qlt; lia]. }
      pose proof (Qfloor_le (inject_Z (Z.of_nat c) + inject_Z (Z.of_nat m) / inject_Z (Z.of_nat y_res))) as A.
      pose proof (Qlt_floor (inject_Z (Z.of_nat c) + inject_Z (Z.of_nat m) / inject_Z (Z.of_nat y_res))) as B.
      set (u := Qfloor _) in *. rewrite inject_Z_plus in B.
      assert (inject_Z u < inject_Z (Z.of_nat c + 1)) by (rewrite inject_Z_plus; change (inject_Z 1) with 1 in *; lra).
      assert (inject_Z (Z.of_nat c) < inject_Z (u + 1)) by (rewrite inject_Z_plus; change (inject_Z 1) with 1 in *; lra).
      rewrite <- Zlt_Qlt in *. lia.
    - rewrite Ey. field. split; [apply Pos; lia|]. intros K. rewrite K in Hy. discriminate. }
  rewrite Fl, Ey. ring.
Qed.

Lemma refused_3d yperiod cycles y_res : nsize sh <> 1%nat -> (2 <= cycles * y_res)%nat -> plot_3d_field_line odeint limit true x z yperiod cycles y_res = Err ValueError.
Proof.
  intros H1 H2. unfold plot_3d_field_line. cbn [available bind]. set (n := (y_res * cycles)%nat).
  set (phi := map _ (seq 0 n)). assert (Lp : length phi = n) by (unfold phi; now rewrite map_length, seq_length).
  destruct (follow_pointwise odeint limit flow x z phi sh fx fz Hl Hp ltac:(rewrite Lp; unfold n; lia) Hx Hz Hs) as (r & E & S & W & Hr).
  rewrite E. cbn [bind]. unfold reshape.
  assert (Ld : length (data r) = (n * (2 * nsize sh))%nat) by (unfold wf, size in W; rewrite W, S; cbn [nsize]; rewrite nsize_app, Lp; cbn; lia).
  destruct (Nat.eqb_spec (nsize [cycles; y_res; 2%nat]) (length (data r))) as [K|K]; [|reflexivity].
  exfalso. rewrite Ld in K. unfold n in K. cbn in K. nia.
Qed.
End Lines.

Section Click.
Variable odeint : list Q -> list Q -> list (list Q).
Variable limit : nat.
Hypothesis Hl : (0 < limit)%nat.
Variable flow : Q * Q -> Q -> Q -> Q * Q.
Hypothesis Hp : pointwise odeint flow.
Lemma clicked yperiod slices revs p : (1 <= revs)%Z -> (2 <= Z.to_nat revs * length slices)%nat ->
  exists l, click_trace odeint limit yperiod slices revs p = Ok l /\ length l = (Z.to_nat revs * length slices)%nat /\
  forall n k, (n < Z.to_nat revs)%nat -> (k < length slices)%nat -> exists y, y == nth k slices 0 + inject_Z (Z.of_nat n) * yperiod /\
    nth (n * length slices + k) l (0, 0) = flow p (nth 0 slices 0) y.
Proof.
  intros Hr H2. unfold click_trace. destruct (revolve_spec yperiod slices (Z.to_nat revs) ltac:(lia)) as [L N]. set (ys := revolve yperiod slices (Z.to_nat revs)) in *.
  set (x := {| shape := []; data := [fst p] |}). set (z := {| shape := []; data := [snd p] |}).
  destruct (follow_pointwise odeint limit flow x z ys [] (get x) (get z) Hl Hp ltac:(lia) eq_refl eq_refl (starts_same x z eq_refl)) as (r & E & S & W & G).
  rewrite E. cbn [bind]. eexists. split; [reflexivity|]. split; [now rewrite map_length, seq_length|].
  intros n k Hn Hk. exists (nth (n * length slices + k) ys 0). split; [rewrite (N n k Hn Hk); ring|].
  set (i := (n * length slices + k)%nat). assert (Hi : (i < length ys)%nat) by (rewrite L; unfold i; nia).
  rewrite (nth_map' _ _ i _ 0%nat) by (rewrite seq_length; exact Hi). rewrite seq_nth by exact Hi. cbn [Nat.add].
  assert (H0 : hd 0 ys = nth 0 slices 0).
  { assert (A : (0 < length slices)%nat) by nia. unfold ys, revolve.
    assert (K : forall l acc, (0 < length acc)%nat -> nth 0 (fold_left (fun acc n => acc ++ map (fun y => inject_Z (Z.of_nat n) * yperiod + y) (firstn (length slices) acc)) l acc) 0 = nth 0 acc 0).
    { induction l as [|a l IH]; intros acc Ha; [reflexivity|]. cbn [fold_left]. rewrite IH by (rewrite app_length; lia). now rewrite app_nth1 by lia. }
    rewrite <- (K (seq 1 (Z.to_nat revs - 1)) slices A). now destruct (fold_left _ _ slices). }
  rewrite <- H0. pose proof (G i [] 0%nat Hi (Forall2_nil _) ltac:(lia)) as G0. pose proof (G i [] 1%nat Hi (Forall2_nil _) ltac:(lia)) as G1.
  unfold get in G0, G1. rewrite S in G0, G1. cbn [app offset nsize Nat.mul Nat.add] in G0, G1.
  replace (i * 2 + 0)%nat with (2 * i)%nat in G0 by lia. replace (i * 2 + 1)%nat with (2 * i + 1)%nat in G1 by lia.
  cbn [x z data shape offset nth component] in G0, G1. rewrite <- surjective_pairing in G0, G1.
  etransitivity; [|symmetry; apply surjective_pairing]. f_equal; [etransitivity; [exact G0|reflexivity]|etransitivity; [exact G1|reflexivity]].
Qed.
End Click.
