(** Properties C80 to C82. *)
From Coq Require Import List Reals Lia Lra.
From Verif Require Import Prelude ShapeModel ShapeSpec ShapeProofs ShapeMore SpectralProofs SpectralFit.
Import ListNotations.
Open Scope R_scope.

(** C80: circle gives the points of the circle, in order, from every radius but zero and
    three or more points, *)
Theorem C80_circle R0 r n : (3 <= n)%nat -> r <> 0 ->
  exists l, circle R0 r n = Ok l /\ length l = n /\
  forall k, (k < n)%nat -> nth k l (0, 0) = (R0 + r * cos (2 * PI * INR k / INR n), r * sin (2 * PI * INR k / INR n)).
Proof.
  intros Hn Hr. eexists. split; [exact (circle_ok R0 r n Hn Hr)|]. split; [rewrite map_length; exact (thetas_length n)|].
  intros k Hk. rewrite nth_points by exact Hk. replace (INR k * (2 * PI / INR n)) with (2 * PI * INR k / INR n) by (unfold Rdiv; ring). reflexivity.
Qed.
Print Assumptions C80_circle.
Theorem C80_circle_fails R0 r n : (n <= 2)%nat \/ r = 0 -> circle R0 r n = Err AssertionError.
Proof. exact (circle_bad R0 r n). Qed.
Print Assumptions C80_circle_fails.
Theorem C80_circle_radius R0 r n l : circle R0 r n = Ok l -> forall p, In p l -> (fst p - R0) ^ 2 + snd p ^ 2 = r ^ 2.
Proof. exact (circle_on R0 r n l). Qed.
Print Assumptions C80_circle_radius.
(** shaped_line the points of its formula wherever the radius decreases from the
    outboard to the inboard side, *)
Theorem C80_shaped R0 a elong triang indent n :
  let Rt t := R0 - indent + (a + indent * cos t) * cos (t + triang * sin t) in
  let Zt t := (1 + elong) * a * sin t in
  (3 <= n)%nat -> 0 < (1 + elong) * a -> (forall s t, 0 <= s -> s < t -> t <= PI -> Rt t < Rt s) ->
  exists l, shaped_line R0 a elong triang indent n = Ok l /\ length l = n /\
  forall k, (k < n)%nat -> nth k l (0, 0) = (Rt (2 * PI * INR k / INR n), Zt (2 * PI * INR k / INR n)).
Proof.
  intros Rt Zt Hn He Hd. eexists. split; [exact (shaped_ok R0 a elong triang indent n Hn He Hd)|].
  split; [rewrite map_length; exact (thetas_length n)|].
  intros k Hk. rewrite nth_points by exact Hk. replace (INR k * (2 * PI / INR n)) with (2 * PI * INR k / INR n) by (unfold Rdiv; ring). reflexivity.
Qed.
Print Assumptions C80_shaped.
(** which is so for a triangularity between -1 and 1 without indentation and for an
    indentation up to half the minor radius without triangularity, *)
Theorem C80_triangular R0 a triang : 0 < a -> -1 <= triang <= 1 -> forall s t, 0 <= s -> s < t -> t <= PI ->
  R0 - 0 + (a + 0 * cos t) * cos (t + triang * sin t) < R0 - 0 + (a + 0 * cos s) * cos (s + triang * sin s).
Proof. exact (triang_decreasing R0 a triang). Qed.
Print Assumptions C80_triangular.
Theorem C80_indented R0 a indent : 0 < a -> - a <= 2 * indent <= a -> forall s t, 0 <= s -> s < t -> t <= PI ->
  R0 - indent + (a + indent * cos t) * cos (t + 0 * sin t) < R0 - indent + (a + indent * cos s) * cos (s + 0 * sin s).
Proof. exact (indent_decreasing R0 a indent). Qed.
Print Assumptions C80_indented.
(** and is the circle without shaping. *)
Theorem C80_shaped_circle R0 a n : shaped_line R0 a 0 0 0 n = circle R0 a n.
Proof. exact (shaped_circle R0 a n). Qed.
Print Assumptions C80_shaped_circle.
(** The line is symmetric about the midplane, starts at the radius R0 + a, passes
    R0 - a at half its points and has the height (1 + elong) a at a quarter. *)
Theorem C80_symmetric R0 a elong triang indent n l : shaped_line R0 a elong triang indent n = Ok l ->
  forall p, In p l -> In (fst p, - snd p) l /\ Rabs (snd p) <= Rabs ((1 + elong) * a).
Proof.
  intros H p Hp. apply rz_points in H. destruct H as [Hn H].
  remember (map (fun t => (shaped_R R0 a triang indent t, shaped_Z a elong t)) (thetas n)) as m eqn:Em.
  assert (I : forall q, In q l <-> In q m) by (intros q; destruct H as [-> | ->]; [reflexivity|symmetry; apply in_rev]).
  apply I in Hp. rewrite I. split.
  - destruct (In_nth m p (0, 0) Hp) as [k [Hk <-]]. rewrite Em, map_length, thetas_length in Hk.
    destruct k as [|k].
    + assert (E : nth 0 m (0, 0) = (R0 + a, 0)).
      { rewrite Em, nth_points by lia. replace (INR 0 * (2 * PI / INR n)) with 0 by (cbn [INR]; ring). apply shaped_outboard. }
      rewrite E. cbn [fst snd]. rewrite Ropp_0, <- E. apply nth_In. rewrite Em, map_length, thetas_length. lia.
    + pose proof (shaped_mirror R0 a elong triang indent n (S k) (0, 0) ltac:(lia)) as E. cbv zeta in E. rewrite <- Em in E. rewrite <- E.
      apply nth_In. rewrite Em, map_length, thetas_length. lia.
  - rewrite Em in Hp. apply in_map_iff in Hp. destruct Hp as [t [<- _]]. apply shaped_height.
Qed.
Print Assumptions C80_symmetric.
Theorem C80_extents R0 a elong triang indent n l : (3 <= n)%nat -> 0 < (1 + elong) * a ->
  (forall s t, 0 <= s -> s < t -> t <= PI -> shaped_R R0 a triang indent t < shaped_R R0 a triang indent s) ->
  shaped_line R0 a elong triang indent n = Ok l ->
  nth 0 l (0, 0) = (R0 + a, 0) /\ (forall h, n = (2 * h)%nat -> nth h l (0, 0) = (R0 - a, 0)) /\
  (forall h, n = (4 * h)%nat -> nth h l (0, 0) = (R0 - indent - a * sin triang, (1 + elong) * a)).
Proof.
  intros Hn He Hd E. rewrite (shaped_ok R0 a elong triang indent n Hn He Hd) in E. injection E as <-.
  split; [|split].
  - rewrite nth_points by lia. replace (INR 0 * (2 * PI / INR n)) with 0 by (cbn [INR]; ring). apply shaped_outboard.
  - intros h ->. rewrite nth_points by lia. replace (INR h * (2 * PI / INR (2 * h))) with PI; [apply shaped_inboard|].
    rewrite mult_INR. cbn [INR]. field. apply not_0_INR. lia.
  - intros h ->. rewrite nth_points by lia. replace (INR h * (2 * PI / INR (4 * h))) with (PI / 2); [apply shaped_top|].
    rewrite mult_INR. cbn [INR]. field. apply not_0_INR. lia.
Qed.
Print Assumptions C80_extents.
Example C80_ex : exists l, shaped_line 3 1 (1 / 2) (3 / 10) 0 20 = Ok l /\ nth 0 l (0, 0) = (4, 0) /\ nth 10 l (0, 0) = (2, 0) /\ nth 5 l (0, 0) = (3 - sin (3 / 10), 3 / 2).
Proof.
  destruct (C80_shaped 3 1 (1 / 2) (3 / 10) 0 20) as [l [E [_ _]]]; [lia|lra|apply C80_triangular; lra|].
  exists l. split; [exact E|].
  destruct (C80_extents 3 1 (1 / 2) (3 / 10) 0 20 l) as [E0 [E1 E2]]; [lia|lra|apply triang_decreasing; lra|exact E|].
  rewrite E0, (E1 10%nat eq_refl), (E2 5%nat eq_refl). repeat split; f_equal; lra.
Qed.

(** C81: the least squares solution of SpectralLine, which exists, is the table of
    the discrete Fourier coefficients.  The hypothesis on
    least_squares is that it minimises the sum of squares, started at zeros. *)
Theorem C81_exists data freq num : (2 * num < length data)%nat -> exists x, least (fun args => err args data freq) (2 * num + 1) x.
Proof. intros H. exists (best data num). exact (best_least data num H freq). Qed.
Print Assumptions C81_exists.
Theorem C81_coefficients ls points dist num : (2 * num < length points)%nat ->
  minimises ls (2 * num + 1) (fun args => err args (map fst points) (line_freq dist)) ->
  minimises ls (2 * num + 1) (fun args => err args (map snd points) (line_freq dist)) ->
  let n := length points in let t k := - PI + INR k * (2 * PI / INR n) in
  let R_ k := nth k (map fst points) 0 in let Z_ k := nth k (map snd points) 0 in
  let x := fst (spectral_init ls points dist num) in let y := snd (spectral_init ls points dist num) in
  nth 0 x 0 = total n R_ / INR n /\ nth 0 y 0 = total n Z_ / INR n /\
  forall i, (1 <= i <= num)%nat ->
    nth (2 * i - 1) x 0 = 2 / INR n * total n (fun k => R_ k * sin (INR i * t k)) /\
    nth (2 * i) x 0 = 2 / INR n * total n (fun k => R_ k * cos (INR i * t k)) /\
    nth (2 * i - 1) y 0 = 2 / INR n * total n (fun k => Z_ k * sin (INR i * t k)) /\
    nth (2 * i) y 0 = 2 / INR n * total n (fun k => Z_ k * cos (INR i * t k)).
Proof.
  intros Hn Hx Hy n t R_ Z_ x y.
  destruct (least_coefs (map fst points) num _ x ltac:(rewrite map_length; exact Hn) Hx) as [A B].
  destruct (least_coefs (map snd points) num _ y ltac:(rewrite map_length; exact Hn) Hy) as [C D].
  rewrite map_length in A, B, C, D. split; [exact A|]. split; [exact C|]. intros i Hi.
  split; [exact (proj1 (B i Hi))|]. split; [exact (proj2 (B i Hi))|]. exact (D i Hi).
Qed.
Print Assumptions C81_coefficients.
(** Samples at equally spaced angles of a curve with num harmonics give this curve,
    but started half a turn away. *)
Theorem C81_recovers_partial ls points dist num rc rl zc zl : (2 * num < length points)%nat ->
  minimises ls (2 * num + 1) (fun args => err args (map fst points) (line_freq dist)) ->
  minimises ls (2 * num + 1) (fun args => err args (map snd points) (line_freq dist)) ->
  length rl = num -> length zl = num ->
  (forall k, (k < length points)%nat -> let t := INR k * (2 * PI / INR (length points)) in
     nth k (map fst points) 0 = trig rc rl t /\ nth k (map snd points) 0 = trig zc zl t) ->
  forall t, Rvalue (spectral_init ls points dist num) t = Ok (trig rc rl (t + PI)) /\ Zvalue (spectral_init ls points dist num) t = Ok (trig zc zl (t + PI)).
Proof.
  intros Hn Hx Hy Hrl Hzl Hp t. split.
  - apply (least_recovers (map fst points) num _ _ rc rl ltac:(rewrite map_length; exact Hn) Hx Hrl).
    rewrite map_length. intros k Hk. exact (proj1 (Hp k Hk)).
  - apply (least_recovers (map snd points) num _ _ zc zl ltac:(rewrite map_length; exact Hn) Hy Hzl).
    rewrite map_length. intros k Hk. exact (proj2 (Hp k Hk)).
Qed.
Print Assumptions C81_recovers_partial.
(** A fit without residual passes through every point, *)
Theorem C81_passes args data freq num v : length args = (2 * num + 1)%nat -> err args data freq = Ok v -> Forall (fun x => x = 0) v ->
  forall k, (k < length data)%nat -> fft args (- PI + INR k * (2 * PI / INR (length data))) = Ok (nth k data 0).
Proof. exact (zero_nodes args data freq num v). Qed.
Print Assumptions C81_passes.
(** but is at the opposite one for the angle 0 of the first: for the circle with radius
    1 around 3, R(0) is 2, not 4, whatever the distances. *)
Theorem C81_angle_refuted ls dist points : circle 3 1 4 = Ok points ->
  minimises ls (2 * 1 + 1) (fun args => err args (map fst points) (line_freq dist)) ->
  nth 0 (map fst points) 0 = 4 /\ Rvalue (spectral_init ls points dist 1) 0 = Ok 2.
Proof.
  intros E Hx. rewrite circle_ok in E by (try lia; lra). apply ok_inj in E.
  assert (P : forall k, (k < 4)%nat -> nth k (map fst points) 0 = trig 3 [(0, 1)] (INR k * (2 * PI / INR (length (map fst points))))).
  { intros k Hk. rewrite <- E, !map_map, map_length, thetas_length. rewrite (nth_points (fun t => fst (3 + 1 * cos t, 1 * sin t))) by exact Hk.
    cbn [fst]. unfold trig. cbn [trig_from]. cbn [INR]. rewrite !Rmult_1_l. ring. }
  assert (L : length (map fst points) = 4%nat) by (rewrite <- E, !map_length, thetas_length; reflexivity).
  split.
  - rewrite P by lia. cbn [INR]. unfold trig. cbn [trig_from INR]. rewrite !Rmult_0_l, !Rmult_1_l, ?Rmult_0_r, ?sin_0, cos_0. lra.
  - pose proof (least_recovers (map fst points) 1 (line_freq dist) _ 3 [(0, 1)] ltac:(rewrite L; lia) Hx eq_refl) as Q.
    unfold Rvalue. rewrite Q by (rewrite L in *; exact P). f_equal. unfold trig. cbn [trig_from INR].
    rewrite Rmult_1_l, Rplus_0_l, sin_PI, cos_PI. lra.
Qed.
Print Assumptions C81_angle_refuted.
(** The distances of the line have no influence. *)
Theorem C81_distances_refuted ls points dist dist' num : spectral_init ls points dist num = spectral_init ls points dist' num.
Proof. reflexivity. Qed.
Print Assumptions C81_distances_refuted.
(** There is such a solver: the residuals at zeros are the data. *)
Example C81_solver num : exists ls, forall data freq, (2 * num < length data)%nat -> minimises ls (2 * num + 1) (fun args => err args data freq).
Proof. exact (solver_exists num). Qed.
Example C81_ex : exists points, circle 3 1 4 = Ok points /\
  least (fun args => err args (map fst points) (line_freq [0; 1; 2; 3; 4])) 3 (best (map fst points) 1) /\ nth 0 (map fst points) 0 = 4.
Proof.
  eexists. split; [apply circle_ok; [lia|lra]|]. split; [apply (best_least _ 1)|].
  - rewrite !map_length, thetas_length. lia.
  - rewrite map_map. rewrite (nth_points (fun t => fst (3 + 1 * cos t, 1 * sin t))) by lia. cbn [fst INR]. rewrite Rmult_0_l, cos_0. lra.
Qed.

(** C82: the last point that equallySpaced of a spectral line hands to RZline is the
    first one again, for any two or more points. *)
Theorem C82_repeats_refuted s num n r z : (2 <= (if Nat.eqb num 0 then n else num))%nat -> even_points s num n = Ok (r, z) ->
  last r 0 = nth 0 r 0 /\ last z 0 = nth 0 z 0.
Proof. exact (even_repeats s num n r z). Qed.
Print Assumptions C82_repeats_refuted.
(** The points are on the curve, at equally spaced angles with both ends. *)
Theorem C82_on_curve_partial s num n r z : (2 <= (if Nat.eqb num 0 then n else num))%nat -> even_points s num n = Ok (r, z) ->
  let m := if Nat.eqb num 0 then n else num in length r = m /\ length z = m /\
  forall k, (k < m)%nat -> Rvalue s (2 * PI * INR k / INR (m - 1)) = Ok (nth k r 0) /\ Zvalue s (2 * PI * INR k / INR (m - 1)) = Ok (nth k z 0).
Proof. exact (even_on_curve s num n r z). Qed.
Print Assumptions C82_on_curve_partial.
(** and so are those of the line that is returned, in this or the opposite order. *)
Theorem C82_line_partial s num n l : (2 <= (if Nat.eqb num 0 then n else num))%nat -> equally_spaced s num n = Ok l ->
  let m := if Nat.eqb num 0 then n else num in length l = m /\
  ((forall k, (k < m)%nat -> Rvalue s (2 * PI * INR k / INR (m - 1)) = Ok (fst (nth k l (0, 0))) /\ Zvalue s (2 * PI * INR k / INR (m - 1)) = Ok (snd (nth k l (0, 0)))) \/
   (forall k, (k < m)%nat -> Rvalue s (2 * PI * INR k / INR (m - 1)) = Ok (fst (nth (m - 1 - k) l (0, 0))) /\ Zvalue s (2 * PI * INR k / INR (m - 1)) = Ok (snd (nth (m - 1 - k) l (0, 0))))).
Proof. exact (spaced_line s num n l). Qed.
Print Assumptions C82_line_partial.
Example C82_ex : exists r z, even_points ([3; 0; 1], [0; 1; 0]) 0 5 = Ok (r, z) /\ nth 0 r 0 = 4 /\ nth 0 z 0 = 0.
Proof.
  eexists. eexists. split; [apply even_ok; discriminate|]. unfold value, closed_freq. cbn [Nat.eqb seq map fst snd nth fft fft_loop INR Nat.add].
  rewrite !Rmult_0_l, !Rmult_0_r, sin_0, cos_0. split; ring.
Qed.
