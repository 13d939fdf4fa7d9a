(** Property C90: smooth_metric. *)
From Coq Require Import String List ZArith QArith Lia.
From Verif Require Import Prelude SmoothMetricModel SmoothMetricProofs.
Import ListNotations.
Open Scope string_scope.

(** The window is odd, between half of the points and all of them, *)
Theorem C90_window nz : (1 <= nz)%nat -> Z.odd (window nz) = true /\ (1 <= window nz <= Z.of_nat nz)%Z /\ (window nz <= Z.of_nat nz / 2 + 2)%Z /\ (Z.of_nat nz / 2 <= window nz)%Z.
Proof. exact (window_bounds nz). Qed.
Print Assumptions C90_window.
(** and wide enough for the default order for 15 points and more. *)
Theorem C90_default nz : (7 < window nz)%Z <-> (15 <= nz)%nat.
Proof. exact (window_seven nz). Qed.
Print Assumptions C90_default.

(** With np.int and an order below the window, J and the metric components of the file are
    replaced by the filtered lines along z and nothing else is changed, and the filtered curvature is
    returned with the one of the file.  Missing: the curvature in the file, and numpy 2. *)
Theorem C90_written_partial savgol nx ny nz f w r smooth order : has f smooth -> accepted true nz order ->
  exists f' out, smooth_metric true savgol nx ny nz f w r smooth order = Ok (f', out) /\
  (forall k, In k (written smooth) -> w = true -> exists v, f' k = Some v /\ forall x y z, (x < nx)%nat -> (y < ny)%nat -> v x y z = smoothed savgol nz order (get f k) x y z) /\
  (forall k, ~ In k (written smooth) \/ w = false -> f' k = f k) /\
  (if r then exists a b c, out = Some [a; b; c; get f "bxcvx"; get f "bxcvy"; get f "bxcvz"] /\
     forall x y z, (x < nx)%nat -> (y < ny)%nat -> a x y z = smoothed savgol nz order (get f "bxcvx") x y z /\ b x y z = smoothed savgol nz order (get f "bxcvy") x y z /\ c x y z = smoothed savgol nz order (get f "bxcvz") x y z
   else out = None).
Proof. exact (metric_ok true savgol nx ny nz f w r smooth order). Qed.
Print Assumptions C90_written_partial.

(** Everything else raises: too few points a ValueError, *)
Theorem C90_refused savgol nx ny nz f w r smooth order : has f smooth -> (0 < nx)%nat -> (0 < ny)%nat -> ~ ((1 <= nz)%nat /\ (order < window nz)%Z) ->
  smooth_metric true savgol nx ny nz f w r smooth order = Err ValueError.
Proof. intros H1 H2 H3 H4. apply (metric_err true savgol nx ny nz f w r smooth order H1 H2 H3). intros (_ & H5). exact (H4 H5). Qed.
Print Assumptions C90_refused.
(** and with a numpy that has no np.int (any from 1.24 on; pyproject.toml asks for 2.0) every call an AttributeError. *)
Theorem C90_numpy_refuted savgol nx ny nz f w r smooth order : has f smooth -> (0 < nx)%nat -> (0 < ny)%nat ->
  smooth_metric false savgol nx ny nz f w r smooth order = Err OtherError.
Proof. intros H1 H2 H3. apply (metric_err false savgol nx ny nz f w r smooth order H1 H2 H3). intros (H & _). discriminate H. Qed.
Print Assumptions C90_numpy_refuted.

(** The curvature in the file stays as it is, for every filter. *)
Theorem C90_curvature_refuted savgol nx ny nz f w r smooth order k : has f smooth -> accepted true nz order -> In k ["bxcvx"; "bxcvy"; "bxcvz"] ->
  exists f' out, smooth_metric true savgol nx ny nz f w r smooth order = Ok (f', out) /\ f' k = f k.
Proof.
  intros H1 H2 H3. destruct (metric_ok true savgol nx ny nz f w r smooth order H1 H2) as (f' & out & E & _ & K & _). exists f', out. split; [exact E|]. apply K. left.
  destruct H3 as [<-|[<-|[<-|[]]]]; destruct smooth; cbn; intuition discriminate.
Qed.
Print Assumptions C90_curvature_refuted.

(** Co- and contravariant metric do not stay inverse to each other: g11 = 1, 2, 4 with order 0. *)
Theorem C90_inverse_refuted : exists f' out a b, smooth_metric true mean3 1 1 3 w_file true false true 0 = Ok (f', out) /\ f' "g11" = Some a /\ f' "g_11" = Some b /\
  (forall z, (z < 3)%nat -> get w_file "g11" 0 0 z * get w_file "g_11" 0 0 z == 1)%Q /\ (a 0 0 1 * b 0 0 1 == 49 # 36)%nat%Q.
Proof. exact w_inverse. Qed.
Print Assumptions C90_inverse_refuted.
Example C90_example : has w_file true /\ accepted true 3 0 /\ accepted true 15 7 /\ ~ accepted true 14 7.
Proof. split; [exact w_has|]. unfold accepted, window. cbn. repeat split; lia. Qed.
