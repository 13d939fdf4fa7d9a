(** plot.py: what plot_poincare (17-140), plot_3d_field_line (143-202), plot_forward_map (304-371) and plot_backward_map
    (374-442) hand to matplotlib.  Not modelled: axis labels and figures. *)
From Coq Require Import String List ZArith QArith Qround Bool.
From Verif Require Import Prelude GridModel MapsModel TracerModel.
Import ListNotations.
Open Scope Q_scope.

(** one plt.plot(R, Z, style, label=label.format(number)) *)
Record series := { pts : list (Q * Q); style : string; label : string; number : option Z }.

Section Maps.
Variable G : Type.
Variable pR pZ : G -> arr2.
Variable pnx pnz : G -> nat.
(** maps[k][:, y, :] for the 3-d arrays of make_maps; a negative y counts from the end *)
Definition plane (g : grid G) (d : dict) (k : string) (y : Z) : res arr2 :=
  match d k with
  | None => Err KeyError
  | Some (VArr a) =>
    if ((- ny g <=? y) && (y <? ny g))%Z%bool then let j := if (y <? 0)%Z then (y + ny g)%Z else y in Ok (fun x z => a x j z 0%Z)
    else Err IndexError
  | Some _ => Err TypeError
  end.
(** np.ravel(R[keep]), np.ravel(Z[keep]) *)
Definition ravel (nx nz : nat) (R Zc : arr2) (keep : Z -> Z -> bool) : list (Q * Q) :=
  flat_map (fun x => flat_map (fun z => if keep x z then [(R x z, Zc x z)] else []) (zrange 0 (Z.of_nat nz))) (zrange 0 (Z.of_nat nx)).
(** without matplotlib: warnings.warning does not exist, AttributeError (plot.py:56-58 and in every function) *)
Definition available (have_plt : bool) : res unit := if have_plt then Ok tt else Err OtherError.
(** plot.py:304-371 (forward) and 374-442.  A slice that is not there is None: AttributeError at its R *)
Definition plot_map (have_plt forward : bool) (g : grid G) (d : dict) (yslice : Z) : res (list series) :=
  let* _ := available have_plt in
  let prefix := if forward then "forward"%string else "backward"%string in
  let key k := (prefix ++ k)%string in
  let next := if forward then (yslice + 1)%Z else (yslice - 1)%Z in
  match poloidal_grids g with
  | [] => Err IndexError
  | p0 :: _ =>
    let nx := pnx p0 in
    let nz := pnz p0 in
    let* _ := getPoloidalGrid g (inject_Z yslice) in
    let* pn := getPoloidalGrid g (inject_Z next) in
    match fst pn with
    | None => Err OtherError
    | Some p =>
      let all := fun _ _ : Z => true in
      let s1 := {| pts := ravel (pnx p) (pnz p) (pR p) (pZ p) all; style := "bx"%string; label := "Grid points on slice {0}"%string; number := Some next |} in
      let* R := plane g d (key "_R"%string) yslice in
      let* Zc := plane g d (key "_Z"%string) yslice in
      let s2 := {| pts := ravel nx nz R Zc all; style := "ro"%string;
                   label := (if forward then "Forward map from slice {0}" else "Backward map from slice {0}")%string; number := Some yslice |} in
      let* xt := plane g d (key "_xt_prime"%string) yslice in
      let s3 := {| pts := ravel nx nz R Zc (fun x z => Qlt_bool (xt x z) 0); style := "ko"%string; label := "Inner boundary points"%string; number := None |} in
      let s4 := {| pts := ravel nx nz R Zc (fun x z => Qlt_bool (inject_Z (Z.of_nat nx) - (1 # 2)) (xt x z)); style := "bo"%string; label := "Outer boundary points"%string; number := None |} in
      Ok [s1; s2; s3; s4]
    end
  end.
End Maps.

Section Lines.
Variable odeint : list Q -> list Q -> list (list Q).
Variable limit : nat.

(** plot.py:76-78.  The factor of the list is a float: TypeError *)
Definition colours (nplot : nat) : res (list string) :=
  let c := ["k"; "b"; "r"; "g"; "c"; "m"]%string in
  if (List.length c <? nplot)%nat then Err TypeError else Ok c.
(** result[:, index, ..., c] *)
Definition section (r : nda) (index c : nat) : nda :=
  match shape r with
  | revs :: nplot :: rest =>
    let w := nsize rest in
    let sh := removelast rest in
    {| shape := revs :: sh;
       data := flat_map (fun n => map (fun i => nth ((n * nplot + index) * w + 2 * i + c) (data r) 0) (seq 0 (nsize sh))) (seq 0 revs) |}
  | _ => r
  end.
(** one call of ax.plot(r, z, color): matplotlib refuses arrays with more than two dimensions *)
Definition draw (r z : nda) (colour : string) : res (nda * nda * string) :=
  if (2 <? List.length (shape r))%nat then Err ValueError else Ok (r, z, colour).
(** plot.py:56-99 without interactive: the series and the legend *)
Definition plot_poincare (have_plt : bool) (x z : nda) (yperiod : Q) (nplot : option Z) (y_slices : option (list Q)) (revs nover : Z)
    : res (list (nda * nda * string) * list (Q * string)) :=
  let* _ := available have_plt in
  let* (result, slices) := trace_poincare odeint limit x z yperiod nplot y_slices revs nover in
  let n := List.length slices in
  let* cs := colours n in
  let* lines := mapM (fun index => draw (section result index 0) (section result index 1) (nth index cs ""%string)) (seq 0 n) in
  Ok (lines, combine slices cs).

(** onclick, plot.py:101-127; 129-137 the y values of the lines.  The points shown; [trace] is follow_field_lines from the place of the click *)
Inductive button := Left | Middle | Right.
Definition onclick (trace : Q * Q -> res (list (Q * Q))) (shown : list (Q * Q)) (event : option (Q * Q) * button) : res (list (Q * Q)) :=
  match fst event with
  | None => Ok shown
  | Some p =>
    match snd event with
    | Middle => Ok []
    | Right => let* l := trace p in Ok (shown ++ l)
    | Left => trace p
    end
  end.
Definition clicks (trace : Q * Q -> res (list (Q * Q))) (events : list (option (Q * Q) * button)) : res (list (Q * Q)) :=
  foldM (onclick trace) events [].

(** plot.py:116, 129-137: follow_field_lines from a click, to all slices and revolutions *)
Definition click_trace (yperiod : Q) (slices : list Q) (revs : Z) (p : Q * Q) : res (list (Q * Q)) :=
  let ys := revolve yperiod slices (Z.to_nat revs) in
  let* r := follow odeint limit {| shape := []; data := [fst p] |} {| shape := []; data := [snd p] |} ys in
  Ok (map (fun k => (nth (2 * k) (data r) 0, nth (2 * k + 1) (data r) 0)) (seq 0 (List.length ys))).

(** np.remainder for numbers *)
Definition remainder (a b : Q) : Q := a - b * inject_Z (Qfloor (a / b)).
(** plot.py:166-196: for each cycle the points (R, Z, y); the arrays are cycles * y_res long *)
Definition plot_3d_field_line (have_plt : bool) (x z : nda) (yperiod : Q) (cycles y_res : nat) : res (list (list (Q * Q * Q))) :=
  let* _ := available have_plt in
  let n := (y_res * cycles)%nat in
  let phi := map (fun i => inject_Z (Z.of_nat i) * (inject_Z (Z.of_nat cycles) * yperiod / inject_Z (Z.of_nat n))) (seq 0 n) in
  let* result := follow odeint limit x z phi in
  let* result := reshape [cycles; y_res; 2%nat] (data result) in
  let phi_mod := map (fun p => remainder p yperiod) phi in
  Ok (map (fun c => map (fun m => let i := (c * y_res + m)%nat in (nth (2 * i) (data result) 0, nth (2 * i + 1) (data result) 0, nth i phi_mod 0)) (seq 0 y_res)) (seq 0 cycles)).
End Lines.
