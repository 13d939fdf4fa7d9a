(** Vocabulary for the statements about metrics. *)
From Coq Require Import List ZArith QArith Bool.
From Verif Require Import Prelude GridModel GridSpec MetricModel.
Import ListNotations.
Open Scope Q_scope.

(** The poloidal metric is a symmetric positive definite tensor with its inverse at (x, z). *)
Definition consistent_at (m : pol_metric) (x z : Z) : Prop :=
  let gxx := p_gxx m x z in let gxz := p_gxz m x z in let gzz := p_gzz m x z in
  let hxx := p_g_xx m x z in let hxz := p_g_xz m x z in let hzz := p_g_zz m x z in
  gxx * hxx + gxz * hxz == 1 /\ gxx * hxz + gxz * hzz == 0 /\
  gxz * hxx + gzz * hxz == 0 /\ gxz * hxz + gzz * hzz == 1 /\
  0 < hxx /\ 0 < hzz /\ 0 < hxx * hzz - hxz * hxz /\
  0 < gxx /\ 0 < gzz /\ 0 < gxx * gzz - gxz * gxz.

Section History.
Context {G : Type}.
Variable pm : G -> pol_metric.
Variable Bmag pressure Byfunc : G -> Q -> Z -> Z -> Q.
Variable g : grid G.

(** All components of [m] other than g_yy/gyy/B/pressure are Grid.metric's own,
    field strength and pressure are the field's at each slice, and g_yy, gyy at
    slice y are [v] and [w] of that slice's poloidal grid and position. *)
Definition metric_is (v w : G -> Q -> Z -> Z -> Q) (m : mdict) : Prop :=
  exists m0 B P, grid_metric pm g = Ok m0 /\ md_field m = Some (B, B, P) /\
    m_dx (md m) = m_dx m0 /\ m_dy (md m) = m_dy m0 /\ m_dz (md m) = m_dz m0 /\
    m_gxx (md m) = m_gxx m0 /\ m_g_xx (md m) = m_g_xx m0 /\ m_gxz (md m) = m_gxz m0 /\
    m_g_xz (md m) = m_g_xz m0 /\ m_gzz (md m) = m_gzz m0 /\ m_g_zz (md m) = m_g_zz m0 /\ m_J (md m) = m_J m0 /\
    forall y p q x z, (0 <= y < ny g)%Z -> getPoloidalGrid g (inject_Z y) = Ok (Some p, q) ->
      B x y z = Bmag p q x z /\ P x y z = pressure p q x z /\
      m_g_yy (md m) x y z == v p q x z /\ m_gyy (md m) x y z == w p q x z.

(** (Bmag/By)^2, the factor between the grid's g_yy and the parallel one. *)
Definition par (p : G) (q : Q) (x z : Z) : Q := (Bmag p q x z / Byfunc p q x z) ^ 2.
Definition rap (p : G) (q : Q) (x z : Z) : Q := (Byfunc p q x z / Bmag p q x z) ^ 2.
End History.

(** How many gets since the last reset precede each get of the history. *)
Fixpoint gets_since (ops : list op) (k : nat) : list nat :=
  match ops with
  | [] => []
  | ResetCache :: t => gets_since t 0
  | Get :: t => k :: gets_since t (S k)
  end.
