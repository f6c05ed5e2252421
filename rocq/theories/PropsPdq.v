(** Property theorems about [Pdq], its interpolators and system trajectories (C55-C60). *)
From Coq Require Import Reals.
From Coquelicot Require Import Coquelicot.
From Verif Require Import PyBase NumModel NumInst NumSpec PolynomialModel PiecewiseModel PdqModel PolySpec PdqSpec PdqThms PdqThms2 PdqThms3 PolynomialExamples PdqExamples.
Open Scope R_scope.

Theorem C55_pdq_grid : forall colpts t order ptype tau,
  Bounds t -> (1 <= order)%nat -> colpts order ptype = Ok tau -> Nodes order tau ->
  exists p, pdq_ colpts t order ptype = Ok p /\ pq_t p = t /\ Grid t tau order (pq_pts p) /\ Asc (pq_pts p) /\ pq_t0 p = node t 0 /\
    length (pq_groups p) = ivals t /\ forall i, (i < ivals t)%nat -> nth i (pq_groups p) [] = seq (i * order) (order + 1).
Proof. exact pdq_grid. Qed.

Theorem C55_grid_bounds : forall t tau order pts,
  Bounds t -> (1 <= order)%nat -> Nodes order tau -> node tau order = 1 -> Grid t tau order pts ->
  (forall i, (i <= ivals t)%nat -> node pts (i * order) = node t i) /\
  (forall i j, (i < ivals t)%nat -> (j <= order)%nat -> node pts (i * order + j) = node t i + node tau j * step t i) /\
  forall i k, (i < ivals t)%nat -> (k < length pts)%nat -> (In k (seq (i * order) (order + 1)) <-> node t i <= node pts k <= node t (i + 1)).
Proof. exact grid_bounds. Qed.

Theorem C55_pdq_chebyshev_partial : forall cspts t order,
  Bounds t -> (1 <= order)%nat ->
  exists p, pdq_ (collocation_points cos PI cspts) t order "chebyshev" = Ok p /\ pq_t p = t /\ length (pq_pts p) = (ivals t * order + 1)%nat /\ Asc (pq_pts p) /\
    (forall i, (i <= ivals t)%nat -> node (pq_pts p) (i * order) = node t i) /\ pq_t0 p = node t 0 /\ pq_tf p = node t (ivals t) /\ length (pq_groups p) = ivals t /\
    forall i k, (i < ivals t)%nat -> (In k (nth i (pq_groups p) []) <-> (k < length (pq_pts p))%nat /\ node t i <= node (pq_pts p) k <= node t (i + 1)).
Proof. exact pdq_chebyshev. Qed.

Section Built.
(** A [Pdq] built from a grid and collocation nodes *)
Context (colpts : nat -> string -> res (list R)) (t : list R) (order : nat) (ptype : string) (tau : list R) (p : pdq R).
Context (HB : Bounds t) (Ho : (1 <= order)%nat) (Ec : colpts order ptype = Ok tau) (HN : Nodes order tau) (Ep : pdq_ colpts t order ptype = Ok p).
Notation Cont := (Continuity t order).

Theorem C56_derivative_exact_partial : forall (y : mat R) (f : nat -> nat -> R -> R),
  node tau order = 1 -> nc y = (ivals t * order + 1)%nat ->
  (forall i r, (i < ivals t)%nat -> (r < nr y)%nat -> PolyLt (order + 1) (f i r)) ->
  (forall i r j, (i < ivals t)%nat -> (r < nr y)%nat -> (j <= order)%nat -> at_m y r (i * order + j) = f i r (node (pq_pts p) (i * order + j))) ->
  exists M, pq_derivative p y = Ok M /\ nr M = nr y /\ nc M = (ivals t * order)%nat /\
    forall i r j, (i < ivals t)%nat -> (r < nr y)%nat -> (j < order)%nat -> is_derive (f i r) (node (pq_pts p) (i * order + j)) (at_m M r (i * order + j)).
Proof. first [exact (derivative_exact colpts t order ptype tau p HB Ho Ec HN Ep) | exact (derivative_exact colpts t order ptype tau p HB Ec HN Ep)]. Qed.

Theorem C57_integral_spec : forall solve dy Y,
  Solver solve -> nc dy = (ivals t * order)%nat -> pq_integral solve p dy = Ok Y ->
  nr Y = nr dy /\ nc Y = (ivals t * order)%nat /\ exists M, pq_derivative p (with_zero Y) = Ok M /\ MatEq M dy.
Proof. first [exact (integral_spec colpts t order ptype tau p HB Ho Ec HN Ep) | exact (integral_spec colpts t order ptype tau p HB Ec HN Ep)]. Qed.

Theorem C57_integral_unique : forall solve dy Y Z M,
  Solver solve -> nc dy = (ivals t * order)%nat -> pq_integral solve p dy = Ok Y ->
  nr Z = nr dy -> nc Z = (ivals t * order)%nat -> pq_derivative p (with_zero Z) = Ok M -> MatEq M dy -> MatEq Z Y.
Proof. first [exact (integral_unique colpts t order ptype tau p HB Ho Ec HN Ep) | exact (integral_unique colpts t order ptype tau p HB Ec HN Ep)]. Qed.

Theorem C57_integral_total : forall solve dy,
  Solver solve -> Complete solve -> nc dy = (ivals t * order)%nat -> exists Y, pq_integral solve p dy = Ok Y.
Proof. first [exact (integral_total colpts t order ptype tau p HB Ho Ec HN Ep) | exact (integral_total colpts t order ptype tau p HB Ec HN Ep)]. Qed.

Theorem C58_expand_spec : forall u,
  nc u = ivals t ->
  exists M, pq_expand p u = Ok M /\ nr M = nr u /\ nc M = (ivals t * order)%nat /\ forall r i j, (i < ivals t)%nat -> (j < order)%nat -> at_m M r (i * order + j) = at_m u r i.
Proof. first [exact (expand_spec colpts t order ptype tau p HB Ho Ec HN Ep) | exact (expand_spec colpts t order ptype tau p HB Ec HN Ep)]. Qed.

Theorem C58_expand_wrong : forall u,
  nc u <> ivals t -> pq_expand p u = Err EAssert.
Proof. first [exact (expand_wrong colpts t order ptype tau p HB Ho Ec HN Ep) | exact (expand_wrong colpts t order ptype tau p HB Ec HN Ep)]. Qed.

Theorem C59_interp_exact_partial : forall c w n,
  Cont c w n -> exists q, pq_interpolator p c = Ok q /\ forall x ts, nc x = n -> ts <> [] ->
  exists M, pi_call q x (PVec ts) = Ok M /\ nr M = nr x /\ nc M = length ts /\
    forall k i r f, (k < length ts)%nat -> InInterval t (node ts k) i -> PolyLt w f -> (forall j, (j < w)%nat -> f (node (pq_pts p) (i * order + j)) = at_m x r (i * order + j)) -> at_m M r k = f (node ts k).
Proof. first [exact (interp_exact colpts t order ptype tau p HB Ho Ec HN Ep) | exact (interp_exact colpts t order ptype tau p HB Ec HN Ep)]. Qed.

Theorem C59_interp_data_partial : forall c w n,
  Cont c w n -> exists q, pq_interpolator p c = Ok q /\ forall x, nc x = n ->
  exists M, pi_call q x (PVec (firstn n (pq_pts p))) = Ok M /\ MatEq M x.
Proof. first [exact (interp_data colpts t order ptype tau p HB Ho Ec HN Ep) | exact (interp_data colpts t order ptype tau p HB Ec HN Ep)]. Qed.

Theorem C59_interp_columns : forall c w n q x ts,
  Cont c w n -> pq_interpolator p c = Ok q -> nc x <> n -> pi_call q x ts = Err EValue.
Proof. first [exact (interp_columns colpts t order ptype tau p HB Ho Ec HN Ep) | exact (interp_columns colpts t order ptype tau p HB Ec HN Ep)]. Qed.

Theorem C59_interp_bad_continuity : forall c,
  c <> "both"%string -> c <> "left"%string -> c <> "right"%string -> pq_interpolator p c = Err EValue.
Proof. first [exact (interp_bad_continuity colpts t order ptype tau p HB Ho Ec HN Ep) | exact (interp_bad_continuity colpts t order ptype tau p HB Ec HN Ep)]. Qed.

Theorem C59_left_last_interval_raises : exists q, pq_interpolator p "left" = Ok q /\
  forall x s, nc x = (ivals t * order)%nat -> InInterval t s (ivals t - 1) -> pi_call q x (PNum s) = Err EIndex.
Proof. first [exact (left_last_interval_raises colpts t order ptype tau p HB Ho Ec HN Ep) | exact (left_last_interval_raises colpts t order ptype tau p HB Ec HN Ep)]. Qed.

Theorem C60_trajectory_accepts : forall x z u X Z U,
  Rows x X -> Rows z Z -> Rows u U ->
  (nc X = (ivals t * order + 1)%nat /\ nc Z = (ivals t * order)%nat /\ nc U = (ivals t * order)%nat -> exists s, traj_ x z u p = Ok s) /\
  (~ (nc X = (ivals t * order + 1)%nat /\ nc Z = (ivals t * order)%nat /\ nc U = (ivals t * order)%nat) -> traj_ x z u p = Err EAssert).
Proof. first [exact (trajectory_accepts colpts t order ptype tau p HB Ho Ec HN Ep) | exact (trajectory_accepts colpts t order ptype tau p HB Ec HN Ep)]. Qed.

Theorem C60_trajectory_samples : forall x z u s,
  traj_ x z u p = Ok s ->
  st_time s = t /\
  (exists M, st_state s (PVec (pq_pts p)) = Ok M /\ Rows x M) /\
  (exists M, st_algState s (PVec (removelast (pq_pts p))) = Ok M /\ Rows z M) /\
  (exists M, st_input s (PVec (removelast (pq_pts p))) = Ok M /\ Rows u M).
Proof. first [exact (trajectory_samples colpts t order ptype tau p HB Ho Ec HN Ep) | exact (trajectory_samples colpts t order ptype tau p HB Ec HN Ep)]. Qed.

End Built.

Theorem C56_derivative_legendre_refuted : exists p M,
  pdq_ (collocation_points cos PI legendre1) [0; 1; 2] 1 "legendre" = Ok p /\ pq_pts p = [0; 1; 3 / 2] /\
  pq_derivative p (Mat 1 3 (fun _ k => node (pq_pts p) k)) = Ok M /\ at_m M 0 0 = 2 /\ ~ is_derive (fun t => t) (node (pq_pts p) 0) (at_m M 0 0).
Proof. exact derivative_legendre_refuted. Qed.

Theorem C59_left_refuted : exists p q x, pdq_ (collocation_points cos PI radau2) [0; 1; 3] 2 "radau" = Ok p /\ pq_interpolator p "left" = Ok q /\ nc x = (length (pq_pts p) - 1)%nat /\ pi_call q x (PNum 3) = Err EIndex.
Proof. exact left_refuted. Qed.

Section OverF.
#[local] Existing Instance numF.
Theorem C55_pdq_tf_refuted : exists p : pdq f64, pdq_ f01 [fq 2 10; fq 9 10] 1 "chebyshev" = Ok p /\ neqb (pq_tf p) (fq 9 10) = false.
Proof. exact pdq_tf_refuted. Qed.

End OverF.

Print Assumptions C55_pdq_grid.
Print Assumptions C55_grid_bounds.
Print Assumptions C55_pdq_chebyshev_partial.
Print Assumptions C56_derivative_exact_partial.
Print Assumptions C57_integral_spec.
Print Assumptions C57_integral_unique.
Print Assumptions C57_integral_total.
Print Assumptions C58_expand_spec.
Print Assumptions C58_expand_wrong.
Print Assumptions C59_interp_exact_partial.
Print Assumptions C59_interp_data_partial.
Print Assumptions C59_interp_columns.
Print Assumptions C59_interp_bad_continuity.
Print Assumptions C59_left_last_interval_raises.
Print Assumptions C60_trajectory_accepts.
Print Assumptions C60_trajectory_samples.
Print Assumptions C56_derivative_legendre_refuted.
Print Assumptions C59_left_refuted.
Print Assumptions C55_pdq_tf_refuted.
