(** Property theorems about errors of algebraic states, quadratures and trajectories that do not depend on stiffness (C112). *)
From Coq Require Import Reals Lra.
From Coquelicot Require Import Coquelicot.
From Verif Require Import PyBase IndexModel DMModel StructModel StructsModel IneqModel DaeModel NumModel NumInst PolynomialModel PiecewiseModel PdqModel SchemeModel
  PolySpec PiecewiseSpec PdqSpec SchemeSpec OrderSpec ConvSpec GridSpec ErrSpec MonoSpec SuperSpec DissSpec DissThms4 DissErrThms.
Open Scope R_scope.

(** [C] and [al] depend on the points and the inner product only. *)
Theorem C112_stiff_outputs : forall tau m S_, NoDup tau -> (1 <= length tau)%nat -> GaussRadau tau -> PosDef m S_ -> exists C al, 0 <= C /\ 0 <= al /\
  forall cspts f t order method g nu L G H D xd xs zs us pv u p, Points cspts order method tau -> (2 <= length t)%nat -> DaeOk f -> TdpOk f g -> f_nx f = m -> Asc t -> OneSided f S_ nu -> MildSteps t nu -> Resolvable f G H -> LipDae f L -> 0 <= D ->
  SolvesDae f t xd xs zs us pv g -> FedBy f t u p us pv -> (forall i, (i < m)%nat -> Close t order D (xs i) (xd i)) ->
  forall Lz Lq Dq qs qd, LipZ f Lz -> 0 <= Lq -> 0 <= Dq -> LipQ f Lq -> (forall i, (i < f_nq f)%nat -> Close t order Dq (qs i) (qd i)) ->
  (forall i v, (i < f_nq f)%nat -> node t 0 < v <= node t (ivals t) -> qd i v = f_quad f (dae_at xd xs zs us pv g v) i) ->
  (forall rep x K Z s e, VarsOk f (ivals t) order rep x K Z u p -> scheme_ cspts f t order method g rep x K Z u p = Ok s -> veccat_master (sc_eq s) = Ok e -> AllZero e ->
     (forall n j i, (n < ivals t)%nat -> (j < order)%nat -> (i < f_nz f)%nat -> Rabs (at_m Z i (n * order + j) - zs i (node (sc_tc s) (n * order + j))) <= Lz * stiffB C nu D (err m S_ x xs t 0%nat) t (n + 1)%nat) /\
     (forall n i, (n <= ivals t)%nat -> (i < f_nq f)%nat -> Rabs (at_m (sc_q s) i n - (qs i (node t n) - qs i (node t 0))) <= (node t n - node t 0) * (al * (Lq * stiffB C nu D (err m S_ x xs t 0%nat) t n) + (1 + al) * Dq)) /\
     (forall n j i, (n < ivals t)%nat -> (j < order)%nat -> (i < f_nq f)%nat -> Rabs (at_m (sc_Q s) i (n * order + j) - (qs i (node (sc_tc s) (n * order + j)) - qs i (node t 0))) <=
        (node t (n + 1) - node t 0) * (al * (Lq * stiffB C nu D (err m S_ x xs t 0%nat) t (n + 1)%nat) + (1 + al) * Dq))) /\
  (forall rf nan x0 z0 out, f_ndae f = (f_nx f + f_nz f)%nat -> Shaped u (f_nu f) (ivals t) -> Shaped p (f_np f) 1 -> RootFinder rf -> integrator_ rf nan cspts f t order method g x0 z0 u p = Ok out -> (forall i, (i < m)%nat -> xs i (node t 0) = x0 i) ->
     (forall n j i, (n < ivals t)%nat -> (j < order)%nat -> (i < f_nz f)%nat -> Rabs (at_m (io_Z out) i (n * order + j) - zs i (node (io_tc out) (n * order + j))) <= Lz * stiffB C nu D 0 t (n + 1)%nat) /\
     (forall i, (i < f_nq f)%nat -> Rabs (io_qf out i - (qs i (node t (ivals t)) - qs i (node t 0))) <= (node t (ivals t) - node t 0) * (al * (Lq * stiffB C nu D 0 t (ivals t)) + (1 + al) * Dq))).
Proof. exact stiff_outputs. Qed.
(** [C] and [c] depend on the points and the inner product only. *)
Theorem C112_stiff_dense : forall tau m S_, NoDup tau -> (1 <= length tau)%nat -> GaussRadau tau -> PosDef m S_ -> exists C c, 0 <= C /\ 0 <= c /\
  forall cspts f t order method g nu L G H D xd xs zs us pv u p, Points cspts order method tau -> (2 <= length t)%nat -> DaeOk f -> TdpOk f g -> f_nx f = m -> Asc t -> OneSided f S_ nu -> MildSteps t nu -> Resolvable f G H -> LipDae f L -> 0 <= D ->
  SolvesDae f t xd xs zs us pv g -> FedBy f t u p us pv -> (forall i, (i < m)%nat -> Close t order D (xs i) (xd i)) ->
  (forall rep x K Z s e pp, VarsOk f (ivals t) order rep x K Z u p -> scheme_ cspts f t order method g rep x K Z u p = Ok s -> veccat_master (sc_eq s) = Ok e -> AllZero e -> piecewise_X s x K = Ok pp ->
     forall n i v, (n < ivals t)%nat -> (i < m)%nat -> node t n < v <= node t (n + 1) -> Rabs (ppval pp "left" i v - xs i v) <=
       c * (exp (C * nu * (node t (n + 1) - node t 0)) * (err m S_ x xs t 0%nat + (node t (n + 1) - node t 0) * (C * D)) + step t n * D)) /\
  (forall rf nan x0 z0 out pp, f_ndae f = (f_nx f + f_nz f)%nat -> Shaped u (f_nu f) (ivals t) -> Shaped p (f_np f) 1 -> RootFinder rf -> integrate_ rf nan cspts f t order method g true x0 z0 u p = Ok (out, pp) -> (forall i, (i < m)%nat -> xs i (node t 0) = x0 i) ->
     forall n i v, (n < ivals t)%nat -> (i < m)%nat -> node t n < v <= node t (n + 1) -> Rabs (ppval pp "left" i v - xs i v) <=
       c * (exp (C * nu * (node t (n + 1) - node t 0)) * ((node t (n + 1) - node t 0) * (C * D)) + step t n * D)).
Proof. exact stiff_dense. Qed.

Print Assumptions C112_stiff_outputs.
Print Assumptions C112_stiff_dense.
