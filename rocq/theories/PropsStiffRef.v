(** C117: stiffness-independent errors with inexact inputs, and first-order convergence on refined grids. *)
From Coq Require Import Reals List Lra.
From Coquelicot Require Import Coquelicot.
From Verif Require Import PyBase IndexModel DMModel StructModel StructsModel IneqModel DaeModel NumModel NumInst PolynomialModel PiecewiseModel PdqModel SchemeModel
  PolySpec PiecewiseSpec PdqSpec SchemeSpec OrderSpec ConvSpec GridSpec ErrSpec MonoSpec SuperSpec DissSpec DissThms4 DissErrThms SensSpec SensThms2 Sens2Spec SensThms3 RefineSpec RefineThms RefineThms2 RefineThms3 StiffRefThms StiffRefThms2.
Import ListNotations.
Open Scope R_scope.

(** The bound at grid time [n], from errors [e] of the initial state, [d] of the inputs and [D] of the best approximation of the solution's derivatives by polynomials *)
Notation stiffF C nu Lu d D e t n := (exp (C * nu * (node t n - node t 0)) * (e + (node t n - node t 0) * (C * (Lu * d + D)))).

(** [C], [al] and [lam] depend on the points and the inner product only. *)
Theorem C117_error_bound : forall tau m S_, NoDup tau -> (1 <= length tau)%nat -> GaussRadau tau -> PosDef m S_ -> exists C al lam, 0 <= C /\ 0 <= al /\ 0 <= lam /\
  forall cspts f t order method nu L G H Lu d D g g' xd xs zs us pv u p, Points cspts order method tau -> (2 <= length t)%nat -> DaeOk f -> TdpOk f g -> f_nx f = m -> Asc t -> OneSided f S_ nu -> MildSteps t nu -> Resolvable f G H -> LipDae f L -> 0 <= Lu -> 0 <= d -> 0 <= D -> LipInput f Lu ->
  SolvesDae f t xd xs zs us pv g' -> NearFed f t d g g' u p us pv -> (forall i, (i < m)%nat -> Close t order D (xs i) (xd i)) ->
  forall rep x K Z s e, VarsOk f (ivals t) order rep x K Z u p -> scheme_ cspts f t order method g rep x K Z u p = Ok s -> veccat_master (sc_eq s) = Ok e -> AllZero e ->
  (forall n, (n <= ivals t)%nat -> err m S_ x xs t n <= stiffF C nu Lu d D (err m S_ x xs t 0%nat) t n) /\
  (forall n i, (n <= ivals t)%nat -> (i < m)%nat -> Rabs (at_m x i n - xs i (node t n)) <= C * stiffF C nu Lu d D (err m S_ x xs t 0%nat) t n) /\
  (forall n j i, (n < ivals t)%nat -> (j < order)%nat -> (i < m)%nat -> Rabs (at_m (sc_X s) i (n * order + j) - xs i (node (sc_tc s) (n * order + j))) <= C * stiffF C nu Lu d D (err m S_ x xs t 0%nat) t (n + 1)%nat) /\
  (forall Lz Lzu, LipZin f Lz Lzu -> forall n j i, (n < ivals t)%nat -> (j < order)%nat -> (i < f_nz f)%nat -> Rabs (at_m Z i (n * order + j) - zs i (node (sc_tc s) (n * order + j))) <= Lz * (C * stiffF C nu Lu d D (err m S_ x xs t 0%nat) t (n + 1)%nat) + Lzu * d) /\
  (forall Lq Lqu Dq qs qd, 0 <= Lq -> 0 <= Lqu -> 0 <= Dq -> LipQin f Lq Lqu -> (forall i, (i < f_nq f)%nat -> Close t order Dq (qs i) (qd i)) -> (forall i v, (i < f_nq f)%nat -> node t 0 < v <= node t (ivals t) -> qd i v = f_quad f (dae_at xd xs zs us pv g' v) i) ->
     (forall n i, (n <= ivals t)%nat -> (i < f_nq f)%nat -> Rabs (at_m (sc_q s) i n - (qs i (node t n) - qs i (node t 0))) <= (node t n - node t 0) * (al * (Lq * (C * stiffF C nu Lu d D (err m S_ x xs t 0%nat) t n) + Lqu * d) + (1 + al) * Dq)) /\
     (forall n j i, (n < ivals t)%nat -> (j < order)%nat -> (i < f_nq f)%nat -> Rabs (at_m (sc_Q s) i (n * order + j) - (qs i (node (sc_tc s) (n * order + j)) - qs i (node t 0))) <= (node t (n + 1) - node t 0) * (al * (Lq * (C * stiffF C nu Lu d D (err m S_ x xs t 0%nat) t (n + 1)%nat) + Lqu * d) + (1 + al) * Dq))) /\
  (forall pp, piecewise_X s x K = Ok pp -> forall n i v, (n < ivals t)%nat -> (i < m)%nat -> node t n < v <= node t (n + 1) -> Rabs (ppval pp "left" i v - xs i v) <= lam * (C * stiffF C nu Lu d D (err m S_ x xs t 0%nat) t (n + 1)%nat + step t n * D) + step t n * D).
Proof. exact stiff_fed. Qed.

(** The constant depends on the points, the inner product, the rates and the length of the interval only, not on the Lipschitz constant [L], the DAE, the solution or the grid. *)
Section S1.
Context (tau : list R) (m : nat) (S_ : nat -> nat -> R) (Hd : NoDup tau) (H1 : (1 <= length tau)%nat) (HG : GaussRadau tau) (HS : PosDef m S_).
Context (nu Lu Lz Lzu Lq Lqu c T : R) (Hnu : 0 <= nu) (HLu : 0 <= Lu) (HLz0 : 0 <= Lz) (HLzu0 : 0 <= Lzu) (HLq0 : 0 <= Lq) (HLqu0 : 0 <= Lqu) (Hc : 0 <= c) (HT0 : 0 <= T).
Theorem C117_rate : exists C, 0 <= C /\ forall cspts f order method g a b L G H, Points cspts order method tau -> DaeOk f -> TdpOk f g -> f_nx f = m -> a < b <= a + T -> OneSided f S_ nu -> Resolvable f G H -> LipDae f L -> LipInput f Lu -> LipZin f Lz Lzu -> LipQin f Lq Lqu ->
  forall xd xs zs us pv qs qd, SolvesDae f [a; b] xd xs zs us pv g -> (forall i, (i < m)%nat -> Follows a b (xs i) (xd i) /\ LipOn a b c (xd i)) -> (forall i, (i < f_nu f)%nat -> LipOn a b c (us i)) ->
  (forall i, (i < f_nq f)%nat -> Follows a b (qs i) (qd i) /\ LipOn a b c (qd i)) -> (forall i v, (i < f_nq f)%nat -> a < v <= b -> qd i v = f_quad f (dae_at xd xs zs us pv g v) i) ->
  forall t dl u p rep x K Z s e, 0 <= dl -> dl * nu <= 1 / 8 -> FineGrid t a b dl -> TakenFrom f t u p us pv -> VarsOk f (ivals t) order rep x K Z u p -> scheme_ cspts f t order method g rep x K Z u p = Ok s -> veccat_master (sc_eq s) = Ok e -> AllZero e -> (forall i, (i < m)%nat -> Rabs (at_m x i 0 - xs i a) <= dl) ->
  (forall n i, (n <= ivals t)%nat -> (i < m)%nat -> Rabs (at_m x i n - xs i (node t n)) <= C * dl) /\
  (forall n j i, (n < ivals t)%nat -> (j < order)%nat -> (i < m)%nat -> Rabs (at_m (sc_X s) i (n * order + j) - xs i (node (sc_tc s) (n * order + j))) <= C * dl) /\
  (forall pp i v, piecewise_X s x K = Ok pp -> (i < m)%nat -> a < v <= b -> Rabs (ppval pp "left" i v - xs i v) <= C * dl) /\
  (forall n j i, (n < ivals t)%nat -> (j < order)%nat -> (i < f_nz f)%nat -> Rabs (at_m Z i (n * order + j) - zs i (node (sc_tc s) (n * order + j))) <= C * dl) /\
  (forall n i, (n <= ivals t)%nat -> (i < f_nq f)%nat -> Rabs (at_m (sc_q s) i n - (qs i (node t n) - qs i a)) <= C * dl) /\
  (forall n j i, (n < ivals t)%nat -> (j < order)%nat -> (i < f_nq f)%nat -> Rabs (at_m (sc_Q s) i (n * order + j) - (qs i (node (sc_tc s) (n * order + j)) - qs i a)) <= C * dl).
Proof. exact (stiff_rate tau m S_ Hd H1 HG HS nu Lu Lz Lzu Lq Lqu c T Hnu HLu HLz0 HLzu0 HLq0 HLqu0 Hc HT0). Qed.
Theorem C117_integrator_rate : exists C, 0 <= C /\ forall cspts f order method g a b L G H, Points cspts order method tau -> DaeOk f -> TdpOk f g -> f_nx f = m -> f_ndae f = (f_nx f + f_nz f)%nat -> a < b <= a + T -> OneSided f S_ nu -> Resolvable f G H -> LipDae f L -> LipInput f Lu -> LipZin f Lz Lzu -> LipQin f Lq Lqu ->
  forall xd xs zs us pv qs qd, SolvesDae f [a; b] xd xs zs us pv g -> (forall i, (i < m)%nat -> Follows a b (xs i) (xd i) /\ LipOn a b c (xd i)) -> (forall i, (i < f_nu f)%nat -> LipOn a b c (us i)) ->
  (forall i, (i < f_nq f)%nat -> Follows a b (qs i) (qd i) /\ LipOn a b c (qd i)) -> (forall i v, (i < f_nq f)%nat -> a < v <= b -> qd i v = f_quad f (dae_at xd xs zs us pv g v) i) ->
  forall t dl u p rf nan x0 z0 out pp, 0 <= dl -> dl * nu <= 1 / 8 -> FineGrid t a b dl -> TakenFrom f t u p us pv -> Shaped u (f_nu f) (ivals t) -> Shaped p (f_np f) 1 -> RootFinder rf ->
  integrate_ rf nan cspts f t order method g true x0 z0 u p = Ok (out, pp) -> (forall i, (i < m)%nat -> Rabs (x0 i - xs i a) <= dl) ->
  (forall n i, (n < ivals t)%nat -> (i < m)%nat -> Rabs (at_m (io_xf out) i n - xs i (node t (n + 1))) <= C * dl) /\
  (forall n j i, (n < ivals t)%nat -> (j < order)%nat -> (i < m)%nat -> Rabs (at_m (io_X out) i (n * order + j) - xs i (node (io_tc out) (n * order + j))) <= C * dl) /\
  (forall n j i, (n < ivals t)%nat -> (j < order)%nat -> (i < f_nz f)%nat -> Rabs (at_m (io_Z out) i (n * order + j) - zs i (node (io_tc out) (n * order + j))) <= C * dl) /\
  (forall i, (i < f_nq f)%nat -> Rabs (io_qf out i - (qs i b - qs i a)) <= C * dl) /\
  (forall i v, (i < m)%nat -> a < v <= b -> Rabs (ppval pp "left" i v - xs i v) <= C * dl).
Proof. exact (stiff_rate_integrator tau m S_ Hd H1 HG HS nu Lu Lz Lzu Lq Lqu c T Hnu HLu HLz0 HLzu0 HLq0 HLqu0 Hc HT0). Qed.
End S1.

Print Assumptions C117_error_bound.
Print Assumptions C117_rate.
Print Assumptions C117_integrator_rate.
