(** C113: results depend on controls, parameters and initial states independent of stiffness. *)
From Coq Require Import Reals Lra.
From Coquelicot Require Import Coquelicot.
From Verif Require Import PyBase IndexModel DMModel StructModel StructsModel IneqModel DaeModel NumModel NumInst PolynomialModel PiecewiseModel PdqModel SchemeModel
  PolySpec PiecewiseSpec PdqSpec SchemeSpec OrderSpec ConvSpec GridSpec ErrSpec MonoSpec SuperSpec DissSpec DissThms4 DissErrThms SensSpec SensThms2.
Open Scope R_scope.

(** The bound up to grid time [n], from the difference [e] of the initial states *)
Notation dst m S x y n := (norm m S (fun i => at_m x i n - at_m y i n)).
Notation sensB C nu D e t n := (exp (C * nu * (node t n - node t 0)) * (e + (node t n - node t 0) * (C * D))).

(** [C] and [al] depend on the points and the inner product only. *)
Theorem C113_sens_scheme : forall tau m S_, NoDup tau -> (1 <= length tau)%nat -> GaussRadau tau -> PosDef m S_ -> exists C al, 0 <= C /\ 0 <= al /\
  forall cspts f t order method nu L G H Lu d g g' rep rep' x K Z u p s e x' K' Z' u' p' s' e', Points cspts order method tau -> (2 <= length t)%nat -> DaeOk f -> TdpOk f g -> TdpOk f g' -> f_nx f = m -> Asc t -> OneSided f S_ nu -> MildSteps t nu -> Resolvable f G H -> LipDae f L -> 0 <= Lu -> 0 <= d -> LipInput f Lu ->
  NearInputs f t d g g' u p u' p' -> VarsOk f (ivals t) order rep x K Z u p -> scheme_ cspts f t order method g rep x K Z u p = Ok s -> veccat_master (sc_eq s) = Ok e -> AllZero e ->
  VarsOk f (ivals t) order rep' x' K' Z' u' p' -> scheme_ cspts f t order method g' rep' x' K' Z' u' p' = Ok s' -> veccat_master (sc_eq s') = Ok e' -> AllZero e' ->
  (forall n, (n <= ivals t)%nat -> dst m S_ x x' n <= sensB C nu (Lu * d) (dst m S_ x x' 0) t n) /\
  (forall n j i, (n < ivals t)%nat -> (j < order)%nat -> (i < m)%nat -> Rabs (at_m (sc_X s) i (n * order + j) - at_m (sc_X s') i (n * order + j)) <= C * sensB C nu (Lu * d) (dst m S_ x x' 0) t (n + 1)) /\
  (forall Lz Lzu, LipZin f Lz Lzu -> forall n j i, (n < ivals t)%nat -> (j < order)%nat -> (i < f_nz f)%nat -> Rabs (at_m Z i (n * order + j) - at_m Z' i (n * order + j)) <= Lz * (C * sensB C nu (Lu * d) (dst m S_ x x' 0) t (n + 1)) + Lzu * d) /\
  (forall Lq Lqu, 0 <= Lq -> 0 <= Lqu -> LipQin f Lq Lqu ->
     (forall n i, (n <= ivals t)%nat -> (i < f_nq f)%nat -> Rabs (at_m (sc_q s) i n - at_m (sc_q s') i n) <= (node t n - node t 0) * (al * (Lq * (C * sensB C nu (Lu * d) (dst m S_ x x' 0) t n) + Lqu * d))) /\
     (forall n j i, (n < ivals t)%nat -> (j < order)%nat -> (i < f_nq f)%nat -> Rabs (at_m (sc_Q s) i (n * order + j) - at_m (sc_Q s') i (n * order + j)) <= (node t (n + 1) - node t 0) * (al * (Lq * (C * sensB C nu (Lu * d) (dst m S_ x x' 0) t (n + 1)) + Lqu * d)))).
Proof. exact sens_scheme. Qed.
(** [C] and [al] depend on the points and the inner product only. *)
Theorem C113_sens_integrator : forall tau m S_, NoDup tau -> (1 <= length tau)%nat -> GaussRadau tau -> PosDef m S_ -> exists C al, 0 <= C /\ 0 <= al /\
  forall cspts f t order method nu L G H Lu d g g' rf rf' nan x0 z0 u p out x0' z0' u' p' out', Points cspts order method tau -> (2 <= length t)%nat -> DaeOk f -> TdpOk f g -> TdpOk f g' -> f_nx f = m -> Asc t -> OneSided f S_ nu -> MildSteps t nu -> Resolvable f G H -> LipDae f L -> 0 <= Lu -> 0 <= d -> LipInput f Lu ->
  NearInputs f t d g g' u p u' p' -> f_ndae f = (f_nx f + f_nz f)%nat -> Shaped u (f_nu f) (ivals t) -> Shaped p (f_np f) 1 -> Shaped u' (f_nu f) (ivals t) -> Shaped p' (f_np f) 1 -> RootFinder rf -> RootFinder rf' ->
  integrator_ rf nan cspts f t order method g x0 z0 u p = Ok out -> integrator_ rf' nan cspts f t order method g' x0' z0' u' p' = Ok out' ->
  (forall n, (n < ivals t)%nat -> dst m S_ (io_xf out) (io_xf out') n <= sensB C nu (Lu * d) (norm m S_ (fun i => x0 i - x0' i)) t (n + 1)) /\
  (forall n j i, (n < ivals t)%nat -> (j < order)%nat -> (i < m)%nat -> Rabs (at_m (io_X out) i (n * order + j) - at_m (io_X out') i (n * order + j)) <= C * sensB C nu (Lu * d) (norm m S_ (fun i => x0 i - x0' i)) t (n + 1)) /\
  (forall Lz Lzu, LipZin f Lz Lzu -> forall n j i, (n < ivals t)%nat -> (j < order)%nat -> (i < f_nz f)%nat -> Rabs (at_m (io_Z out) i (n * order + j) - at_m (io_Z out') i (n * order + j)) <= Lz * (C * sensB C nu (Lu * d) (norm m S_ (fun i => x0 i - x0' i)) t (n + 1)) + Lzu * d) /\
  (forall Lq Lqu, 0 <= Lq -> 0 <= Lqu -> LipQin f Lq Lqu -> forall i, (i < f_nq f)%nat -> Rabs (io_qf out i - io_qf out' i) <= (node t (ivals t) - node t 0) * (al * (Lq * (C * sensB C nu (Lu * d) (norm m S_ (fun i => x0 i - x0' i)) t (ivals t)) + Lqu * d))).
Proof. exact sens_integrator. Qed.

Print Assumptions C113_sens_scheme.
Print Assumptions C113_sens_integrator.
