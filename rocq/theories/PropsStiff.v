(** Property theorems about points at the end of intervals and fast dynamics (C107). *)
From Coq Require Import Reals Lra.
From Coquelicot Require Import Coquelicot.
From Verif Require Import PyBase IndexModel DMModel StructModel StructsModel IneqModel DaeModel NumModel NumInst PolynomialModel PiecewiseModel PdqModel SchemeModel
  PolySpec PdqSpec SchemeSpec SchemeExamples OrderSpec OrderExamples ConvSpec GridSpec RevExamples StiffSpec StiffThms StiffExamples.
Open Scope R_scope.

Section End.
Context (cspts : nat -> string -> res (list R)) (f : daefun R) (t : list R) (order : nat) (method : string) (tau : list R) (g : option (R -> mat R)).
Context (HP : Points cspts order method tau) (HL : (2 <= length t)%nat) (HD : DaeOk f) (HT : TdpOk f g).
Notation N := (ivals t).
Theorem C107_end_point : forall rep x K Z u p s e j, VarsOk f N order rep x K Z u p -> scheme_ cspts f t order method g rep x K Z u p = Ok s -> veccat_master (sc_eq s) = Ok e -> AllZero e -> (j < order)%nat -> node tau j = 1 -> forall n, (n < N)%nat ->
  node (sc_tc s) (n * order + j) = node t (n + 1) /\ (forall i, (i < f_nx f)%nat -> at_m (sc_X s) i (n * order + j) = at_m x i (n + 1)) /\
  (forall i, (i < f_nq f)%nat -> at_m (sc_Q s) i (n * order + j) = at_m (sc_q s) i (n + 1)) /\ Solves f (grid_args t order rep g x K Z u p n j).
Proof. intros rep x K Z u p s e j HV. exact (end_point cspts f t order method tau g rep x K Z u p HP HL HD HT HV s e j). Qed.
Theorem C107_integrator_end : forall u p rf nan x0 z0 out j, f_ndae f = (f_nx f + f_nz f)%nat -> Shaped u (f_nu f) N -> Shaped p (f_np f) 1 ->
  RootFinder rf -> integrator_ rf nan cspts f t order method g x0 z0 u p = Ok out -> (j < order)%nat -> node tau j = 1 -> forall n, (n < N)%nat ->
  node (io_tc out) (n * order + j) = node t (n + 1) /\ (forall i, (i < f_nx f)%nat -> at_m (io_X out) i (n * order + j) = at_m (io_xf out) i n) /\
  (forall i, (i < f_nq f)%nat -> at_m (io_Q out) i (N * order - order + j) = io_qf out i).
Proof. intros u p rf nan x0 z0 out j Hq Hu Hp. exact (integrator_end cspts f t order method tau g u p HP HL HD HT Hq Hu Hp rf nan x0 z0 out j). Qed.
End End.

(** The constant depends on the points only. *)
Theorem C107_damping : forall tau, ~ In 0 tau -> exists C, 0 <= C /\
  forall cspts f t order method g eps, Points cspts order method tau -> (2 <= length t)%nat -> DaeOk f -> TdpOk f g -> Asc t -> 0 <= eps -> Relaxes f eps ->
  (forall rep x K Z x' K' Z' u p s s' e e', VarsOk f (ivals t) order rep x K Z u p -> VarsOk f (ivals t) order rep x' K' Z' u p ->
     scheme_ cspts f t order method g rep x K Z u p = Ok s -> veccat_master (sc_eq s) = Ok e -> AllZero e ->
     scheme_ cspts f t order method g rep x' K' Z' u p = Ok s' -> veccat_master (sc_eq s') = Ok e' -> AllZero e' ->
     (forall n B, (n < ivals t)%nat -> 2 * (eps * C) <= step t n -> (forall i, (i < f_nx f)%nat -> Rabs (at_m x i n - at_m x' i n) <= B) ->
        forall i j, (i < f_nx f)%nat -> (j < order)%nat -> Rabs (at_m (sc_X s) i (n * order + j) - at_m (sc_X s') i (n * order + j)) <= 2 * (eps * C) / step t n * B) /\
     (forall r B, In 1 tau -> r <= 1 -> (forall n, (n < ivals t)%nat -> 2 * (eps * C) <= r * step t n) -> (forall i, (i < f_nx f)%nat -> Rabs (at_m x i 0 - at_m x' i 0) <= B) ->
        forall n i, (n <= ivals t)%nat -> (i < f_nx f)%nat -> Rabs (at_m x i n - at_m x' i n) <= r ^ n * B)) /\
  (forall u p r B rf nan x0 z0 out rf' nan' x0' z0' out', f_ndae f = (f_nx f + f_nz f)%nat -> Shaped u (f_nu f) (ivals t) -> Shaped p (f_np f) 1 -> In 1 tau -> r <= 1 -> (forall n, (n < ivals t)%nat -> 2 * (eps * C) <= r * step t n) ->
     RootFinder rf -> RootFinder rf' -> integrator_ rf nan cspts f t order method g x0 z0 u p = Ok out -> integrator_ rf' nan' cspts f t order method g x0' z0' u p = Ok out' ->
     (forall i, (i < f_nx f)%nat -> Rabs (x0 i - x0' i) <= B) -> forall n i, (n < ivals t)%nat -> (i < f_nx f)%nat -> Rabs (at_m (io_xf out) i n - at_m (io_xf out') i n) <= r ^ (n + 1) * B).
Proof. exact damping_all. Qed.

(** With Legendre's point 1/2 there is no bound below 1 however fast the dynamics are. *)
Theorem C107_legendre_undamped : forall r, r < 1 -> exists eps y1 k s s' e e', 0 < eps /\ Relaxes (bf (- / eps)) eps /\ bsch (1 / 2) (- / eps) 1 y1 k = Ok s /\ veccat_master (sc_eq s) = Ok e /\ AllZero e /\
  bsch (1 / 2) (- / eps) 0 0 0 = Ok s' /\ veccat_master (sc_eq s') = Ok e' /\ AllZero e' /\ (forall eps', 0 < eps' < eps -> exists y k s e, bsch (1 / 2) (- / eps') 1 y k = Ok s /\ veccat_master (sc_eq s) = Ok e /\ AllZero e /\ r < Rabs y) /\ r < Rabs y1.
Proof. exact legendre_undamped_refuted. Qed.

Print Assumptions C107_end_point.
Print Assumptions C107_integrator_end.
Print Assumptions C107_damping.
Print Assumptions C107_legendre_undamped.
