(** Property theorems about errors that do not depend on stiffness (C109). *)
From Coq Require Import Reals Lra.
From Coquelicot Require Import Coquelicot.
From Verif Require Import PyBase IndexModel DMModel StructModel StructsModel IneqModel DaeModel NumModel NumInst PolynomialModel PiecewiseModel PdqModel SchemeModel
  PolySpec PdqSpec SchemeSpec SchemeExamples OrderSpec OrderExamples ConvSpec GridSpec RevExamples StiffExamples MonoSpec MonoExamples SuperSpec DissSpec DissThms4 DissExamples.
Open Scope R_scope.

(** [C] depends on the points and the inner product only: not on the DAE, its Lipschitz constant [L], the grid or the solution. *)
Theorem C109_stiff_error : forall tau m S_, NoDup tau -> (1 <= length tau)%nat -> GaussRadau tau -> PosDef m S_ -> exists C, 0 <= C /\
  forall cspts f t order method g nu L G H D xd xs zs us pv u p, Points cspts order method tau -> (2 <= length t)%nat -> DaeOk f -> TdpOk f g -> f_nx f = m -> Asc t -> OneSided f S_ nu -> MildSteps t nu -> Resolvable f G H -> LipDae f L -> 0 <= D ->
  SolvesDae f t xd xs zs us pv g -> FedBy f t u p us pv -> (forall i, (i < m)%nat -> Close t order D (xs i) (xd i)) ->
  (forall rep x K Z s e, VarsOk f (ivals t) order rep x K Z u p -> scheme_ cspts f t order method g rep x K Z u p = Ok s -> veccat_master (sc_eq s) = Ok e -> AllZero e ->
     (forall n, (n <= ivals t)%nat -> err m S_ x xs t n <= exp (C * nu * (node t n - node t 0)) * (err m S_ x xs t 0%nat + (node t n - node t 0) * (C * D))) /\
     (forall n j i, (n < ivals t)%nat -> (j < order)%nat -> (i < m)%nat -> Rabs (at_m (sc_X s) i (n * order + j) - xs i (node (sc_tc s) (n * order + j))) <=
        C * (exp (C * nu * (node t n - node t 0)) * (err m S_ x xs t 0%nat + (node t (n + 1) - node t 0) * (C * D))))) /\
  (forall rf nan x0 z0 out, f_ndae f = (f_nx f + f_nz f)%nat -> Shaped u (f_nu f) (ivals t) -> Shaped p (f_np f) 1 -> RootFinder rf -> integrator_ rf nan cspts f t order method g x0 z0 u p = Ok out -> (forall i, (i < m)%nat -> xs i (node t 0) = x0 i) ->
     (forall n, (n < ivals t)%nat -> norm m S_ (fun i => at_m (io_xf out) i n - xs i (node t (n + 1))) <= exp (C * nu * (node t (n + 1) - node t 0)) * ((node t (n + 1) - node t 0) * (C * D))) /\
     (forall n j i, (n < ivals t)%nat -> (j < order)%nat -> (i < m)%nat -> Rabs (at_m (io_X out) i (n * order + j) - xs i (node (io_tc out) (n * order + j))) <=
        C * (exp (C * nu * (node t n - node t 0)) * ((node t (n + 1) - node t 0) * (C * D))))).
Proof. exact stiff_error. Qed.
(** The [D] of smooth solutions: order [order], whatever the stiffness *)
Theorem C109_smooth : forall t m B H w d, Asc t -> 0 <= B -> (forall n, (n < ivals t)%nat -> step t n <= H) -> (1 <= m)%nat -> Smooth t m B d ->
  (forall n s, (n < ivals t)%nat -> node t n <= s <= node t (n + 1) -> is_RInt d (node t n) s (w s - w (node t n))) -> Close t m (B * H ^ m / INR (fact m)) w d.
Proof. exact close_smooth. Qed.
(** Other points, here 1/4: the error of [x' = - 8 x] grows. *)
Theorem C109_other_points_refuted : OneSided (bf (- 8)) S1 0 /\ PosDef 1 S1 /\ Resolvable (bf (- 8)) (fun v _ => (- 8) * a_x v 0%nat) (fun _ _ => 0) /\ LipDae (bf (- 8)) (Rabs (- 8)) /\ SolvesDae (bf (- 8)) [0; 1] (fun _ _ => 0) (fun _ _ => 0) (fun _ _ => 0) (fun _ _ => 0) (fun _ => 0) None /\
  Close [0; 1] 1 0 (fun _ => 0) (fun _ => 0) /\ exists y1 k s e, bsch (1 / 4) (- 8) 1 y1 k = Ok s /\ veccat_master (sc_eq s) = Ok e /\ AllZero e /\ Rabs (at_m (bx 1 y1) 0 0) < Rabs (at_m (bx 1 y1) 0 1).
Proof. exact other_points_refuted. Qed.

Print Assumptions C109_stiff_error.
Print Assumptions C109_smooth.
Print Assumptions C109_other_points_refuted.
