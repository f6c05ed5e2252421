(** C115: errors of results with inexact inputs, and convergence on refined grids. *)
From Coq Require Import Reals List Lra.
From Coquelicot Require Import Coquelicot.
From Verif Require Import PyBase IndexModel DMModel StructModel StructsModel IneqModel DaeModel NumModel NumInst PolynomialModel PiecewiseModel PdqModel SchemeModel
  PolySpec PiecewiseSpec PdqSpec SchemeSpec OrderSpec ConvSpec GridSpec ErrSpec MonoSpec SuperSpec DissSpec DissThms4 DissErrThms SensSpec SensThms2 Sens2Spec SensThms3 RefineSpec RefineThms RefineThms2 RefineThms3.
Import ListNotations.
Open Scope R_scope.

(** The bound at grid time [n], from errors [e] of the initial states, [d] of the inputs and [D] of the best approximation of the solution's derivatives by polynomials *)
Notation fedB al L Lu d D e t n := (exp (2 * al * L * (node t n - node t 0)) * (e + (node t n - node t 0) * (al * (Lu * d) + (1 + al) * D))).

Section S1.
Context (cspts : nat -> string -> res (list R)) (f : daefun R) (t : list R) (order : nat) (method : string) (tau : list R) (g g' : option (R -> mat R)).
Context (HP : Points cspts order method tau) (HL : (2 <= length t)%nat) (HD : DaeOk f) (HT : TdpOk f g) (HA : Asc t) (HU : InUnit tau).
Context (al L Lu d D e0 : R) (Hal : CoefBound tau al) (HS : ShortSteps t al L) (Lip : LipXin f L Lu) (HLu : 0 <= Lu) (Hd0 : 0 <= d) (HD0 : 0 <= D) (He0 : 0 <= e0).
Context (xd xs zs us : nat -> R -> R) (pv : nat -> R) (u p : mat R) (HSol : SolvesDae f t xd xs zs us pv g') (HF : NearFed f t d g g' u p us pv) (HCl : forall i, (i < f_nx f)%nat -> Close t order D (xs i) (xd i)).
Theorem C115_error_bound : forall rep x K Z s e, VarsOk f (ivals t) order rep x K Z u p -> scheme_ cspts f t order method g rep x K Z u p = Ok s -> veccat_master (sc_eq s) = Ok e -> AllZero e -> (forall i, (i < f_nx f)%nat -> Rabs (at_m x i 0 - xs i (node t 0)) <= e0) ->
  (forall n i, (n <= ivals t)%nat -> (i < f_nx f)%nat -> Rabs (at_m x i n - xs i (node t n)) <= fedB al L Lu d D e0 t n) /\
  (forall n j i, (n < ivals t)%nat -> (j < order)%nat -> (i < f_nx f)%nat -> Rabs (at_m (sc_X s) i (n * order + j) - xs i (node (sc_tc s) (n * order + j))) <= 2 * fedB al L Lu d D e0 t (n + 1)) /\
  (forall n j i, (n < ivals t)%nat -> (j < order)%nat -> (i < f_nx f)%nat -> Rabs (at_m K i (n * order + j) - xd i (node (sc_tc s) (n * order + j))) <= L * (2 * fedB al L Lu d D e0 t (n + 1)) + Lu * d) /\
  (forall Lz Lzu, LipZin f Lz Lzu -> forall n j i, (n < ivals t)%nat -> (j < order)%nat -> (i < f_nz f)%nat -> Rabs (at_m Z i (n * order + j) - zs i (node (sc_tc s) (n * order + j))) <= Lz * (2 * fedB al L Lu d D e0 t (n + 1)) + Lzu * d) /\
  (forall Lq Lqu Dq qs qd, 0 <= Lq -> 0 <= Lqu -> 0 <= Dq -> LipQin f Lq Lqu -> (forall i, (i < f_nq f)%nat -> Close t order Dq (qs i) (qd i)) -> (forall i v, (i < f_nq f)%nat -> node t 0 < v <= node t (ivals t) -> qd i v = f_quad f (dae_at xd xs zs us pv g' v) i) ->
     (forall n i, (n <= ivals t)%nat -> (i < f_nq f)%nat -> Rabs (at_m (sc_q s) i n - (qs i (node t n) - qs i (node t 0))) <= (node t n - node t 0) * (al * (Lq * (2 * fedB al L Lu d D e0 t n) + Lqu * d) + (1 + al) * Dq)) /\
     (forall n j i, (n < ivals t)%nat -> (j < order)%nat -> (i < f_nq f)%nat -> Rabs (at_m (sc_Q s) i (n * order + j) - (qs i (node (sc_tc s) (n * order + j)) - qs i (node t 0))) <= (node t (n + 1) - node t 0) * (al * (Lq * (2 * fedB al L Lu d D e0 t (n + 1)) + Lqu * d) + (1 + al) * Dq))) /\
  (forall lam pp, Lebesgue (0 :: tau) lam -> piecewise_X s x K = Ok pp -> forall n i v, (n < ivals t)%nat -> (i < f_nx f)%nat -> node t n < v <= node t (n + 1) -> Rabs (ppval pp "left" i v - xs i v) <= lam * (2 * fedB al L Lu d D e0 t (n + 1) + step t n * D) + step t n * D).
Proof. exact (fed_error cspts f t order method tau g g' HP HL HD HT HA HU al L Lu d D e0 Hal HS Lip HLu Hd0 HD0 He0 xd xs zs us pv u p HSol HF HCl). Qed.
End S1.

Section S2.
Context (cspts : nat -> string -> res (list R)) (f : daefun R) (order : nat) (method : string) (tau : list R) (g : option (R -> mat R)) (a b : R).
Context (HP : Points cspts order method tau) (HU : InUnit tau) (HD : DaeOk f) (HT : TdpOk f g) (Hab : a < b).
Context (L Lu : R) (HL0 : 0 <= L) (HLu : 0 <= Lu) (Lip : LipXin f L Lu).
Context (xd xs zs us : nat -> R -> R) (pv : nat -> R) (HSol : SolvesDae f [a; b] xd xs zs us pv g).
Context (Hx : forall i, (i < f_nx f)%nat -> Follows a b (xs i) (xd i) /\ ContOn a b (xd i)) (Hus : forall i, (i < f_nu f)%nat -> ContOn a b (us i)).
Theorem C115_convergence : forall eps, 0 < eps -> exists dl, 0 < dl /\ forall t u p rep x K Z s e, FineGrid t a b dl -> TakenFrom f t u p us pv -> VarsOk f (ivals t) order rep x K Z u p -> scheme_ cspts f t order method g rep x K Z u p = Ok s -> veccat_master (sc_eq s) = Ok e -> AllZero e -> (forall i, (i < f_nx f)%nat -> Rabs (at_m x i 0 - xs i a) <= dl) ->
  (forall n i, (n <= ivals t)%nat -> (i < f_nx f)%nat -> Rabs (at_m x i n - xs i (node t n)) <= eps) /\
  (forall n j i, (n < ivals t)%nat -> (j < order)%nat -> (i < f_nx f)%nat -> Rabs (at_m (sc_X s) i (n * order + j) - xs i (node (sc_tc s) (n * order + j))) <= eps /\ Rabs (at_m K i (n * order + j) - xd i (node (sc_tc s) (n * order + j))) <= eps) /\
  (forall pp i v, piecewise_X s x K = Ok pp -> (i < f_nx f)%nat -> a < v <= b -> Rabs (ppval pp "left" i v - xs i v) <= eps).
Proof. exact (refine_scheme cspts f order method tau g a b HP HU HD HT Hab L Lu HL0 HLu Lip xd xs zs us pv HSol Hx Hus). Qed.
Context (Lz Lzu Lq Lqu : R) (qs qd : nat -> R -> R) (HLz0 : 0 <= Lz) (HLzu0 : 0 <= Lzu) (HLq0 : 0 <= Lq) (HLqu0 : 0 <= Lqu) (HLz : LipZin f Lz Lzu) (HLq : LipQin f Lq Lqu).
Context (Hq : forall i, (i < f_nq f)%nat -> Follows a b (qs i) (qd i) /\ ContOn a b (qd i)) (HQd : forall i v, (i < f_nq f)%nat -> a < v <= b -> qd i v = f_quad f (dae_at xd xs zs us pv g v) i).
Theorem C115_convergence_outputs : forall eps, 0 < eps -> exists dl, 0 < dl /\ forall t u p rep x K Z s e, FineGrid t a b dl -> TakenFrom f t u p us pv -> VarsOk f (ivals t) order rep x K Z u p -> scheme_ cspts f t order method g rep x K Z u p = Ok s -> veccat_master (sc_eq s) = Ok e -> AllZero e -> (forall i, (i < f_nx f)%nat -> Rabs (at_m x i 0 - xs i a) <= dl) ->
  (forall n j i, (n < ivals t)%nat -> (j < order)%nat -> (i < f_nz f)%nat -> Rabs (at_m Z i (n * order + j) - zs i (node (sc_tc s) (n * order + j))) <= eps) /\
  (forall n i, (n <= ivals t)%nat -> (i < f_nq f)%nat -> Rabs (at_m (sc_q s) i n - (qs i (node t n) - qs i a)) <= eps) /\
  (forall n j i, (n < ivals t)%nat -> (j < order)%nat -> (i < f_nq f)%nat -> Rabs (at_m (sc_Q s) i (n * order + j) - (qs i (node (sc_tc s) (n * order + j)) - qs i a)) <= eps).
Proof. exact (refine_outputs cspts f order method tau g a b HP HU HD HT Hab L Lu HL0 HLu Lip xd xs zs us pv HSol Hx Hus Lz Lzu Lq Lqu qs qd HLz0 HLzu0 HLq0 HLqu0 HLz HLq Hq HQd). Qed.
Theorem C115_integrator_convergence : forall eps, 0 < eps -> f_ndae f = (f_nx f + f_nz f)%nat -> exists dl, 0 < dl /\ forall t u p rf nan x0 z0 out pp, FineGrid t a b dl -> TakenFrom f t u p us pv -> Shaped u (f_nu f) (ivals t) -> Shaped p (f_np f) 1 -> RootFinder rf ->
  integrate_ rf nan cspts f t order method g true x0 z0 u p = Ok (out, pp) -> (forall i, (i < f_nx f)%nat -> Rabs (x0 i - xs i a) <= dl) ->
  (forall n i, (n < ivals t)%nat -> (i < f_nx f)%nat -> Rabs (at_m (io_xf out) i n - xs i (node t (n + 1))) <= eps) /\
  (forall n j i, (n < ivals t)%nat -> (j < order)%nat -> (i < f_nx f)%nat -> Rabs (at_m (io_X out) i (n * order + j) - xs i (node (io_tc out) (n * order + j))) <= eps) /\
  (forall n j i, (n < ivals t)%nat -> (j < order)%nat -> (i < f_nz f)%nat -> Rabs (at_m (io_Z out) i (n * order + j) - zs i (node (io_tc out) (n * order + j))) <= eps) /\
  (forall i, (i < f_nq f)%nat -> Rabs (io_qf out i - (qs i b - qs i a)) <= eps) /\
  (forall i v, (i < f_nx f)%nat -> a < v <= b -> Rabs (ppval pp "left" i v - xs i v) <= eps).
Proof. exact (refine_integrator cspts f order method tau g a b HP HU HD HT Hab L Lu HL0 HLu Lip xd xs zs us pv HSol Hx Hus Lz Lzu Lq Lqu qs qd HLz0 HLzu0 HLq0 HLqu0 HLz HLq Hq HQd). Qed.
End S2.

(** First order for sampled inputs; the constants depend on the problem's constants, the points and the interval only, not on the solution or the grid. *)
Section S3.
Context (cspts : nat -> string -> res (list R)) (f : daefun R) (order : nat) (method : string) (tau : list R) (g : option (R -> mat R)) (a b : R).
Context (HP : Points cspts order method tau) (HU : InUnit tau) (HD : DaeOk f) (HT : TdpOk f g) (Hab : a < b).
Context (L Lu : R) (HL0 : 0 <= L) (HLu : 0 <= Lu) (Lip : LipXin f L Lu).
Context (Lz Lzu Lq Lqu : R) (HLz0 : 0 <= Lz) (HLzu0 : 0 <= Lzu) (HLq0 : 0 <= Lq) (HLqu0 : 0 <= Lqu) (HLz : LipZin f Lz Lzu) (HLq : LipQin f Lq Lqu).
Context (c : R) (Hc : 0 <= c).
Theorem C115_rate : exists C dl0, 0 <= C /\ 0 < dl0 /\ forall xd xs zs us pv qs qd, SolvesDae f [a; b] xd xs zs us pv g -> (forall i, (i < f_nx f)%nat -> Follows a b (xs i) (xd i) /\ LipOn a b c (xd i)) -> (forall i, (i < f_nu f)%nat -> LipOn a b c (us i)) ->
  (forall i, (i < f_nq f)%nat -> Follows a b (qs i) (qd i) /\ LipOn a b c (qd i)) -> (forall i v, (i < f_nq f)%nat -> a < v <= b -> qd i v = f_quad f (dae_at xd xs zs us pv g v) i) ->
  forall t dl u p rep x K Z s e, 0 <= dl <= dl0 -> FineGrid t a b dl -> TakenFrom f t u p us pv -> VarsOk f (ivals t) order rep x K Z u p -> scheme_ cspts f t order method g rep x K Z u p = Ok s -> veccat_master (sc_eq s) = Ok e -> AllZero e -> (forall i, (i < f_nx f)%nat -> Rabs (at_m x i 0 - xs i a) <= dl) ->
  (forall n i, (n <= ivals t)%nat -> (i < f_nx f)%nat -> Rabs (at_m x i n - xs i (node t n)) <= C * dl) /\
  (forall n j i, (n < ivals t)%nat -> (j < order)%nat -> (i < f_nx f)%nat -> Rabs (at_m (sc_X s) i (n * order + j) - xs i (node (sc_tc s) (n * order + j))) <= C * dl /\ Rabs (at_m K i (n * order + j) - xd i (node (sc_tc s) (n * order + j))) <= C * dl) /\
  (forall pp i v, piecewise_X s x K = Ok pp -> (i < f_nx f)%nat -> a < v <= b -> Rabs (ppval pp "left" i v - xs i v) <= C * dl) /\
  (forall n j i, (n < ivals t)%nat -> (j < order)%nat -> (i < f_nz f)%nat -> Rabs (at_m Z i (n * order + j) - zs i (node (sc_tc s) (n * order + j))) <= C * dl) /\
  (forall n i, (n <= ivals t)%nat -> (i < f_nq f)%nat -> Rabs (at_m (sc_q s) i n - (qs i (node t n) - qs i a)) <= C * dl) /\
  (forall n j i, (n < ivals t)%nat -> (j < order)%nat -> (i < f_nq f)%nat -> Rabs (at_m (sc_Q s) i (n * order + j) - (qs i (node (sc_tc s) (n * order + j)) - qs i a)) <= C * dl).
Proof. exact (rate_scheme cspts f order method tau g a b HP HU HD HT Hab L Lu HL0 HLu Lip Lz Lzu Lq Lqu HLz0 HLzu0 HLq0 HLqu0 HLz HLq c Hc). Qed.
Theorem C115_integrator_rate : f_ndae f = (f_nx f + f_nz f)%nat -> exists C dl0, 0 <= C /\ 0 < dl0 /\ forall xd xs zs us pv qs qd, SolvesDae f [a; b] xd xs zs us pv g -> (forall i, (i < f_nx f)%nat -> Follows a b (xs i) (xd i) /\ LipOn a b c (xd i)) -> (forall i, (i < f_nu f)%nat -> LipOn a b c (us i)) ->
  (forall i, (i < f_nq f)%nat -> Follows a b (qs i) (qd i) /\ LipOn a b c (qd i)) -> (forall i v, (i < f_nq f)%nat -> a < v <= b -> qd i v = f_quad f (dae_at xd xs zs us pv g v) i) ->
  forall t dl u p rf nan x0 z0 out pp, 0 <= dl <= dl0 -> FineGrid t a b dl -> TakenFrom f t u p us pv -> Shaped u (f_nu f) (ivals t) -> Shaped p (f_np f) 1 -> RootFinder rf ->
  integrate_ rf nan cspts f t order method g true x0 z0 u p = Ok (out, pp) -> (forall i, (i < f_nx f)%nat -> Rabs (x0 i - xs i a) <= dl) ->
  (forall n i, (n < ivals t)%nat -> (i < f_nx f)%nat -> Rabs (at_m (io_xf out) i n - xs i (node t (n + 1))) <= C * dl) /\
  (forall n j i, (n < ivals t)%nat -> (j < order)%nat -> (i < f_nx f)%nat -> Rabs (at_m (io_X out) i (n * order + j) - xs i (node (io_tc out) (n * order + j))) <= C * dl) /\
  (forall n j i, (n < ivals t)%nat -> (j < order)%nat -> (i < f_nz f)%nat -> Rabs (at_m (io_Z out) i (n * order + j) - zs i (node (io_tc out) (n * order + j))) <= C * dl) /\
  (forall i, (i < f_nq f)%nat -> Rabs (io_qf out i - (qs i b - qs i a)) <= C * dl) /\
  (forall i v, (i < f_nx f)%nat -> a < v <= b -> Rabs (ppval pp "left" i v - xs i v) <= C * dl).
Proof. exact (rate_integrator cspts f order method tau g a b HP HU HD HT Hab L Lu HL0 HLu Lip Lz Lzu Lq Lqu HLz0 HLzu0 HLq0 HLqu0 HLz HLq c Hc). Qed.
End S3.

Print Assumptions C115_error_bound.
Print Assumptions C115_convergence.
Print Assumptions C115_convergence_outputs.
Print Assumptions C115_integrator_convergence.
Print Assumptions C115_rate.
Print Assumptions C115_integrator_rate.
