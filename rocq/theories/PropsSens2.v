(** C114: results depend on controls, parameters and initial states with explicit constants, for short steps and any points. *)
From Coq Require Import Reals Lra.
From Coquelicot Require Import Coquelicot.
From Verif Require Import PyBase IndexModel DMModel StructModel StructsModel IneqModel DaeModel NumModel NumInst PolynomialModel PiecewiseModel PdqModel SchemeModel
  PolySpec PiecewiseSpec PdqSpec SchemeSpec OrderSpec ConvSpec GridSpec ErrSpec MonoSpec SuperSpec DissSpec DissThms4 DissErrThms SensSpec SensThms2 Sens2Spec SensThms3.
Open Scope R_scope.

(** The bounds at grid time [n], and at the collocation points of interval [n], from the difference [e] of the initial states *)
Notation shortB al L D e t n := (exp (2 * al * L * (node t n - node t 0)) * (e + (node t n - node t 0) * (al * D))).
Notation stageB al L D e t n := (2 * shortB al L D e t (n + 1)).

Section S1.
Context (cspts : nat -> string -> res (list R)) (f : daefun R) (t : list R) (order : nat) (method : string) (tau : list R) (g g' : option (R -> mat R)).
Context (HP : Points cspts order method tau) (HL : (2 <= length t)%nat) (HD : DaeOk f) (HT : TdpOk f g) (HT' : TdpOk f g') (HA : Asc t) (HU : InUnit tau).
Context (al L Lu d e0 : R) (Hal : CoefBound tau al) (HS : ShortSteps t al L) (Lip : LipXin f L Lu) (HLu : 0 <= Lu) (Hd0 : 0 <= d).
Theorem C114_sens_scheme : forall rep rep' x K Z u p s e x' K' Z' u' p' s' e', NearInputs f t d g g' u p u' p' -> VarsOk f (ivals t) order rep x K Z u p -> scheme_ cspts f t order method g rep x K Z u p = Ok s -> veccat_master (sc_eq s) = Ok e -> AllZero e ->
  VarsOk f (ivals t) order rep' x' K' Z' u' p' -> scheme_ cspts f t order method g' rep' x' K' Z' u' p' = Ok s' -> veccat_master (sc_eq s') = Ok e' -> AllZero e' ->
  0 <= e0 -> (forall i, (i < f_nx f)%nat -> Rabs (at_m x i 0 - at_m x' i 0) <= e0) ->
  (forall n i, (n <= ivals t)%nat -> (i < f_nx f)%nat -> Rabs (at_m x i n - at_m x' i n) <= shortB al L (Lu * d) e0 t n) /\
  (forall n j i, (n < ivals t)%nat -> (j < order)%nat -> (i < f_nx f)%nat -> Rabs (at_m (sc_X s) i (n * order + j) - at_m (sc_X s') i (n * order + j)) <= stageB al L (Lu * d) e0 t n) /\
  (forall n j i, (n < ivals t)%nat -> (j < order)%nat -> (i < f_nx f)%nat -> Rabs (at_m K i (n * order + j) - at_m K' i (n * order + j)) <= L * stageB al L (Lu * d) e0 t n + Lu * d) /\
  (forall Lz Lzu, LipZin f Lz Lzu -> forall n j i, (n < ivals t)%nat -> (j < order)%nat -> (i < f_nz f)%nat -> Rabs (at_m Z i (n * order + j) - at_m Z' i (n * order + j)) <= Lz * stageB al L (Lu * d) e0 t n + Lzu * d) /\
  (forall Lq Lqu, 0 <= Lq -> 0 <= Lqu -> LipQin f Lq Lqu ->
     (forall n i, (n <= ivals t)%nat -> (i < f_nq f)%nat -> Rabs (at_m (sc_q s) i n - at_m (sc_q s') i n) <= (node t n - node t 0) * (al * (Lq * (2 * shortB al L (Lu * d) e0 t n) + Lqu * d))) /\
     (forall n j i, (n < ivals t)%nat -> (j < order)%nat -> (i < f_nq f)%nat -> Rabs (at_m (sc_Q s) i (n * order + j) - at_m (sc_Q s') i (n * order + j)) <= (node t (n + 1) - node t 0) * (al * (Lq * stageB al L (Lu * d) e0 t n + Lqu * d)))).
Proof. exact (sens_short cspts f t order method tau g g' HP HL HD HT HT' HA HU al L Lu d e0 Hal HS Lip HLu Hd0). Qed.
Theorem C114_sens_integrator : forall rf rf' nan x0 z0 u p out x0' z0' u' p' out', NearInputs f t d g g' u p u' p' -> f_ndae f = (f_nx f + f_nz f)%nat -> Shaped u (f_nu f) (ivals t) -> Shaped p (f_np f) 1 -> Shaped u' (f_nu f) (ivals t) -> Shaped p' (f_np f) 1 -> RootFinder rf -> RootFinder rf' ->
  integrator_ rf nan cspts f t order method g x0 z0 u p = Ok out -> integrator_ rf' nan cspts f t order method g' x0' z0' u' p' = Ok out' -> 0 <= e0 -> (forall i, (i < f_nx f)%nat -> Rabs (x0 i - x0' i) <= e0) ->
  (forall n i, (n < ivals t)%nat -> (i < f_nx f)%nat -> Rabs (at_m (io_xf out) i n - at_m (io_xf out') i n) <= shortB al L (Lu * d) e0 t (n + 1)) /\
  (forall n j i, (n < ivals t)%nat -> (j < order)%nat -> (i < f_nx f)%nat -> Rabs (at_m (io_X out) i (n * order + j) - at_m (io_X out') i (n * order + j)) <= stageB al L (Lu * d) e0 t n) /\
  (forall Lz Lzu, LipZin f Lz Lzu -> forall n j i, (n < ivals t)%nat -> (j < order)%nat -> (i < f_nz f)%nat -> Rabs (at_m (io_Z out) i (n * order + j) - at_m (io_Z out') i (n * order + j)) <= Lz * stageB al L (Lu * d) e0 t n + Lzu * d) /\
  (forall Lq Lqu, 0 <= Lq -> 0 <= Lqu -> LipQin f Lq Lqu -> forall i, (i < f_nq f)%nat -> Rabs (io_qf out i - io_qf out' i) <= (node t (ivals t) - node t 0) * (al * (Lq * (2 * shortB al L (Lu * d) e0 t (ivals t)) + Lqu * d))).
Proof. exact (sens_short_integrator cspts f t order method tau g g' HP HL HD HT HT' HA HU al L Lu d e0 Hal HS Lip HLu Hd0). Qed.
End S1.

Print Assumptions C114_sens_scheme.
Print Assumptions C114_sens_integrator.
