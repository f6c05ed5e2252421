(** Property theorems about the accuracy of collocation at the grid times (C103). *)
From Coq Require Import Reals Lra.
From Coquelicot Require Import Coquelicot.
From Verif Require Import PyBase IndexModel DMModel StructModel StructsModel IneqModel DaeModel NumModel NumInst PolynomialModel PiecewiseModel PdqModel SchemeModel
  PolySpec PiecewiseSpec PdqSpec SchemeSpec OrderSpec ConvSpec ErrSpec SuperSpec SuperThms.
Open Scope R_scope.

Section Super.
Context (cspts : nat -> string -> res (list R)) (f : daefun R) (t : list R) (order : nat) (method : string) (tau : list R) (g : option (R -> mat R)) (rep : bool).
Context (HP : Points cspts order method tau) (HL : (2 <= length t)%nat) (HD : DaeOk f) (HT : TdpOk f g) (HA : Asc t).
Context (x K Z u p : mat R) (HV : VarsOk f (ivals t) order rep x K Z u p) (s : scheme R) (e : list R) (Es : scheme_ cspts f t order method g rep x K Z u p = Ok s) (Ee : veccat_master (sc_eq s) = Ok e) (Hz : forall v, In v e -> v = 0) (HU : InUnit tau).
Context (xd xs us : nat -> R -> R) (pv : nat -> R) (HF : FedBy f t u p us pv) (HC1 : forall i, (i < f_nx f)%nat -> C1 t (xs i) (xd i)).
Context (pp dp : ppoly R) (Epp : piecewise_X s x K = Ok pp) (Edp : pp_derivative pp = Ok dp).
Context (wd wz : nat -> R -> R) (HW : SolvesDae f t wd (ppval pp "left") wz us pv g).
Context (y yd : nat -> R -> R) (HY : forall i, (i < f_nx f)%nat -> C1 t (y i) (yd i)).
Context (HAd : forall v, node t 0 < v <= node t (ivals t) -> Sum (f_nx f) (fun i => yd i v * (ppval pp "left" i v - xs i v)) + Sum (f_nx f) (fun i => y i v * (wd i v - xd i v)) = 0).
Notation N := (ivals t).
Notation wt n := (weighted f t y xs x n).
Notation r := (fun v => Sum (f_nx f) (fun i => y i v * (ppval dp "left" i v - wd i v))).
Theorem C103_error_identity : forall n,
  (n <= N)%nat -> is_RInt r (node t 0) (node t n) (wt n - wt 0).
Proof. exact (error_identity cspts f t order method tau g rep HP HL HD HT HA x K Z u p HV s e Es Ee Hz HU xd xs HC1 pp dp Epp Edp wd y yd HY HAd). Qed.

Context (HDt: Determined f) (k : nat) (HO : Ortho tau k) (Hk : (order <= k + 1)%nat).
Theorem C103_grid_error : forall eps,
  0 <= eps -> Near t (order + k) eps r -> forall n, (n <= N)%nat -> Rabs (wt n - wt 0) <= 2 * (node t n - node t 0) * eps.
Proof. exact (grid_error cspts f t order method tau g rep HP HL HD HT HA x K Z u p HV s e Es Ee Hz HU xd xs us pv HF HC1 pp dp Epp Edp wd wz HW y yd HY HAd HDt k HO Hk). Qed.

End Super.

Theorem C103_adjoint : forall m (J : R -> nat -> nat -> R) (dy yv dxd dx : nat -> R) v,
  (forall i, (i < m)%nat -> dxd i = Sum m (fun j => J v i j * dx j)) -> (forall j, (j < m)%nat -> dy j = - Sum m (fun i => yv i * J v i j)) ->
  Sum m (fun i => dy i * dx i) + Sum m (fun i => yv i * dxd i) = 0.
Proof. exact adjoint_secant. Qed.

Section Orders.
Context (cspts : nat -> string -> res (list R)) (f : daefun R) (t : list R) (order : nat) (method : string) (tau : list R) (g : option (R -> mat R)) (rep : bool).
Context (HP : Points cspts order method tau) (HL : (2 <= length t)%nat) (HD : DaeOk f) (HT : TdpOk f g) (HA : Asc t).
Context (x K Z u p : mat R) (HV : VarsOk f (ivals t) order rep x K Z u p) (s : scheme R) (e : list R) (Es : scheme_ cspts f t order method g rep x K Z u p = Ok s) (Ee : veccat_master (sc_eq s) = Ok e) (Hz : forall v, In v e -> v = 0) (HU : InUnit tau).
Context (xd xs zs us : nat -> R -> R) (pv : nat -> R) (HS : SolvesDae f t xd xs zs us pv g) (HF : FedBy f t u p us pv) (HC1 : forall i, (i < f_nx f)%nat -> C1 t (xs i) (xd i)).
Context (B H : R) (HB : 0 <= B) (HH : forall n, (n < ivals t)%nat -> step t n <= H).
Notation N := (ivals t).
Theorem C103_grid_order : forall pp dp wd wz y yd k,
  piecewise_X s x K = Ok pp -> pp_derivative pp = Ok dp -> SolvesDae f t wd (ppval pp "left") wz us pv g ->
  (forall i, (i < f_nx f)%nat -> C1 t (y i) (yd i)) ->
  (forall v, node t 0 < v <= node t N -> Sum (f_nx f) (fun i => yd i v * (ppval pp "left" i v - xs i v)) + Sum (f_nx f) (fun i => y i v * (wd i v - xd i v)) = 0) ->
  Determined f -> Ortho tau k -> (order <= k + 1)%nat -> Smooth t (order + k) B (fun v => Sum (f_nx f) (fun i => y i v * (ppval dp "left" i v - wd i v))) ->
  forall n, (n <= N)%nat -> Rabs (weighted f t y xs x n - weighted f t y xs x 0) <= 2 * (node t n - node t 0) * (B * H ^ (order + k) / INR (fact (order + k))).
Proof. exact (grid_order cspts f t order method tau g rep HP HL HD HT HA x K Z u p HV s e Es Ee Hz HU xd xs us pv HF HC1 B H HB HH). Qed.

Theorem C103_state_order : forall al L d,
  CoefBound tau al -> ShortSteps t al L -> LipDae f L -> 0 <= d -> (forall i, (i < f_nx f)%nat -> Rabs (at_m x i 0 - xs i (node t 0)) <= d) ->
  (forall i, (i < f_nx f)%nat -> Smooth t order B (xd i)) ->
  forall n i, (n <= N)%nat -> (i < f_nx f)%nat -> Rabs (at_m x i n - xs i (node t n)) <= exp (2 * al * L * (node t n - node t 0)) * (d + (node t n - node t 0) * ((1 + al) * (B * H ^ order / INR (fact order)))).
Proof. exact (state_order cspts f t order method tau g rep HP HL HD HT HA x K Z u p HV s e Es Ee Hz HU xd xs zs us pv HS HF HC1 B H HB HH). Qed.

End Orders.

Section Integrator.
Context (cspts : nat -> string -> res (list R)) (f : daefun R) (t : list R) (order : nat) (method : string) (tau : list R) (g : option (R -> mat R)).
Context (HP : Points cspts order method tau) (HL : (2 <= length t)%nat) (HD : DaeOk f) (HT : TdpOk f g) (Hsq : f_ndae f = (f_nx f + f_nz f)%nat) (HA : Asc t) (HU : InUnit tau).
Context (x0 : nat -> R) (u p : mat R) (Hu : Shaped u (f_nu f) (ivals t)) (Hp : Shaped p (f_np f) 1).
Context (xd xs zs us : nat -> R -> R) (pv : nat -> R) (HS : SolvesDae f t xd xs zs us pv g) (HF : FedBy f t u p us pv) (HC1 : forall i, (i < f_nx f)%nat -> C1 t (xs i) (xd i)) (E0 : forall i, (i < f_nx f)%nat -> xs i (node t 0) = x0 i).
Context (rf : (list R -> res (list R)) -> list R -> res (list R)) (nan : R) (z0 : nat -> R) (Hrf : RootFinder rf).
Notation N := (ivals t).
Theorem C103_integrator_grid_error : forall out pp dp wd wz y yd k eps,
  integrate_ rf nan cspts f t order method g true x0 z0 u p = Ok (out, pp) -> pp_derivative pp = Ok dp -> SolvesDae f t wd (ppval pp "left") wz us pv g ->
  (forall i, (i < f_nx f)%nat -> C1 t (y i) (yd i)) ->
  (forall v, node t 0 < v <= node t N -> Sum (f_nx f) (fun i => yd i v * (ppval pp "left" i v - xs i v)) + Sum (f_nx f) (fun i => y i v * (wd i v - xd i v)) = 0) ->
  Determined f -> Ortho tau k -> (order <= k + 1)%nat -> 0 <= eps -> Near t (order + k) eps (fun v => Sum (f_nx f) (fun i => y i v * (ppval dp "left" i v - wd i v))) ->
  forall n, (n < N)%nat -> Rabs (Sum (f_nx f) (fun i => y i (node t (n + 1)) * (at_m (io_xf out) i n - xs i (node t (n + 1))))) <= 2 * (node t (n + 1) - node t 0) * eps.
Proof. exact (integrator_grid_error cspts f t order method tau g HP HL HD HT Hsq HA HU x0 u p Hu Hp xd xs us pv HF HC1 E0 rf nan z0 Hrf). Qed.

End Integrator.

Print Assumptions C103_error_identity.
Print Assumptions C103_grid_error.
Print Assumptions C103_adjoint.
Print Assumptions C103_grid_order.
Print Assumptions C103_state_order.
Print Assumptions C103_integrator_grid_error.
