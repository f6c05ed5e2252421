(** Property theorems about the errors of all results of collocation (C100). *)
From Coq Require Import Reals Lra.
From Coquelicot Require Import Coquelicot.
From Verif Require Import PyBase IndexModel DMModel StructModel StructsModel IneqModel DaeModel NumModel NumInst PolynomialModel PiecewiseModel PdqModel SchemeModel
  PolySpec PiecewiseSpec PdqSpec SchemeSpec OrderSpec ConvSpec ErrSpec ErrThms.
Open Scope R_scope.

Section Err.
Context (cspts : nat -> string -> res (list R)) (f : daefun R) (t : list R) (order : nat) (method : string) (tau : list R) (g : option (R -> mat R)) (rep : bool).
Context (HP : Points cspts order method tau) (HL : (2 <= length t)%nat) (HD : DaeOk f) (HT : TdpOk f g) (HA : Asc t).
Context (al L : R) (Hal : CoefBound tau al) (Hss : ShortSteps t al L) (Lip : LipDae f L).
Context (x K Z u p : mat R) (HV : VarsOk f (ivals t) order rep x K Z u p) (s : scheme R) (e : list R) (Es : scheme_ cspts f t order method g rep x K Z u p = Ok s) (Ee : veccat_master (sc_eq s) = Ok e) (Hz : forall v, In v e -> v = 0) (HU : InUnit tau).
Context (D d : R) (xd xs zs us : nat -> R -> R) (pv : nat -> R) (HD0 : 0 <= D) (Hd0 : 0 <= d).
Context (HS : SolvesDae f t xd xs zs us pv g) (HF : FedBy f t u p us pv) (HCl : forall i, (i < f_nx f)%nat -> Close t order D (xs i) (xd i)) (E0 : forall i, (i < f_nx f)%nat -> Rabs (at_m x i 0 - xs i (node t 0)) <= d).
Notation N := (ivals t).
Notation E n := (exp (2 * al * L * (node t n - node t 0)) * (d + (node t n - node t 0) * ((1 + al) * D))).
Theorem C100_dense_error : forall lam pp dp,
  0 <= lam -> Lebesgue tau lam -> piecewise_X s x K = Ok pp -> pp_derivative pp = Ok dp -> forall n i v, (n < N)%nat -> (i < f_nx f)%nat -> node t n < v <= node t (n + 1) ->
  Rabs (ppval pp "left" i v - xs i v) <= E n + (v - node t n) * (lam * (2 * L * E (n + 1) + D) + D) /\ Rabs (ppval dp "left" i v - xd i v) <= lam * (2 * L * E (n + 1) + D) + D.
Proof. exact (dense_error cspts f t order method tau g rep HP HL HD HT HA al L Hal Hss Lip x K Z u p HV s e Es Ee Hz HU D d xd xs zs us pv HD0 Hd0 HS HF HCl E0). Qed.

Theorem C100_algebraic_error : forall Lz,
  LipZ f Lz -> forall n j i, (n < N)%nat -> (j < order)%nat -> (i < f_nz f)%nat -> Rabs (at_m Z i (n * order + j) - zs i (node (sc_tc s) (n * order + j))) <= Lz * (2 * E (n + 1)).
Proof. exact (algebraic_error cspts f t order method tau g rep HP HL HD HT HA al L Hal Hss Lip x K Z u p HV s e Es Ee Hz HU D d xd xs zs us pv HD0 Hd0 HS HF HCl E0). Qed.

Theorem C100_quadrature_error : forall Lq Dq qs qd,
  0 <= Lq -> 0 <= Dq -> LipQ f Lq -> (forall i, (i < f_nq f)%nat -> Close t order Dq (qs i) (qd i)) ->
  (forall i v, (i < f_nq f)%nat -> node t 0 < v <= node t N -> qd i v = f_quad f (dae_at xd xs zs us pv g v) i) ->
  (forall n i, (n <= N)%nat -> (i < f_nq f)%nat -> Rabs (at_m (sc_q s) i n - (qs i (node t n) - qs i (node t 0))) <= (node t n - node t 0) * (2 * al * Lq * E n + (1 + al) * Dq)) /\
  (forall n j i, (n < N)%nat -> (j < order)%nat -> (i < f_nq f)%nat ->
     Rabs (at_m (sc_Q s) i (n * order + j) - (qs i (node (sc_tc s) (n * order + j)) - qs i (node t 0))) <= (node t (n + 1) - node t 0) * (2 * al * Lq * E (n + 1) + (1 + al) * Dq)).
Proof. exact (quadrature_error cspts f t order method tau g rep HP HL HD HT HA al L Hal Hss Lip x K Z u p HV s e Es Ee Hz HU D d xd xs zs us pv HD0 Hd0 HS HF HCl E0). Qed.

End Err.

Section Integrator.
Context (cspts : nat -> string -> res (list R)) (f : daefun R) (t : list R) (order : nat) (method : string) (tau : list R) (g : option (R -> mat R)).
Context (HP : Points cspts order method tau) (HL : (2 <= length t)%nat) (HD : DaeOk f) (HT : TdpOk f g) (Hsq : f_ndae f = (f_nx f + f_nz f)%nat) (HA : Asc t) (HU : InUnit tau).
Context (al L : R) (Hal : CoefBound tau al) (Hss : ShortSteps t al L) (Lip : LipDae f L).
Context (x0 : nat -> R) (u p : mat R) (Hu : Shaped u (f_nu f) (ivals t)) (Hp : Shaped p (f_np f) 1).
Context (D : R) (xd xs zs us : nat -> R -> R) (pv : nat -> R) (HD0 : 0 <= D).
Context (HS : SolvesDae f t xd xs zs us pv g) (HF : FedBy f t u p us pv) (HCl : forall i, (i < f_nx f)%nat -> Close t order D (xs i) (xd i)) (E0 : forall i, (i < f_nx f)%nat -> xs i (node t 0) = x0 i).
Context (rf : (list R -> res (list R)) -> list R -> res (list R)) (nan : R) (z0 : nat -> R) (Hrf : RootFinder rf).
Notation N := (ivals t).
Notation E n := (exp (2 * al * L * (node t n - node t 0)) * (0 + (node t n - node t 0) * ((1 + al) * D))).
Theorem C100_integrate_error : forall lam out pp dp,
  0 <= lam -> Lebesgue tau lam -> integrate_ rf nan cspts f t order method g true x0 z0 u p = Ok (out, pp) -> pp_derivative pp = Ok dp ->
  forall n i v, (n < N)%nat -> (i < f_nx f)%nat -> node t n < v <= node t (n + 1) ->
  Rabs (ppval pp "left" i v - xs i v) <= E n + (v - node t n) * (lam * (2 * L * E (n + 1) + D) + D) /\ Rabs (ppval dp "left" i v - xd i v) <= lam * (2 * L * E (n + 1) + D) + D.
Proof. exact (integrate_error cspts f t order method tau g HP HL HD HT Hsq HA HU al L Hal Hss Lip x0 u p Hu Hp D xd xs zs us pv HD0 HS HF HCl E0 rf nan z0 Hrf). Qed.

Theorem C100_integrator_algebraic_error : forall Lz out,
  LipZ f Lz -> integrator_ rf nan cspts f t order method g x0 z0 u p = Ok out ->
  forall n j i, (n < N)%nat -> (j < order)%nat -> (i < f_nz f)%nat -> Rabs (at_m (io_Z out) i (n * order + j) - zs i (node (io_tc out) (n * order + j))) <= Lz * (2 * E (n + 1)).
Proof. exact (integrator_algebraic_error cspts f t order method tau g HP HL HD HT Hsq HA HU al L Hal Hss Lip x0 u p Hu Hp D xd xs zs us pv HD0 HS HF HCl E0 rf nan z0 Hrf). Qed.

Theorem C100_integrator_quadrature_error : forall Lq Dq qs qd out,
  0 <= Lq -> 0 <= Dq -> LipQ f Lq -> (forall i, (i < f_nq f)%nat -> Close t order Dq (qs i) (qd i)) ->
  (forall i v, (i < f_nq f)%nat -> node t 0 < v <= node t N -> qd i v = f_quad f (dae_at xd xs zs us pv g v) i) -> integrator_ rf nan cspts f t order method g x0 z0 u p = Ok out ->
  forall i, (i < f_nq f)%nat -> Rabs (io_qf out i - (qs i (node t N) - qs i (node t 0))) <= (node t N - node t 0) * (2 * al * Lq * E N + (1 + al) * Dq).
Proof. exact (integrator_quadrature_error cspts f t order method tau g HP HL HD HT Hsq HA HU al L Hal Hss Lip x0 u p Hu Hp D xd xs zs us pv HD0 HS HF HCl E0 rf nan z0 Hrf). Qed.

End Integrator.

Theorem C100_constants_exist : forall tau,
  NoDup tau -> tau <> nil -> exists al lam, CoefBound tau al /\ 0 <= lam /\ Lebesgue tau lam.
Proof. exact constants_exist. Qed.

Print Assumptions C100_dense_error.
Print Assumptions C100_algebraic_error.
Print Assumptions C100_quadrature_error.
Print Assumptions C100_integrate_error.
Print Assumptions C100_integrator_algebraic_error.
Print Assumptions C100_integrator_quadrature_error.
Print Assumptions C100_constants_exist.
