(** Property theorems about running time backwards (C106). *)
From Coq Require Import Reals Lra.
From Coquelicot Require Import Coquelicot.
From Verif Require Import PyBase IndexModel DMModel StructModel StructsModel IneqModel DaeModel NumModel NumInst PolynomialModel PiecewiseModel PdqModel SchemeModel
  PolySpec PdqSpec SchemeSpec SchemeExamples OrderSpec OrderExamples ConvSpec GridSpec RevSpec RevThms RevThms2 RevExamples.
Open Scope R_scope.

Theorem C106_legendre_symmetric : forall tau, Asc tau -> Ortho tau (length tau) -> Symmetric tau.
Proof. exact legendre_symmetric. Qed.
Theorem C106_radau_not_symmetric : forall tau, Asc tau -> (forall v, In v tau -> 0 < v <= 1) -> In 1 tau -> ~ Symmetric tau.
Proof. exact radau_not_symmetric. Qed.
Theorem C106_legendre_unique : forall l m, Asc l -> Asc m -> length l = length m -> Ortho l (length l) -> Ortho m (length m) -> l = m.
Proof. exact gauss_unique. Qed.
Theorem C106_radau_unique : forall l m, Asc l -> Asc m -> length l = length m -> In 1 l -> In 1 m -> Ortho l (length l - 1) -> Ortho m (length m - 1) -> l = m.
Proof. exact radau_unique. Qed.
Theorem C106_tableau_symmetric : forall tau tb, NoDup tau -> Symmetric tau -> butcher_points tau = Ok tb ->
  forall l, (l < length tau)%nat -> node (tb_b tb) l = node (tb_b tb) (length tau - 1 - l) /\
  forall j, (j < length tau)%nat -> at_m (tb_A tb) j l + at_m (tb_A tb) (length tau - 1 - j) (length tau - 1 - l) = node (tb_b tb) l.
Proof. exact tableau_symmetric. Qed.

Section Rev.
Context (cspts : nat -> string -> res (list R)) (f f' : daefun R) (t : list R) (order : nat) (method : string) (tau : list R) (gf gf' : option (R -> mat R)).
Context (HP : Points cspts order method tau) (HS : Symmetric tau) (HL : (2 <= length t)%nat) (HD : DaeOk f) (HD' : DaeOk f') (HT : TdpOk f gf) (HT' : TdpOk f' gf').
Context (kap c : R) (HC : Retimed f f' kap c) (Htd : forall s i, (i < f_ntdp f)%nat -> tdp_at gf' (c + kap * s) i = tdp_at gf s i).
Notation N := (ivals t).
Notation t' := (clock kap c (rev t)).
Theorem C106_reverse_scheme : forall rep x K Z u p x' K' Z' u' p' s e,
  kap <> 0 -> VarsOk f N order rep x K Z u p -> VarsOk f' N order rep x' K' Z' u' p' ->
  Back (f_nx f) (N + 1) 1 x x' -> Back (f_nx f) (N * order) kap K K' -> Back (f_nz f) (N * order) 1 Z Z' -> Back (f_nu f) N 1 u u' -> Back (f_np f) (if rep then N * order else 1)%nat 1 p p' ->
  scheme_ cspts f t order method gf rep x K Z u p = Ok s -> veccat_master (sc_eq s) = Ok e -> AllZero e ->
  exists s' e', scheme_ cspts f' t' order method gf' rep x' K' Z' u' p' = Ok s' /\ veccat_master (sc_eq s') = Ok e' /\ AllZero e' /\
    sc_tc s' = clock kap c (rev (sc_tc s)) /\ Back (f_nx f) (N * order) 1 (sc_X s) (sc_X s') /\
    (forall i n, (i < f_nq f)%nat -> (n <= N)%nat -> at_m (sc_q s') i n = at_m (sc_q s) i (N - n) - at_m (sc_q s) i N) /\
    (forall i m, (i < f_nq f)%nat -> (m < N * order)%nat -> at_m (sc_Q s') i m = at_m (sc_Q s) i (N * order - 1 - m) - at_m (sc_q s) i N).
Proof. intros rep x K Z u p x' K' Z' u' p' s e Hk HV HV' Bx BK BZ Bu Bp. exact (reverse_scheme cspts f f' t order method tau gf gf' rep x K Z u p x' K' Z' u' p' HP HS HL HD HD' HT HT' kap c Hk HC Htd Bx BK BZ Bu Bp s e HV HV'). Qed.

Theorem C106_integrator_back : forall al L x0 u p u' rf nan z0 out rf' nan' z0' out',
  kap < 0 -> Asc t -> f_ndae f = (f_nx f + f_nz f)%nat -> f_ndae f' = (f_nx f' + f_nz f')%nat -> CoefBound tau al -> ShortSteps t' al L -> LipDae f' L ->
  Shaped u (f_nu f) N -> Shaped u' (f_nu f) N -> Shaped p (f_np f) 1 -> Back (f_nu f) N 1 u u' -> RootFinder rf -> RootFinder rf' ->
  integrator_ rf nan cspts f t order method gf x0 z0 u p = Ok out ->
  integrator_ rf' nan' cspts f' t' order method gf' (fun i => at_m (io_xf out) i (N - 1)) z0' u' p = Ok out' ->
  io_tc out' = clock kap c (rev (io_tc out)) /\ Back (f_nx f) (N * order) 1 (io_X out) (io_X out') /\
  (forall i n, (i < f_nx f)%nat -> (n + 1 < N)%nat -> at_m (io_xf out') i n = at_m (io_xf out) i (N - 2 - n)) /\ (forall i, (i < f_nx f)%nat -> at_m (io_xf out') i (N - 1) = x0 i).
Proof. intros al L x0 u p u' rf nan z0 out rf' nan' z0' out' Hk HA Hq Hq' Hal Hss Lip Hu Hu' Hp Bu. exact (integrator_back cspts f f' t order method tau gf gf' u p u' HP HS HL HD HD' HT HT' Hq Hq' HA kap c Hk HC Htd al L Hal Hss Lip x0 Hu Hu' Hp Bu rf nan z0 out rf' nan' z0' out'). Qed.
End Rev.

(** The same with Radau's point 1: the integration backwards ends at 4/3 instead of 1. *)
Theorem C106_radau_refuted : exists out out' rf rf', RootFinder rf /\ RootFinder rf' /\ Retimed (bf (- 1 / 2)) (bf (- (- 1 / 2))) (-1) 1 /\ CoefBound [1] 1 /\ ShortSteps (clock (-1) 1 (rev [0; 1])) 1 (1 / 2) /\ LipDae (bf (- (- 1 / 2))) (1 / 2) /\
  integrator_ rf 0 (lpts 1) (bf (- 1 / 2)) [0; 1] 1 "m" None (fun _ => 1) (fun _ => 0) (non 1) (non 1) = Ok out /\
  integrator_ rf' 0 (lpts 1) (bf (- (- 1 / 2))) (clock (-1) 1 (rev [0; 1])) 1 "m" None (fun i => at_m (io_xf out) i 0) (fun _ => 0) (non 1) (non 1) = Ok out' /\ at_m (io_xf out) 0 0 = 2 / 3 /\ at_m (io_xf out') 0 0 = 4 / 3.
Proof. exact radau_back_refuted. Qed.

Print Assumptions C106_legendre_symmetric.
Print Assumptions C106_radau_not_symmetric.
Print Assumptions C106_legendre_unique.
Print Assumptions C106_radau_unique.
Print Assumptions C106_tableau_symmetric.
Print Assumptions C106_reverse_scheme.
Print Assumptions C106_integrator_back.
Print Assumptions C106_radau_refuted.
