(** Property theorems about dissipative dynamics (C108). *)
From Coq Require Import Reals Lra.
From Coquelicot Require Import Coquelicot.
From Verif Require Import PyBase IndexModel DMModel StructModel StructsModel IneqModel DaeModel NumModel NumInst PolynomialModel PiecewiseModel PdqModel SchemeModel
  PolySpec PdqSpec SchemeSpec SchemeExamples OrderSpec OrderExamples ConvSpec GridSpec RevExamples StiffExamples MonoSpec MonoThms MonoThms4 MonoExamples.
Open Scope R_scope.

Theorem C108_points : forall tau c, In c tau -> (Ortho tau (length tau) -> 0 < c < 1) /\ (Ortho tau (length tau - 1) -> In 1 tau -> 0 < c <= 1).
Proof. intros tau c Hc. split; [intros Ho; exact (gauss_inside tau c Ho Hc)|intros Ho H1; exact (radau_inside tau c Ho H1 Hc)]. Qed.

Section Scheme.
Context (cspts : nat -> string -> res (list R)) (f : daefun R) (t : list R) (order : nat) (method : string) (tau : list R) (g : option (R -> mat R)).
Context (HP : Points cspts order method tau) (HL : (2 <= length t)%nat) (HD : DaeOk f) (HT : TdpOk f g) (HA : Asc t).
Context (S_ : nat -> nat -> R) (nu : R) (HS : PosDef (f_nx f) S_) (HO : OneSided f S_ nu) (HM : Moderate t tau nu).
Notation N := (ivals t).
Theorem C108_exists : forall (rep : bool) G H L u p (x0 : nat -> R), Resolvable f G H -> LipDae f L -> Shaped u (f_nu f) N -> Shaped p (f_np f) (if rep then N * order else 1)%nat ->
  (rep = true -> forall i k l, (i < f_np f)%nat -> (k < N * order)%nat -> (l < N * order)%nat -> at_m p i k = at_m p i l) ->
  exists x K Z s e, VarsOk f N order rep x K Z u p /\ (forall i, (i < f_nx f)%nat -> at_m x i 0 = x0 i) /\ scheme_ cspts f t order method g rep x K Z u p = Ok s /\ veccat_master (sc_eq s) = Ok e /\ AllZero e.
Proof. intros rep. exact (mono_exists cspts f t order method tau g rep HP HL HD HT HA S_ nu HS HO HM). Qed.
Theorem C108_unique : forall rep x K Z u p x' K' Z' s s' e e', VarsOk f N order rep x K Z u p -> VarsOk f N order rep x' K' Z' u p ->
  scheme_ cspts f t order method g rep x K Z u p = Ok s -> veccat_master (sc_eq s) = Ok e -> AllZero e -> scheme_ cspts f t order method g rep x' K' Z' u p = Ok s' -> veccat_master (sc_eq s') = Ok e' -> AllZero e' ->
  (forall i, (i < f_nx f)%nat -> at_m x i 0 = at_m x' i 0) ->
  (forall n i, (n <= N)%nat -> (i < f_nx f)%nat -> at_m x i n = at_m x' i n) /\ (forall n j i, (n < N)%nat -> (j < order)%nat -> (i < f_nx f)%nat -> at_m K i (n * order + j) = at_m K' i (n * order + j)) /\
  (forall n j i, (n < N)%nat -> (j < order)%nat -> (i < f_nx f)%nat -> at_m (sc_X s) i (n * order + j) = at_m (sc_X s') i (n * order + j)) /\
  (DeterminesZ f -> (forall n j i, (n < N)%nat -> (j < order)%nat -> (i < f_nz f)%nat -> at_m Z i (n * order + j) = at_m Z' i (n * order + j)) /\ (forall n i, (n <= N)%nat -> (i < f_nq f)%nat -> at_m (sc_q s) i n = at_m (sc_q s') i n) /\
     (forall n j i, (n < N)%nat -> (j < order)%nat -> (i < f_nq f)%nat -> at_m (sc_Q s) i (n * order + j) = at_m (sc_Q s') i (n * order + j))).
Proof. intros rep x K Z u p x' K' Z' s s' e e' HV HV'. exact (mono_scheme_unique cspts f t order method tau g rep HP HL HD HT HA S_ nu HS HO HM x K Z u p x' K' Z' HV HV' s s' e e'). Qed.
Theorem C108_integrator_unique : forall u p x0 rf nan z0 out rf' nan' z0' out', f_ndae f = (f_nx f + f_nz f)%nat -> Shaped u (f_nu f) N -> Shaped p (f_np f) 1 ->
  RootFinder rf -> RootFinder rf' -> integrator_ rf nan cspts f t order method g x0 z0 u p = Ok out -> integrator_ rf' nan' cspts f t order method g x0 z0' u p = Ok out' ->
  (forall n i, (n < N)%nat -> (i < f_nx f)%nat -> at_m (io_xf out) i n = at_m (io_xf out') i n) /\ (forall n j i, (n < N)%nat -> (j < order)%nat -> (i < f_nx f)%nat -> at_m (io_X out) i (n * order + j) = at_m (io_X out') i (n * order + j)) /\
  (DeterminesZ f -> (forall n j i, (n < N)%nat -> (j < order)%nat -> (i < f_nz f)%nat -> at_m (io_Z out) i (n * order + j) = at_m (io_Z out') i (n * order + j)) /\ (forall i, (i < f_nq f)%nat -> io_qf out i = io_qf out' i)).
Proof. intros u p x0 rf nan z0 out rf' nan' z0' out' Hsq Hu Hp. exact (mono_integrator_unique cspts f t order method tau g u p HP HL HD HT HA Hsq Hu Hp S_ nu HS HO HM x0 rf nan z0 out rf' nan' z0' out'). Qed.
End Scheme.

(** The bound 2 for Legendre's points is sharp: for [x' = 2 x] and a step of length 1 the midpoint rule has no solution from a state other than 0 and infinitely many from 0. *)
Theorem C108_legendre_bound_refuted : OneSided (bf 2) S1 2 /\ PosDef 1 S1 /\ Ortho [1 / 2] 1 /\ Resolvable (bf 2) (fun v _ => 2 * a_x v 0%nat) (fun _ _ => 0) /\ LipDae (bf 2) (Rabs 2) /\
  (forall x K Z s e, VarsOk (bf 2) (ivals [0; 1]) 1 false x K Z (non 1) (non 1) -> at_m x 0 0 <> 0 -> scheme_ (lpts (1 / 2)) (bf 2) [0; 1] 1 "m" None false x K Z (non 1) (non 1) = Ok s -> veccat_master (sc_eq s) = Ok e -> ~ AllZero e) /\
  (forall k, exists s e, bsch (1 / 2) 2 0 k k = Ok s /\ veccat_master (sc_eq s) = Ok e /\ AllZero e).
Proof. exact legendre_bound_refuted. Qed.

Print Assumptions C108_points.
Print Assumptions C108_exists.
Print Assumptions C108_unique.
Print Assumptions C108_integrator_unique.
Print Assumptions C108_legendre_bound_refuted.
