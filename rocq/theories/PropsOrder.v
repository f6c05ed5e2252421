(** Property theorems about the order of the tableaux (C93) and invariants of the dynamics (C94). *)
From Coq Require Import Reals Lra.
From Coquelicot Require Import Coquelicot.
From Verif Require Import PyBase IndexModel DMModel StructModel StructsModel IneqModel DaeModel NumModel NumInst PolynomialModel PiecewiseModel PdqModel SchemeModel
  PolySpec PdqSpec SchemeSpec OrderSpec OrderThms OrderExamples.
Open Scope R_scope.

Theorem C93_tableau_order : forall tau tb k,
  NoDup tau -> butcher_points tau = Ok tb -> ExactLt tau (node (tb_b tb)) (length tau + k) <-> Ortho tau k.
Proof. exact tableau_order. Qed.

Theorem C93_tableau_order_max : forall tau tb,
  NoDup tau -> butcher_points tau = Ok tb -> ~ ExactLt tau (node (tb_b tb)) (2 * length tau + 1).
Proof. exact tableau_order_max. Qed.

Theorem C93_tableau_weights : forall tau tb,
  NoDup tau -> (1 <= length tau)%nat -> butcher_points tau = Ok tb -> Ortho tau (length tau - 1) -> forall j, (j < length tau)%nat -> 0 < node (tb_b tb) j.
Proof. exact tableau_weights. Qed.

Section S1.
Context (cspts : nat -> string -> res (list R)) (f : daefun R) (t : list R) (order : nat) (method : string) (tau : list R) (g : option (R -> mat R)) (rep : bool) (x K Z u p : mat R).
Context (HP : Points cspts order method tau) (HL : (2 <= length t)%nat) (HD : DaeOk f) (HT : TdpOk f g) (HV : VarsOk f (ivals t) order rep x K Z u p).
Notation N := (ivals t).
Notation sch := (scheme_ cspts f t order method g rep x K Z u p).
Context (HA : Asc t) (HU : InUnit tau).
Context (xd xs zs us : nat -> R -> R) (pv : nat -> R).
Context (HS : Sampled f t tau order rep xd xs zs us pv x K Z u p) (HX : forall i, (i < f_nx f)%nat -> PiecewiseC1 t (S order) (xs i) (xd i)).
Theorem C93_quadrature_order : forall k i (w : R -> R),
  Ortho tau k -> (i < f_nq f)%nat -> PiecewiseLt t (order + k) w ->
  (forall s, node t 0 < s <= node t N -> f_quad f (dae_at xd xs zs us pv g s) i = w s) ->
  exists s, sch = Ok s /\ forall n, (n <= N)%nat -> is_RInt w (node t 0) (node t n) (at_m (sc_q s) i n).
Proof. exact (quadrature_order cspts f t order method tau g rep x K Z u p HP HL HD HT HV HA HU xd xs zs us pv HS HX). Qed.

End S1.

Section S2.
Context (cspts : nat -> string -> res (list R)) (f : daefun R) (t : list R) (order : nat) (method : string) (tau : list R) (g : option (R -> mat R)) (rep : bool) (x K Z u p : mat R).
Context (HP : Points cspts order method tau) (HL : (2 <= length t)%nat) (HD : DaeOk f) (HT : TdpOk f g) (HV : VarsOk f (ivals t) order rep x K Z u p).
Notation N := (ivals t).
Notation sch := (scheme_ cspts f t order method g rep x K Z u p).
Context (s : scheme R) (e : list R) (Es : sch = Ok s) (Ee : veccat_master (sc_eq s) = Ok e) (Hz : forall v, In v e -> v = 0).
Theorem C94_linear_invariant : forall w,
  (forall a, Solves f a -> Fed f t u p a -> lin f w (a_xdot a) = 0) ->
  (forall n, (n <= N)%nat -> lin f w (col x n) = lin f w (col x 0)) /\ (forall n j, (n < N)%nat -> (j < order)%nat -> lin f w (col (sc_X s) (n * order + j)) = lin f w (col x 0)).
Proof. exact (linear_invariant cspts f t order method tau g rep x K Z u p HP HL HD HT HV s e Es Ee Hz). Qed.

Theorem C94_linear_balance : forall w r,
  (r < f_nq f)%nat -> (forall a, Solves f a -> Fed f t u p a -> lin f w (a_xdot a) = f_quad f a r) ->
  (forall n, (n <= N)%nat -> lin f w (col x n) = lin f w (col x 0) + at_m (sc_q s) r n) /\
  (forall n j, (n < N)%nat -> (j < order)%nat -> lin f w (col (sc_X s) (n * order + j)) = lin f w (col x 0) + at_m (sc_Q s) r (n * order + j)).
Proof. exact (linear_balance cspts f t order method tau g rep x K Z u p HP HL HD HT HV s e Es Ee Hz). Qed.

Theorem C94_quadratic_invariant : forall S_,
  Ortho tau order -> (forall a, Solves f a -> Fed f t u p a -> power f S_ a = 0) -> forall n, (n <= N)%nat -> energy f S_ x n = energy f S_ x 0.
Proof. exact (quadratic_invariant cspts f t order method tau g rep x K Z u p HP HL HD HT HV s e Es Ee Hz). Qed.

Theorem C94_quadratic_balance : forall S_ r,
  Ortho tau order -> (r < f_nq f)%nat -> (forall a, Solves f a -> Fed f t u p a -> power f S_ a = f_quad f a r) ->
  forall n, (n <= N)%nat -> energy f S_ x n = energy f S_ x 0 + at_m (sc_q s) r n.
Proof. exact (quadratic_balance cspts f t order method tau g rep x K Z u p HP HL HD HT HV s e Es Ee Hz). Qed.

Theorem C94_dissipation : forall S_ r,
  Asc t -> Stable f tau S_ -> (r < f_nq f)%nat -> (forall a, Solves f a -> Fed f t u p a -> power f S_ a <= f_quad f a r) ->
  forall n, (n <= N)%nat -> energy f S_ x n <= energy f S_ x 0 + at_m (sc_q s) r n.
Proof. exact (dissipation cspts f t order method tau g rep x K Z u p HP HL HD HT HV s e Es Ee Hz). Qed.

Theorem C94_energy_decay : forall S_,
  Asc t -> Stable f tau S_ -> (forall a, Solves f a -> Fed f t u p a -> power f S_ a <= 0) ->
  forall n m, (n <= m <= N)%nat -> energy f S_ x m <= energy f S_ x n.
Proof. exact (energy_decay cspts f t order method tau g rep x K Z u p HP HL HD HT HV s e Es Ee Hz). Qed.

End S2.

Section S3.
Context (cspts : nat -> string -> res (list R)) (f : daefun R) (t : list R) (order : nat) (method : string) (tau : list R) (g : option (R -> mat R)) (rep : bool) (x K Z x' K' Z' u p : mat R).
Context (HP : Points cspts order method tau) (HL : (2 <= length t)%nat) (HD : DaeOk f) (HT : TdpOk f g) (HV : VarsOk f (ivals t) order rep x K Z u p) (HV' : VarsOk f (ivals t) order rep x' K' Z' u p).
Notation N := (ivals t).
Context (s s' : scheme R) (e e' : list R).
Context (Es : scheme_ cspts f t order method g rep x K Z u p = Ok s) (Ee : veccat_master (sc_eq s) = Ok e) (Hz : forall v, In v e -> v = 0).
Context (Es' : scheme_ cspts f t order method g rep x' K' Z' u p = Ok s') (Ee' : veccat_master (sc_eq s') = Ok e') (Hz' : forall v, In v e' -> v = 0).
Theorem C94_contraction : forall S_,
  Asc t -> Stable f tau S_ -> Monotone f S_ -> forall n m, (n <= m <= N)%nat -> dist f S_ x x' m <= dist f S_ x x' n.
Proof. exact (contraction cspts f t order method tau g rep x K Z x' K' Z' u p HP HL HD HT HV HV' s s' e e' Es Ee Hz Es' Ee' Hz'). Qed.

End S3.

Notation lsch q a b c d x0 y0 x1 y1 k l := (scheme_ (lpts q) (lf a b c d) [0; 1] 1 "m" None false (two x0 y0 x1 y1) (one k l) (non 1) (non 1) (non 1)).
Theorem C94_quadratic_radau_refuted : exists s e, lsch 1 0 1 (-1) 0 1 0 (1 / 2) (-1 / 2) (-1 / 2) (-1 / 2) = Ok s /\ veccat_master (sc_eq s) = Ok e /\ (forall v, In v e -> v = 0) /\
  (forall v, Solves (lf 0 1 (-1) 0) v -> power (lf 0 1 (-1) 0) id2 v = 0) /\ energy (lf 0 1 (-1) 0) id2 (two 1 0 (1 / 2) (-1 / 2)) 1 < energy (lf 0 1 (-1) 0) id2 (two 1 0 (1 / 2) (-1 / 2)) 0.
Proof. exact quadratic_radau_refuted. Qed.

Theorem C94_decay_explicit_refuted : exists s e, lsch 0 0 1 (-1) 0 1 0 1 (-1) 0 (-1) = Ok s /\ veccat_master (sc_eq s) = Ok e /\ (forall v, In v e -> v = 0) /\
  (forall v, Solves (lf 0 1 (-1) 0) v -> power (lf 0 1 (-1) 0) id2 v <= 0) /\ energy (lf 0 1 (-1) 0) id2 (two 1 0 1 (-1)) 0 < energy (lf 0 1 (-1) 0) id2 (two 1 0 1 (-1)) 1.
Proof. exact decay_explicit_refuted. Qed.

Print Assumptions C93_tableau_order.
Print Assumptions C93_tableau_order_max.
Print Assumptions C93_tableau_weights.
Print Assumptions C93_quadrature_order.
Print Assumptions C94_linear_invariant.
Print Assumptions C94_linear_balance.
Print Assumptions C94_quadratic_invariant.
Print Assumptions C94_quadratic_balance.
Print Assumptions C94_dissipation.
Print Assumptions C94_energy_decay.
Print Assumptions C94_contraction.
Print Assumptions C94_quadratic_radau_refuted.
Print Assumptions C94_decay_explicit_refuted.
