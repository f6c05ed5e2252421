(** Specification vocabulary for fast dynamics (C107). *)
From Coq Require Import Reals List.
From Verif Require Import PyBase DMModel DaeModel NumModel NumInst PolynomialModel PiecewiseModel SchemeModel PolySpec PdqSpec SchemeSpec OrderSpec.
Open Scope R_scope.

(** States that are not close change fast: two solutions with the same inputs are as close as [eps] times their slopes,
    as for [eps x' = - x + g(u, t)]. *)
Definition Relaxes (f : daefun R) (eps : R) : Prop := forall a c, Solves f a -> Solves f c -> SameInput f a c ->
  forall e, (forall i, (i < f_nx f)%nat -> Rabs (a_xdot a i - a_xdot c i) <= e) -> forall i, (i < f_nx f)%nat -> Rabs (a_x a i - a_x c i) <= eps * e.
(** The arguments of the DAE at grid time [n + 1], with the slopes and algebraic states of column [m] *)
Definition grid_args (t : list R) (M : nat) (rep : bool) (g : option (R -> mat R)) (x K Z u p : mat R) (n j : nat) : dargs R :=
  DArgs (fun i => at_m K i (n * M + j)) (fun i => at_m x i (n + 1)) (fun i => at_m Z i (n * M + j)) (fun i => at_m u i n)
        (fun i => at_m p i (if rep then n * M + j else 0)%nat) (node t (n + 1)) (tdp_at g (node t (n + 1))).
