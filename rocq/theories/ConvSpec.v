(** Specification vocabulary for the solvability and the accuracy of collocation (C95, C96). *)
From Coq Require Import Reals List.
From Coquelicot Require Import Coquelicot.
From Verif Require Import PyBase DMModel DaeModel NumModel NumInst PolynomialModel PiecewiseModel SchemeModel PolySpec PdqSpec SchemeSpec OrderSpec.
Open Scope R_scope.

(** The DAE determines [xdot], with Lipschitz constant [L] in [x]. *)
Definition LipDae (f : daefun R) (L : R) : Prop := forall a c, Solves f a -> Solves f c -> SameInput f a c ->
  forall e, (forall i, (i < f_nx f)%nat -> Rabs (a_x a i - a_x c i) <= e) -> forall i, (i < f_nx f)%nat -> Rabs (a_xdot a i - a_xdot c i) <= L * e.
(** It can be solved for [xdot] and [z]. *)
Definition Resolvable (f : daefun R) (G H : dargs R -> nat -> R) : Prop := forall a, Solves f (DArgs (G a) (a_x a) (H a) (a_u a) (a_p a) (a_t a) (a_tdp a)).
(** [alpha] bounds the sums of the absolute values of the coefficients. *)
Definition CoefBound (tau : list R) (alpha : R) : Prop := exists A b, RungeKutta tau A b /\
  (forall j, (j < length tau)%nat -> Sum (length tau) (fun l => Rabs (A j l)) <= alpha) /\ Sum (length tau) (fun l => Rabs (b l)) <= alpha.
(** Steps that are short enough *)
Definition ShortSteps (t : list R) (alpha L : R) : Prop := 0 <= L /\ forall n, (n < ivals t)%nat -> step t n * alpha * L <= 1 / 2.
(** [d] is the derivative of [w], and on each interval within [D] of a polynomial of degree < [M]. *)
Definition Close (t : list R) (M : nat) (D : R) (w d : R -> R) : Prop := forall n, (n < ivals t)%nat ->
  (forall s, node t n <= s <= node t (n + 1) -> is_RInt d (node t n) s (w s - w (node t n))) /\
  exists P, PolyLt M P /\ forall s, node t n < s <= node t (n + 1) -> Rabs (d s - P s) <= D.
(** The controls and parameters of a trajectory *)
Definition FedBy (f : daefun R) (t : list R) (u p : mat R) (us : nat -> R -> R) (pv : nat -> R) : Prop :=
  (forall i n s, (i < f_nu f)%nat -> (n < ivals t)%nat -> node t n < s <= node t (n + 1) -> us i s = at_m u i n) /\ (forall i, (i < f_np f)%nat -> pv i = at_m p i 0).
