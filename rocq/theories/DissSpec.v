(** Specification vocabulary for errors that do not depend on stiffness (C109). *)
From Coq Require Import Reals List.
From Verif Require Import PyBase DMModel DaeModel NumModel NumInst PolynomialModel PiecewiseModel SchemeModel PolySpec PdqSpec SchemeSpec OrderSpec MonoSpec.
Open Scope R_scope.

(** The norm of the inner product *)
Definition norm (n : nat) (S : nat -> nat -> R) (v : nat -> R) : R := sqrt (quad n S v v).
(** Legendre's or Radau's points *)
Definition GaussRadau (tau : list R) : Prop := Ortho tau (length tau) \/ (Ortho tau (length tau - 1) /\ In 1 tau).
(** Steps short for the one-sided bound; no restriction if it is 0, whatever the Lipschitz constant *)
Definition MildSteps (t : list R) (nu : R) : Prop := 0 <= nu /\ forall n, (n < ivals t)%nat -> step t n * nu <= 1 / 8.
