(** Specification vocabulary for the errors of all results of collocation (C100). *)
From Coq Require Import Reals List.
From Verif Require Import PyBase DMModel DaeModel NumModel NumInst PolynomialModel PiecewiseModel SchemeModel PolySpec PdqSpec SchemeSpec OrderSpec.
Open Scope R_scope.

(** A polynomial that is at most [c] at the points is at most [lam * c] on the interval. *)
Definition Lebesgue (tau : list R) (lam : R) : Prop := forall q c, PolyLt (length tau) q -> (forall l, (l < length tau)%nat -> Rabs (q (node tau l)) <= c) ->
  forall s, 0 <= s <= 1 -> Rabs (q s) <= lam * c.
(** The algebraic states and the rates of the quadratures depend on the state with these constants. *)
Definition LipZ (f : daefun R) (Lz : R) : Prop := forall a c, Solves f a -> Solves f c -> SameInput f a c ->
  forall e, (forall i, (i < f_nx f)%nat -> Rabs (a_x a i - a_x c i) <= e) -> forall i, (i < f_nz f)%nat -> Rabs (a_z a i - a_z c i) <= Lz * e.
Definition LipQ (f : daefun R) (Lq : R) : Prop := forall a c, Solves f a -> Solves f c -> SameInput f a c ->
  forall e, (forall i, (i < f_nx f)%nat -> Rabs (a_x a i - a_x c i) <= e) -> forall r, (r < f_nq f)%nat -> Rabs (f_quad f a r - f_quad f c r) <= Lq * e.
