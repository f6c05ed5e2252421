(** Specification vocabulary for the dependence of collocation on its inputs for short steps (C114). *)
From Coq Require Import Reals List.
From Verif Require Import PyBase DMModel DaeModel NumModel NumInst PolynomialModel PiecewiseModel SchemeModel PolySpec PdqSpec SchemeSpec OrderSpec SensSpec.
Open Scope R_scope.

(** [xdot] depends on states with constant [L] and on inputs with constant [Lu]. *)
Definition LipXin (f : daefun R) (L Lu : R) : Prop := forall a c, Solves f a -> Solves f c -> forall e d, (forall i, (i < f_nx f)%nat -> Rabs (a_x a i - a_x c i) <= e) -> NearInput f d a c ->
  forall i, (i < f_nx f)%nat -> Rabs (a_xdot a i - a_xdot c i) <= L * e + Lu * d.
