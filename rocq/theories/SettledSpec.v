(** Specification vocabulary for schemes whose equations determine the solution (C110). *)
From Coq Require Import Reals List.
From Verif Require Import PyBase DMModel DaeModel NumModel NumInst PolynomialModel PiecewiseModel SchemeModel PolySpec PdqSpec SchemeSpec OrderSpec ConvSpec MonoSpec.
Open Scope R_scope.

(** Steps short for the Lipschitz constant, or a one-sided bound and Legendre's or Radau's points *)
Definition Settled (f : daefun R) (t tau : list R) : Prop :=
  (exists al L, CoefBound tau al /\ ShortSteps t al L /\ LipDae f L) \/ (exists S nu, PosDef (f_nx f) S /\ OneSided f S nu /\ Moderate t tau nu).
