(** Specification vocabulary for dissipative dynamics (C108). *)
From Coq Require Import Reals List.
From Verif Require Import PyBase DMModel DaeModel NumModel NumInst PolynomialModel PiecewiseModel SchemeModel PolySpec PdqSpec SchemeSpec OrderSpec.
Open Scope R_scope.

(** In the norm of [S], two solutions with the same inputs move apart at a relative rate of at most [nu]; the
    dynamics are dissipative if [nu <= 0]. *)
Definition OneSided (f : daefun R) (S : nat -> nat -> R) (nu : R) : Prop := forall a c, Solves f a -> Solves f c -> SameInput f a c ->
  quad (f_nx f) S (fun i => a_xdot a i - a_xdot c i) (fun i => a_x a i - a_x c i) + quad (f_nx f) S (fun i => a_x a i - a_x c i) (fun i => a_xdot a i - a_xdot c i)
  <= 2 * nu * quad (f_nx f) S (fun i => a_x a i - a_x c i) (fun i => a_x a i - a_x c i).
Definition PosDef (n : nat) (S : nat -> nat -> R) : Prop := exists c, 0 < c /\ forall v, c * Sum n (fun i => v i * v i) <= quad n S v v.
(** Legendre's or Radau's points, and no step too long: no restriction if [nu <= 0] *)
Definition Moderate (t tau : list R) (nu : R) : Prop :=
  (Ortho tau (length tau) /\ forall n, (n < ivals t)%nat -> step t n * nu < 2) \/
  (Ortho tau (length tau - 1) /\ In 1 tau /\ forall n, (n < ivals t)%nat -> step t n * nu < 1 / 2).
(** The DAE determines the algebraic states. *)
Definition DeterminesZ (f : daefun R) : Prop := forall a c, Solves f a -> Solves f c -> SameInput f a c ->
  (forall i, (i < f_nx f)%nat -> a_x a i = a_x c i) -> (forall i, (i < f_nx f)%nat -> a_xdot a i = a_xdot c i) -> forall i, (i < f_nz f)%nat -> a_z a i = a_z c i.
