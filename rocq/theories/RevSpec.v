(** Specification vocabulary for running time backwards (C106). *)
From Coq Require Import Reals List.
From Verif Require Import PyBase DMModel DaeModel NumModel NumInst PolynomialModel PiecewiseModel SchemeModel PolySpec PdqSpec SchemeSpec OrderSpec GridSpec.
Open Scope R_scope.

(** The points lie symmetrically around 1/2, as Legendre's do and Radau's do not. *)
Definition Symmetric (tau : list R) : Prop := forall j, (j < length tau)%nat -> node tau j + node tau (length tau - 1 - j) = 1.
(** The first [r] rows and [c] columns of [m'] are those of [m], columns in reverse order, divided by [k]. *)
Definition Back (r c : nat) (k : R) (m m' : mat R) : Prop := forall i j, (i < r)%nat -> (j < c)%nat -> at_m m' i j = at_m m i (c - 1 - j) / k.
(** How the arguments of two DAEs correspond if [t_new = c + kap * t] *)
Definition Clocked (f : daefun R) (kap c : R) (a b : dargs R) : Prop :=
  (forall i, (i < f_nx f)%nat -> a_xdot b i = a_xdot a i / kap) /\ (forall i, (i < f_nx f)%nat -> a_x b i = a_x a i) /\ (forall i, (i < f_nz f)%nat -> a_z b i = a_z a i) /\
  (forall i, (i < f_nu f)%nat -> a_u b i = a_u a i) /\ (forall i, (i < f_np f)%nat -> a_p b i = a_p a i) /\ a_t b = c + kap * a_t a /\ (forall i, (i < f_ntdp f)%nat -> a_tdp b i = a_tdp a i).
(** [f'] is [f] in the new time: with [kap = -1] the DAE that runs backwards, with [kap = 1],
    [c = 0] and [f' = f] the DAE itself. *)
Definition Retimed (f f' : daefun R) (kap c : R) : Prop :=
  (f_nx f' = f_nx f /\ f_nz f' = f_nz f /\ f_nu f' = f_nu f /\ f_np f' = f_np f /\ f_ntdp f' = f_ntdp f /\ f_nq f' = f_nq f) /\
  forall a b, Clocked f kap c a b -> Solves f a -> Solves f' b /\ forall r, (r < f_nq f)%nat -> f_quad f' b r = f_quad f a r / kap.
