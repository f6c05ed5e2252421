(** Specification vocabulary for the accuracy of collocation at the grid times (C103). *)
From Coq Require Import Reals List.
From Coquelicot Require Import Coquelicot.
From Verif Require Import PyBase DMModel DaeModel NumModel NumInst PolynomialModel PiecewiseModel SchemeModel PolySpec PdqSpec SchemeSpec OrderSpec.
Open Scope R_scope.

(** The DAE determines [xdot]. *)
Definition Determined (f : daefun R) : Prop := forall a c, Solves f a -> Solves f c -> SameInput f a c ->
  (forall i, (i < f_nx f)%nat -> a_x a i = a_x c i) -> forall i, (i < f_nx f)%nat -> a_xdot a i = a_xdot c i.
(** [w] is continuous and on each interval continuously differentiable with derivative [d] (at the bounds from the left). *)
Definition C1 (t : list R) (w d : R -> R) : Prop := forall n, (n < ivals t)%nat -> exists W D,
  (forall s, node t n <= s <= node t (n + 1) -> w s = W s) /\ (forall s, node t n < s <= node t (n + 1) -> d s = D s) /\
  forall s, is_derive W s (D s) /\ continuous D s.
(** [r] is on each interval within [eps] of a polynomial of degree < [m]. *)
Definition Near (t : list R) (m : nat) (eps : R) (r : R -> R) : Prop := forall n, (n < ivals t)%nat ->
  exists P, PolyLt m P /\ forall s, node t n < s <= node t (n + 1) -> Rabs (r s - P s) <= eps.
(** [r] is on each interval [m] times differentiable, with an [m]-th derivative of at most [B]. *)
Definition Smooth (t : list R) (m : nat) (B : R) (r : R -> R) : Prop := forall n, (n < ivals t)%nat -> exists W,
  (forall s, node t n < s <= node t (n + 1) -> r s = W s) /\
  forall s, node t n <= s <= node t (n + 1) -> (forall k, (k <= m)%nat -> ex_derive_n W k s) /\ Rabs (Derive_n W m s) <= B.
(** The error of the states at grid time [n], weighted with [y] *)
Definition weighted (f : daefun R) (t : list R) (y xs : nat -> R -> R) (x : mat R) (n : nat) : R :=
  Sum (f_nx f) (fun i => y i (node t n) * (at_m x i n - xs i (node t n))).
