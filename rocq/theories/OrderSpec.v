(** Specification vocabulary for the order of quadratures and for invariants of the
    dynamics (C93, C94). *)
From Coq Require Import Reals List.
From Coquelicot Require Import Coquelicot.
From Verif Require Import PyBase DMModel DaeModel NumModel NumInst PolynomialModel PiecewiseModel SchemeModel PolySpec PdqSpec SchemeSpec.
Import ListNotations.
Open Scope R_scope.

(** [(x - c_1) ... (x - c_n)] *)
Fixpoint nodal (tau : list R) (x : R) : R := match tau with [] => 1 | c :: l => (x - c) * nodal l x end.
(** It is orthogonal on [0, 1] to the polynomials of degree less than [k]. For n Legendre
    points this holds with k = n, for n Radau points with k = n - 1. *)
Definition Ortho (tau : list R) (k : nat) : Prop := forall q, PolyLt k q -> is_RInt (fun x => q x * nodal tau x) 0 1 0.
(** Weights [b] at [tau] integrate the polynomials of degree less than [m] over [0, 1]. *)
Definition ExactLt (tau : list R) (b : nat -> R) (m : nat) : Prop :=
  forall f, PolyLt m f -> is_RInt f 0 1 (Sum (length tau) (fun j => b j * f (node tau j))).

(** ** Invariants *)
(** The quadratic form of the matrix [S] *)
Definition quad (n : nat) (S : nat -> nat -> R) (v w : nat -> R) : R := Sum n (fun i => Sum n (fun j => S i j * (v i * w j))).
Definition PSD (n : nat) (S : nat -> nat -> R) : Prop := forall v, 0 <= quad n S v v.
(** What satisfies the equations of the DAE *)
Definition Solves (f : daefun R) (a : dargs R) : Prop := forall r, (r < f_ndae f)%nat -> f_dae f a r = 0.
(** The rate of change of [x' S x] *)
Definition power (f : daefun R) (S : nat -> nat -> R) (a : dargs R) : R := quad (f_nx f) S (a_xdot a) (a_x a) + quad (f_nx f) S (a_x a) (a_xdot a).
(** Column [n] of a matrix *)
Definition col (m : mat R) (n i : nat) : R := at_m m i n.
Definition energy (f : daefun R) (S : nat -> nat -> R) (m : mat R) (n : nat) : R := quad (f_nx f) S (col m n) (col m n).
(** Two arguments with the same controls, parameters and time *)
Definition SameInput (f : daefun R) (a c : dargs R) : Prop :=
  (forall i, (i < f_nu f)%nat -> a_u a i = a_u c i) /\ (forall i, (i < f_np f)%nat -> a_p a i = a_p c i) /\ a_t a = a_t c /\ (forall i, (i < f_ntdp f)%nat -> a_tdp a i = a_tdp c i).
(** Solutions of the DAE do not move apart: the rate of change of the distance of two. *)
Definition Monotone (f : daefun R) (S : nat -> nat -> R) : Prop := forall a c, Solves f a -> Solves f c -> SameInput f a c ->
  quad (f_nx f) S (fun i => a_xdot a i - a_xdot c i) (fun i => a_x a i - a_x c i) + quad (f_nx f) S (fun i => a_x a i - a_x c i) (fun i => a_xdot a i - a_xdot c i) <= 0.
Definition dist (f : daefun R) (S : nat -> nat -> R) (m m' : mat R) (n : nat) : R := quad (f_nx f) S (fun i => col m n i - col m' n i) (fun i => col m n i - col m' n i).
(** Arguments with the controls of some interval and the parameters *)
Definition Fed (f : daefun R) (t : list R) (u p : mat R) (a : dargs R) : Prop :=
  exists n, (n < ivals t)%nat /\ (forall i, (i < f_nu f)%nat -> a_u a i = at_m u i n) /\ (forall i, (i < f_np f)%nat -> a_p a i = at_m p i 0).
Definition lin (f : daefun R) (w v : nat -> R) : R := Sum (f_nx f) (fun i => w i * v i).
(** Points as Legendre's, or as Radau's if the quadratic form is positive *)
Definition Stable (f : daefun R) (tau : list R) (S : nat -> nat -> R) : Prop :=
  Ortho tau (length tau) \/ (Ortho tau (length tau - 1) /\ In 1 tau /\ PSD (f_nx f) S).
