(** Specification vocabulary for polynomials, sums, derivatives and integrals over the
    real numbers. *)
From Coq Require Import Reals List.
From Coquelicot Require Import Coquelicot.
Import ListNotations.
Open Scope R_scope.

(** [Sum n f = f 0 + ... + f (n-1)] *)
Fixpoint Sum (n : nat) (f : nat -> R) : R := match n with O => 0 | S m => Sum m f + f m end.
(** The polynomial with coefficients [c], lowest power first. *)
Fixpoint peval (c : list R) (t : R) : R := match c with [] => 0 | a :: c' => a + t * peval c' t end.
(** [f] is a polynomial function of degree less than [n]. *)
Definition PolyLt (n : nat) (f : R -> R) : Prop := exists c, (length c <= n)%nat /\ forall t, f t = peval c t.
Definition node (tau : list R) (k : nat) : R := nth k tau 0.
(** Strictly ascending *)
Definition Asc (l : list R) : Prop := forall i j, (i < j < length l)%nat -> node l i < node l j.
