(** Specification vocabulary for the accuracy of interpolation in binary64 (C105). *)
From Coq Require Import Reals.
From Coquelicot Require Import Coquelicot.
From Verif Require Import PyBase NumModel NumInst PolySpec F64Spec.
Open Scope R_scope.

(** Half the distance of 1 and the next binary64 number *)
Definition uro : R := / 2 ^ 53.
(** The polynomial of lowest degree that is 1 at node [k] and 0 at the other nodes *)
Definition Cardinal (tau : list R) (k : nat) (L : R -> R) : Prop :=
  PolyLt (length tau) L /\ forall j, (j < length tau)%nat -> L (node tau j) = if Nat.eqb j k then 1 else 0.
Definition Cardinals (tau : list R) (L : nat -> R -> R) : Prop := forall k, (k < length tau)%nat -> Cardinal tau k (L k).
(** Numbers whose distance is between [2^-b] and [2^b] *)
Definition Apart (b : nat) (x y : R) : Prop := / 2 ^ b <= Rabs (x - y) <= 2 ^ b.
(** Nodes with such distances *)
Definition Spread (b : nat) (tau : list f64) : Prop :=
  FiniteAll tau /\ forall i j, (i < length tau)%nat -> (j < length tau)%nat -> i <> j -> Apart b (val (fnode tau i)) (val (fnode tau j)).
(** [Sum] of the terms but the [j]-th *)
Definition SumBut (n j : nat) (f : nat -> R) : R := Sum n (fun k => if Nat.eqb k j then 0 else f k).
(** A query that equals a node or whose distances to the nodes are not extreme *)
Definition Query (b : nat) (tau : list f64) (x : f64) : Prop :=
  Finite x /\ ((exists k, (k < length tau)%nat /\ val x = val (fnode tau k)) \/ forall k, (k < length tau)%nat -> Apart b (val x) (val (fnode tau k))).
(** The Lebesgue function *)
Definition Leb (n : nat) (L : nat -> R -> R) (x : R) : R := Sum n (fun k => Rabs (L k x)).
(** Relative error of the operations with [n] nodes *)
Definition rate (n : nat) : R := (6 * INR n + 6) * uro.
(** The condition of interpolating [f] at [x], and the bound of the error *)
Definition cond (tau : list R) (L : nat -> R -> R) (f : R -> R) (x : R) : R :=
  Sum (length tau) (fun k => Rabs (f (node tau k)) * Rabs (L k x)) + Leb (length tau) L x * Rabs (f x).
Definition err_bound (tau : list R) (L : nat -> R -> R) (f : R -> R) (x : R) : R :=
  2 * rate (length tau) * cond tau L f x + INR (length tau) * / 2 ^ 1074.
(** Matrix elements that are finite and not extremely large *)
Definition Moderate (u : mat f64) : Prop := forall i j, (i < nr u)%nat -> (j < nc u)%nat -> Finite (at_m u i j) /\ Rabs (val (at_m u i j)) <= 2 ^ 300.
(** The condition of differentiating, at node [j], the polynomial with values [v]; [d] are
    the derivatives of the cardinal polynomials there. *)
Definition dcond (n j : nat) (d v : nat -> R) : R := Sum n (fun k => Rabs (v k) * if Nat.eqb k j then SumBut n j (fun i => Rabs (d i)) else Rabs (d k)).
