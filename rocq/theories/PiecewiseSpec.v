(** Specification vocabulary for piecewise polynomials. *)
From Coq Require Import Reals.
From Verif Require Import PyBase NumModel NumInst PolynomialModel PiecewiseModel PolySpec.
Open Scope R_scope.

Definition nint (p : ppoly R) : nat := (length (pp_t p) - 1)%nat.
Definition bound (p : ppoly R) (i : nat) : R := node (pp_t p) i.
Definition width (p : ppoly R) (i : nat) : R := bound p (i + 1) - bound p i.
Definition coef (p : ppoly R) (i : nat) : mat R := nth i (pp_c p) (Mat 0 0 (fun _ _ => 0)).
Definition nnodes (p : ppoly R) : nat := length (b_tau (pp_b p)).

(** A piecewise polynomial with [m] components: ascending bounds, a basis with distinct
    nodes, one coefficient matrix per interval. *)
Definition PpOk (p : ppoly R) (m : nat) : Prop :=
  (2 <= length (pp_t p))%nat /\ Asc (pp_t p) /\
  basis_ (PVec (b_tau (pp_b p))) = Ok (pp_b p) /\ NoDup (b_tau (pp_b p)) /\
  length (pp_c p) = nint p /\ forall i, (i < nint p)%nat -> nr (coef p i) = m /\ nc (coef p i) = nnodes p.
(** [f] is component [r] on interval [i]: the polynomial of degree < n that takes the
    values [coef[r, j]] at the nodes moved to the interval. *)
Definition Piece (p : ppoly R) (i r : nat) (f : R -> R) : Prop :=
  PolyLt (nnodes p) f /\ forall j, (j < nnodes p)%nat -> f (bound p i + node (b_tau (pp_b p)) j * width p i) = at_m (coef p i) r j.
(** The interval that [t] belongs to. *)
Definition Belongs (p : ppoly R) (right : bool) (t : R) (i : nat) : Prop :=
  (i < nint p)%nat /\
  (i = 0%nat \/ if right then bound p i <= t else bound p i < t) /\
  ((i + 1 = nint p)%nat \/ if right then t < bound p (i + 1) else t <= bound p (i + 1)).
(** Column where block [k] starts in a horizontal stack of blocks with widths [ws]. *)
Definition offset (ws : list nat) (k : nat) : nat := list_sum (firstn k ws).
(** The function [t -> p(t, continuity)[r, 0]] *)
Definition ppval (p : ppoly R) (continuity : string) (r : nat) (t : R) : R :=
  match pp_call p (PNum t) continuity with Ok m => at_m m r 0 | Err _ => 0 end.
