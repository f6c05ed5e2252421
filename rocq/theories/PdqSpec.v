(** Specification vocabulary for [Pdq]. *)
From Coq Require Import Reals.
From Verif Require Import PyBase NumModel NumInst PolynomialModel PiecewiseModel PdqModel PolySpec.
Open Scope R_scope.

(** Collocation nodes: order + 1 ascending numbers in [0, 1], the first being 0. *)
Definition Nodes (order : nat) (tau : list R) : Prop := length tau = (order + 1)%nat /\ Asc tau /\ node tau 0 = 0 /\ node tau order <= 1.
(** A grid of bounds *)
Definition Bounds (t : list R) : Prop := (2 <= length t)%nat /\ Asc t.
Definition ivals (t : list R) : nat := (length t - 1)%nat.
Definition step (t : list R) (i : nat) : R := node t (i + 1) - node t i.
(** The collocation points of a grid: [order] points per interval and one at the end. *)
Definition Grid (t tau : list R) (order : nat) (pts : list R) : Prop :=
  length pts = (ivals t * order + 1)%nat /\
  (forall i j, (i < ivals t)%nat -> (j < order)%nat -> node pts (i * order + j) = node t i + node tau j * step t i) /\
  node pts (ivals t * order) = node t (ivals t - 1) + node tau order * step t (ivals t - 1).
(** The interval where the interpolators look for [t]: a bound belongs to the interval on
    its right. *)
Definition InInterval (t : list R) (x : R) (i : nat) : Prop :=
  (i < ivals t)%nat /\ (i = 0%nat \/ node t i <= x) /\ ((i + 1 = ivals t)%nat \/ x < node t (i + 1)).
(** [[0, Y]] *)
Definition with_zero (y : mat R) : mat R := Mat (nr y) (nc y + 1) (fun r k => match k with O => 0 | S k' => at_m y r k' end).
(** For a continuity option that works: points used per interval and columns of data *)
Definition Continuity (t : list R) (order : nat) (c : string) (w n : nat) : Prop :=
  (c = "both"%string /\ w = (order + 1)%nat /\ n = (ivals t * order + 1)%nat) \/ (c = "right"%string /\ w = order /\ n = (ivals t * order)%nat).
