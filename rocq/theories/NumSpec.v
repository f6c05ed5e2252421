(** Specification vocabulary for matrices over the real numbers. *)
From Coq Require Import Reals.
From Verif Require Import PyBase NumModel NumInst PolySpec.
Open Scope R_scope.

(** [S] solves [A S = B]. *)
Definition Solution (A B S : mat R) : Prop :=
  nr S = nc A /\ nc S = nc B /\ forall i j, (i < nr A)%nat -> (j < nc B)%nat -> Sum (nc A) (fun k => at_m A i k * at_m S k j) = at_m B i j.
(** A linear solver returns only solutions of its equations. *)
Definition Solver (solve : mat R -> mat R -> res (mat R)) : Prop :=
  forall A B S, solve A B = Ok S -> Solution A B S.
(** Square and nonsingular *)
Definition Nonsingular (A : mat R) : Prop :=
  nr A = nc A /\ forall s : nat -> R, (forall i, (i < nr A)%nat -> Sum (nc A) (fun k => at_m A i k * s k) = 0) -> forall k, (k < nc A)%nat -> s k = 0.
(** Equal shapes and elements *)
Definition MatEq (A B : mat R) : Prop :=
  nr A = nr B /\ nc A = nc B /\ forall i j, (i < nr A)%nat -> (j < nc A)%nat -> at_m A i j = at_m B i j.
(** A solver that finds the solution of every nonsingular system. *)
Definition Complete (solve : mat R -> mat R -> res (mat R)) : Prop :=
  forall A B, Nonsingular A -> nr B = nr A -> (exists S, Solution A B S) -> exists S, solve A B = Ok S.
