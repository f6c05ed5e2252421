(** Specification vocabulary for inexact inputs and refined grids (C115). *)
From Coq Require Import Reals List.
From Coquelicot Require Import Coquelicot.
From Verif Require Import PyBase DMModel DaeModel NumModel NumInst PolynomialModel PiecewiseModel SchemeModel PolySpec PdqSpec SchemeSpec OrderSpec.
Open Scope R_scope.

(** Controls, parameters and time-dependent parameters within [d] of those of a trajectory *)
Definition NearFed (f : daefun R) (t : list R) (d : R) (g g' : option (R -> mat R)) (u p : mat R) (us : nat -> R -> R) (pv : nat -> R) : Prop :=
  (forall i n v, (i < f_nu f)%nat -> (n < ivals t)%nat -> node t n < v <= node t (n + 1) -> Rabs (at_m u i n - us i v) <= d) /\ (forall i, (i < f_np f)%nat -> Rabs (at_m p i 0 - pv i) <= d) /\
  (forall i v, (i < f_ntdp f)%nat -> node t 0 < v <= node t (ivals t) -> Rabs (tdp_at g v i - tdp_at g' v i) <= d).
(** Each interval's controls are those of the trajectory at times in the interval. *)
Definition TakenFrom (f : daefun R) (t : list R) (u p : mat R) (us : nat -> R -> R) (pv : nat -> R) : Prop :=
  (forall i n, (i < f_nu f)%nat -> (n < ivals t)%nat -> exists v, node t n <= v <= node t (n + 1) /\ at_m u i n = us i v) /\ (forall i, (i < f_np f)%nat -> at_m p i 0 = pv i).
(** Continuous functions, and antiderivatives, on an interval *)
Definition ContOn (a b : R) (h : R -> R) : Prop := forall v, a <= v <= b -> continuity_pt h v.
Definition Follows (a b : R) (w d : R -> R) : Prop := forall v, a <= v <= b -> is_RInt d a v (w v - w a).
(** Grids of [a, b] with steps of at most [delta] *)
Definition FineGrid (t : list R) (a b delta : R) : Prop := Asc t /\ (2 <= length t)%nat /\ node t 0 = a /\ node t (ivals t) = b /\ forall n, (n < ivals t)%nat -> step t n <= delta.
(** Functions with a Lipschitz constant on an interval *)
Definition LipOn (a b c : R) (h : R -> R) : Prop := forall v w, a <= v <= b -> a <= w <= b -> Rabs (h v - h w) <= c * Rabs (v - w).
