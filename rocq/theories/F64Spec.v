(** Specification vocabulary for binary64 numbers: which are numbers, their values, grids. *)
From Coq Require Import Reals.
From Coq Require Import Floats.SpecFloat.
From Flocq Require Import Core.Zaux IEEE754.BinarySingleNaN.
From Verif Require Import PyBase NumModel NumInst PolySpec.
Open Scope R_scope.

(** A binary64 number that is neither infinite nor NaN, and its value. *)
Definition Finite (x : f64) : Prop := SpecFloat.valid_binary 53 1024 x = true /\ is_finite_SF x = true.
Definition val (x : f64) : R := SF2R radix2 x.
(** [x] is the number [r]. *)
Definition Is (x : f64) (r : R) : Prop := Finite x /\ val x = r.
(** The [i]-th number of a list *)
Definition fnode (l : list f64) (i : nat) : f64 := nth i l (S754_zero false).
Definition FiniteAll (l : list f64) : Prop := forall x, In x l -> Finite x.
(** Ascending numbers *)
Definition AscF (l : list f64) : Prop := FiniteAll l /\ Asc (map val l).
(** Different numbers *)
Definition DistinctF (l : list f64) : Prop := FiniteAll l /\ NoDup (map val l).
(** The distances of neighbours do not overflow. *)
Definition StepsF (l : list f64) : Prop :=
  forall i, (i + 1 < length l)%nat -> Finite (SFsub 53 1024 (fnode l (i + 1)) (fnode l i)).
(** All elements are numbers; same values *)
Definition FiniteM (m : mat f64) : Prop := forall i j, (i < nr m)%nat -> (j < nc m)%nat -> Finite (at_m m i j).
(** The interval that the number [x] belongs to: a bound belongs to the interval on its
    right (or left); numbers outside of the bounds to the first or last one. *)
Definition Within (t : list R) (right : bool) (x : R) (i : nat) : Prop :=
  (i + 1 < length t)%nat /\
  (i = 0%nat \/ if right then node t i <= x else node t i < x) /\
  ((i + 2 = length t)%nat \/ if right then x < node t (i + 1) else x <= node t (i + 1)).
(** [y] is column [j] of [u]. *)
Definition IsCol (y : mat f64) (k : nat) (u : mat f64) (j : nat) : Prop := forall r, (r < nr u)%nat -> Is (at_m y r k) (val (at_m u r j)).
(** The time [x] within interval [i], scaled to [0, 1], in binary64 *)
Definition local_time (t : list f64) (i : nat) (x : f64) : f64 :=
  SFdiv 53 1024 (SFsub 53 1024 x (fnode t i)) (SFsub 53 1024 (fnode t (i + 1)) (fnode t i)).
Definition to_right (c : string) : bool := String.eqb c "right".
(** The number of collocation points per interval that the interpolator [c] uses, and of
    all of its points *)
Definition Width (t : list f64) (order : nat) (c : string) (w n : nat) : Prop :=
  (c = "both"%string /\ w = (order + 1)%nat /\ n = ((length t - 1) * order + 1)%nat) \/ (c = "right"%string /\ w = order /\ n = ((length t - 1) * order)%nat).
