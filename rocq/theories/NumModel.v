(** Numbers and numpy arrays used by the collocation modules.  The definitions are
    parametric in the numbers; they are instantiated with real numbers (theorems),
    rational numbers (running the repository's tests) and IEEE binary64 (rounding). *)
From Verif Require Import PyBase.
Open Scope nat_scope.

(** The operations on numbers *)
Class Num (T : Type) := {
  n0 : T; n1 : T;
  nadd : T -> T -> T; nsub : T -> T -> T; nmul : T -> T -> T; ndiv : T -> T -> T; nopp : T -> T;
  neqb : T -> T -> bool; nltb : T -> T -> bool;
  nof : nat -> T;      (* conversion of an integer *)
  nceil : T -> Z       (* ceil *)
}.
Declare Scope num_scope.
Delimit Scope num_scope with num.
Infix "+" := nadd : num_scope.
Infix "-" := nsub : num_scope.
Infix "*" := nmul : num_scope.
Infix "/" := ndiv : num_scope.
Notation "- x" := (nopp x) : num_scope.
Notation "x =? y" := (neqb x y) : num_scope.
Notation "x <? y" := (nltb x y) : num_scope.
Notation "x <=? y" := (negb (nltb y x)) : num_scope.

Section Num.
Context {T : Type} {NT : Num T}.

(** [x ** k] for an integer [k >= 0] *)
Fixpoint npow (x : T) (k : nat) : T := match k with O => n1 | S k' => (npow x k' * x)%num end.

(** [np.sum], [np.prod] of [f(0), ..., f(n-1)], from left to right (numpy may add the
    terms in another order, which matters for rounding only). *)
Definition nsum (n : nat) (f : nat -> T) : T := fold_left (fun a k => (a + f k)%num) (seq 0 n) n0.
(** [np.sum] of a list *)
Definition nsuml (l : list T) : T := fold_left nadd l n0.
(** [np.prod] of a list *)
Definition nprodl (l : list T) : T := fold_left nmul l n1.

(** One-dimensional arrays are lists. *)
Definition vget (l : list T) (i : nat) : T := nth i l n0.

(** Two-dimensional arrays (numpy) and dense matrices (CasADi): numbers of rows and
    columns and the elements. *)
Record mat := Mat { nr : nat; nc : nat; at_m : nat -> nat -> T }.

(** [A.T] *)
Definition mtr (a : mat) : mat := Mat (nc a) (nr a) (fun i j => at_m a j i).
(** [np.dot(A, B)], [cs.mtimes(A, B)]; a shape mismatch is an exception. *)
Definition mdot (a b : mat) : res mat :=
  if nc a =? nr b then Ok (Mat (nr a) (nc b) (fun i j => nsum (nc a) (fun k => (at_m a i k * at_m b k j)%num))) else Err EValue.
(** [A / s] elementwise *)
Definition mdivs (a : mat) (s : T) : mat := Mat (nr a) (nc a) (fun i j => (at_m a i j / s)%num).
(** Columns [A[:, a:b]] and rows [A[a:b, :]] with [a <= b] in range *)
Definition mcols (m : mat) (a b : nat) : mat := Mat (nr m) (b - a) (fun i j => at_m m i (a + j)).
(** [A[a:b, :]] *)
Definition mrows (m : mat) (a b : nat) : mat := Mat (b - a) (nc m) (fun i j => at_m m (a + i) j).
(** [np.vstack] of rows of the same length *)
Definition vstack_rows (n : nat) (l : list (list T)) : mat := Mat (length l) n (fun i j => vget (nth i l []) j).
(** [np.hstack], [cs.horzcat] of matrices; numpy refuses an empty list. *)
Definition hcat2 (a b : mat) : res mat :=
  if nr a =? nr b then Ok (Mat (nr a) (nc a + nc b) (fun i j => if j <? nc a then at_m a i j else at_m b i (j - nc a))) else Err EValue.
(** [a] followed by the matrices of [l] *)
Fixpoint hcat_from (a : mat) (l : list mat) : res mat :=
  match l with [] => Ok a | b :: l' => let* c := hcat2 a b in hcat_from c l' end.
(** [np.hstack(l)] *)
Definition hstack (l : list mat) : res mat := match l with [] => Err EValue | a :: l' => hcat_from a l' end.

(** Arguments which may be a number, a vector or a two-dimensional array. *)
Inductive nparg := PNum (x : T) | PVec (l : list T) | PArr (m : mat).
(** [np.atleast_1d(a)] followed by [assert a.ndim == 1] *)
Definition atleast_1d (a : nparg) : res (list T) :=
  match a with PNum x => Ok [x] | PVec l => Ok l | PArr _ => Err EAssert end.

(** [np.searchsorted(l, x, side)] for ascending [l]: the number of elements below [x]
    ('left') or not above [x] ('right').  numpy finds it by bisection. *)
Definition searchsorted (l : list T) (x : T) (right : bool) : nat :=
  length (filter (fun y => if right then (y <=? x)%num else (y <? x)%num) l).
(** [np.clip(k - 1, 0, hi)] *)
Definition clip1 (k : nat) (hi : Z) : nat := Z.to_nat (Z.min (Z.max (Z.of_nat k - 1) 0) hi).

(** [np.diff(l)] *)
Fixpoint ndiff (l : list T) : list T :=
  match l with x :: ((y :: _) as l') => (y - x)%num :: ndiff l' | _ => [] end.
(** [np.arange(0, 1, step)]: [ceil((1 - 0) / step)] numbers [0 + k * ((0 + step) - 0)] *)
Definition arange01 (step : T) : res (list T) :=
  if (step =? n0)%num then Err EValue
  else let n := Z.to_nat (nceil ((n1 - n0) / step)%num) in
       let delta := ((n0 + step) - n0)%num in
       Ok (map (fun k => (n0 + nof k * delta)%num) (seq 0 n)).
End Num.
Arguments mat T : clear implicits.
Arguments nparg T : clear implicits.
