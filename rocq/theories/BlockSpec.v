(** Specification vocabulary for block arithmetic (C97). *)
From Verif Require Import PyBase IndexModel DMModel StructModel StructSpec PowerModel PowerSpec DMProofs.
Open Scope nat_scope.

Section Spec.
Context {T : Type} (zero : T) (add mul : T -> T -> T).
(** A sum *)
Definition total (l : list T) : T := fold_right add zero l.
(** Element [i] of the product of a matrix with [n] columns and a vector *)
Definition matvec (n : nat) (M v : dm T) (i : nat) : T := total (map (fun k => mul (dm_val zero M (i, k)) (dm_val zero v (k, 0))) (seq 0 n)).
(** The same with the elements of the vector taken from the nonzeros of a matrix *)
Definition blockvec (B X : dm T) (i : nat) : T := total (map (fun j => mul (dm_val zero B (i, j)) (nth j (dm_nz X) zero)) (seq 0 (length (dm_nz X)))).
(** A leaf that is neither sparse nor symmetric *)
Definition Plain (s : structure) (ci : cidx) : Prop := exists e, Leaf s ci e /\ sp_is_dense (e_sp e) = true /\ e_symm e = false.
(** The ways to write a leaf as a row or column of a view: its name or [indexf[...]] *)
Inductive Sel : cidx -> pel T -> Prop :=
| Sel_name : forall a, Sel [KS a] (PStr a)
| Sel_index : forall ci, Sel ci (PDel true (pidx ci)).
End Spec.
