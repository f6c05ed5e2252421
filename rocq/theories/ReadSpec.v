(** What it means for one result to show the values at the positions listed by another. *)
From Verif Require Import PyBase IndexModel DMModel StructModel StructSpec PowerModel.

Section V.
Context {T : Type}.

(** [Values v r R]: [R] is [r] with every index matrix replaced by the matrix, of the same
    sparsity pattern, of the elements of [v] at the positions it lists.  Lists and dicts
    keep their form. *)
Inductive Values (v : list T) : rval T -> rval T -> Prop :=
| V_mat : forall m nz, Forall2 (fun k x => nth_error v k = Some x) (dm_nz m) nz ->
    Values v (RIdx m) (RMat (DM (dm_sp m) nz))
| V_list : forall l L, Forall2 (Values v) l L -> Values v (RList l) (RList L)
| V_dict : forall l L, Forall2 (fun a b => fst a = fst b /\ Values v (snd a) (snd b)) l L -> Values v (RDict l) (RDict L).

(** Only lists of index matrices, no dict. *)
Inductive Listy : rval T -> Prop :=
| L_idx : forall m, Listy (RIdx m)
| L_list : forall l, Forall Listy l -> Listy (RList l).

(** Every index matrix is dense. *)
Inductive AllDense : rval T -> Prop :=
| D_idx : forall m, sp_nnz (dm_sp m) = sp_nr (dm_sp m) * sp_nc (dm_sp m) -> AllDense (RIdx m)
| D_list : forall l, Forall AllDense l -> AllDense (RList l)
| D_dict : forall l, Forall (fun kv => AllDense (snd kv)) l -> AllDense (RDict l).
End V.
