(** Symbolic structures: how the symbols are called, and which given symbols fit. *)
From Verif Require Import PyBase IndexModel DMModel StructModel StructSpec EntryModel EntrySpec LabelModel.
Open Scope nat_scope.

(** The parts of an index joined by underscores. *)
Fixpoint underscored (ci : cidx) : string :=
  match ci with
  | [] => ""
  | [k] => str_ck k
  | k :: r => (str_ck k ++ "_" ++ underscored r)%string
  end.
(** The [j]-th of the [n] symbols of a leaf; a single one has no number. *)
Definition symbol_name (ci : cidx) (n j : nat) : string :=
  (underscored ci ++ (if Nat.eqb n 1 then "" else "_" ++ str_ck (KI (Z.of_nat j))))%string.

(** A given symbol [m] that has exactly the elements of its entry: the entry has no repeats,
    is not symmetric, and is a matrix of the pattern of [m] or a (non-empty) structure of
    the size of the dense column [m]. *)
Definition sym_fits {T} (ce : centry T) (m : dm T) : Prop :=
  e_dims (ce_entry ce) = [] /\ e_symm (ce_entry ce) = false /\ SpOk (dm_sp m) /\ length (dm_nz m) = sp_nnz (dm_sp m) /\
  ((e_struct (ce_entry ce) = None /\ e_sp (ce_entry ce) = dm_sp m) \/
   (exists s' n, e_struct (ce_entry ce) = Some s' /\ SizeOf s' n /\ (exists ci e, Leaf s' ci e) /\ dm_sp m = sp_dense n 1)).
