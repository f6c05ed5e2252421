(** Attributes of prefixed structures (C82). *)
From Verif Require Import PyBase IndexModel DMModel StructModel PowerModel EntryModel StructsModel.
Open Scope list_scope.
Open Scope nat_scope.

Section PrefixAttr.
Context {T : Type} (zero : T).

(** structure3.py:714-722 [Prefixer.__getattr__] for a numeric structure on a column [master]:
    an attribute that the Prefixer itself does not have is looked up on [struct.master],
    whatever the prefix.  [att] is any function of the matrix (a property such as [shape],
    or a method with its arguments; if it can raise, [A] is a result type). *)
Definition prefix_getattr {A} (att : dm T -> A) (x : prefixer T) : A := att (dm_col (so_cat (px_obj x))).
(** The same lines for the Prefixer returned by [squared] and [product] of an [r] x [k]
    matrix: [struct.master] is a DataReference, and the attribute is looked up on its
    matrix [a]. *)
Definition view_getattr {A} (att : dm T -> A) (r k : nat) (v : view T) : A := att (DM (sp_dense r k) (view_matrix v)).
(** structure3.py:738-739 [Prefixer.__call__] for a view *)
Definition view_call (v : view T) : res (rval T) := so_get zero (vw_obj v) (vw_prefix v).
End PrefixAttr.
