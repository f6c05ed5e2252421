(** Specification vocabulary for printed forms. *)
From Coq Require Import Ascii.
From Verif Require Import PyBase IndexModel DMModel StructModel StructSpec.
Open Scope nat_scope.

(** Letters, digits and the underscore. *)
Definition ident_char (c : ascii) : bool :=
  let n := nat_of_ascii c in
  ((48 <=? n) && (n <=? 57)) || ((65 <=? n) && (n <=? 90)) || ((97 <=? n) && (n <=? 122)) || (n =? 95).
Fixpoint all_chars (P : ascii -> bool) (s : string) : Prop :=
  match s with EmptyString => True | String c r => P c = true /\ all_chars P r end.
Definition ident (s : string) : Prop := all_chars ident_char s.

(** An entry as [entry(name, shape=..., repeat=..., type='symm')] with a dense shape or
    [entry(name, struct=..., repeat=...)] makes it. *)
Definition PlainLeaf (e : entry) : Prop :=
  e_shape e = None /\
  match e_struct e with
  | Some _ => e_sp e = sp_dense 1 1 /\ e_symm e = false /\ e_orig e = None
  | None => if e_symm e then exists n, e_sp e = sp_upper n /\ e_orig e = Some (sp_dense n n)
            else (exists r c, e_sp e = sp_dense r c) /\ e_orig e = None
  end.
(** Different names made of letters, digits and underscores, plain entries, and
    sub-structures of the same kind in the order of their entries. *)
Inductive Plain : structure -> Prop :=
| Plain_intro : forall es order,
    NoDup (map e_name es) ->
    (forall e, In e es -> ident (e_name e) /\ PlainLeaf e) ->
    (forall e s, In e es -> e_struct e = Some s -> Plain s /\ s_order s = map OName (map e_name (s_entries s))) ->
    (forall n, In n (flat_map oelem_names order) -> ident n) ->
    Plain (mkStruct es order).
