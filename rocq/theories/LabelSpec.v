(** Specification vocabulary for labels. *)
From Coq Require Import Ascii.
From Verif Require Import PyBase IndexModel DMModel StructModel StructSpec.

(** A string without commas. *)
Fixpoint no_comma (s : string) : Prop :=
  match s with
  | EmptyString => True
  | String a r => a <> ","%char /\ no_comma r
  end.

(** No name of the structure, at any depth, contains a comma. *)
Inductive CommaFree : structure -> Prop :=
| CommaFree_intro : forall es order,
    (forall e, In e es -> no_comma (e_name e)) ->
    (forall e s', In e es -> e_struct e = Some s' -> CommaFree s') ->
    CommaFree (mkStruct es order).
