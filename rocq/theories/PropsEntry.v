(** Property theorems about [entry(...)] and [struct([...])] (C08, C34, C70). *)
From Verif Require Import PyBase IndexModel DMModel StructModel StructSpec PowerModel EntryModel EntrySpec EntryProofs EntryExamples.
Open Scope nat_scope.

Section Props.
Context (T : Type).
Notation kval := (kval T).
Notation kwargs := (kwargs T).

(** C08 *)
Theorem C08_entry_list_iff : forall (l : list (item_arg T)) order,
  (exists el, entry_list l order = Ok el) <-> NoDup (arg_names l) /\ (order = None \/ ~ grouped l).
Proof. exact entry_list_iff. Qed.

Theorem C08_entry_list_result : forall (l : list (item_arg T)) order el,
  entry_list l order = Ok el ->
  el_entries el = arg_entries l /\ map ce_name (el_entries el) = arg_names l /\
  el_order el = match order with None => map item_order l | Some o => o end.
Proof. exact entry_list_result. Qed.

Theorem C08_struct_builds : forall (l : list (item_arg T)),
  items_ok l ->
  ((exists el c, struct_ l None = Ok (el, c)) <-> NoDup (arg_names l)) /\
  (forall el c, struct_ l None = Ok (el, c) ->
    Wf (cs_struct c) /\ casadi_structure (cs_struct c) = Ok c /\
    s_entries (cs_struct c) = map ce_entry (arg_entries l) /\ s_keys (cs_struct c) = arg_names l /\
    s_order (cs_struct c) = map item_order l).
Proof. exact struct_builds. Qed.

Theorem C08_struct_builds_order : forall (l : list (item_arg T)) order,
  items_ok l -> OrderOk l order ->
  ((exists el c, struct_ l order = Ok (el, c)) <-> NoDup (arg_names l) /\ (order = None \/ ~ grouped l)) /\
  (forall el c, struct_ l order = Ok (el, c) ->
    Wf (cs_struct c) /\ casadi_structure (cs_struct c) = Ok c /\ el_entries el = arg_entries l /\
    s_entries (cs_struct c) = map ce_entry (arg_entries l) /\ s_order (cs_struct c) = the_order l order).
Proof. exact struct_builds_order. Qed.

(** C34 *)
Theorem C34_entry_unknown : forall name (kw : kwargs) k v,
  given kw k v -> ~ In k doc_keywords -> exists x, entry_init name kw = Err x.
Proof. exact entry_unknown. Qed.

Theorem C34_entry_conflict : forall name (kw : kwargs) k k' v v',
  In (k, k') doc_conflicts -> given kw k v -> given kw k' v' ->
  exists x, entry_init name kw = Err x.
Proof. exact entry_conflict. Qed.

Theorem C34_entry_bad_repeat : forall name (kw : kwargs) v,
  NoDup (map fst kw) -> given kw "repeat" v -> (forall zs, ~ RepeatArg v zs) ->
  exists x, entry_init name kw = Err x.
Proof. exact entry_bad_repeat. Qed.

Theorem C34_entry_result : forall name (kw : kwargs) ce,
  NoDup (map fst kw) -> entry_init name kw = Ok ce ->
  e_name (ce_entry ce) = name /\
  DocRepeat kw (e_dims (ce_entry ce)) /\
  (exists sp, DocSparsity kw sp /\ DocStored kw sp (e_sp (ce_entry ce)) (e_symm (ce_entry ce)) (e_orig (ce_entry ce))) /\
  DocStruct kw (e_struct (ce_entry ce)) /\
  DocShapestruct kw (e_shape (ce_entry ce)).
Proof. exact entry_result. Qed.

Theorem C34_entry_accepts_iff : forall name (kw : kwargs),
  NoDup (map fst kw) ->
  ((exists ce, entry_init name kw = Ok ce) <-> Valid kw).
Proof. exact entry_accepts_iff. Qed.

Theorem C34_doc_unique : forall (kw : kwargs),
  NoDup (map fst kw) -> Valid kw ->
  (forall r r', DocRepeat kw r -> DocRepeat kw r' -> r = r') /\
  (forall sp sp', DocSparsity kw sp -> DocSparsity kw sp' -> sp = sp') /\
  (forall sp s1 b1 o1 s2 b2 o2, DocStored kw sp s1 b1 o1 -> DocStored kw sp s2 b2 o2 -> s1 = s2 /\ b1 = b2 /\ o1 = o2).
Proof. exact doc_unique. Qed.

Theorem C34_entry_proper : forall name (kw : kwargs) ce,
  NoDup (map fst kw) -> (forall k v, given kw k v -> ValOk v) ->
  entry_init name kw = Ok ce -> EntryOk (ce_entry ce).
Proof. exact entry_proper. Qed.

(** C70 *)
Theorem C70_struct_kept_partial : forall name (kw : kwargs) ce v s,
  NoDup (map fst kw) -> entry_init name kw = Ok ce ->
  given kw "struct" v -> struct_value v s -> (forall s' m, ~ given kw "sym" (VStructured s' m)) ->
  e_struct (ce_entry ce) = Some s.
Proof. exact struct_kept. Qed.

End Props.

Open Scope string_scope.
Theorem C70_bad_struct_refuted : exists (kw : EntryModel.kwargs Z) v ce,
  given kw "struct" v /\ (forall s, ~ struct_value v s) /\ entry_init "x" kw = Ok ce /\
  e_struct (ce_entry ce) = None /\ e_sp (ce_entry ce) = sp_dense 1 1.
Proof. exact bad_struct_refuted. Qed.

Print Assumptions C08_entry_list_iff.
Print Assumptions C08_entry_list_result.
Print Assumptions C08_struct_builds.
Print Assumptions C08_struct_builds_order.
Print Assumptions C34_entry_unknown.
Print Assumptions C34_entry_conflict.
Print Assumptions C34_entry_bad_repeat.
Print Assumptions C34_entry_result.
Print Assumptions C34_entry_accepts_iff.
Print Assumptions C34_doc_unique.
Print Assumptions C34_entry_proper.
Print Assumptions C70_struct_kept_partial.
Print Assumptions C70_bad_struct_refuted.
