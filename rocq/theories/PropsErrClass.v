(** C116: the exceptions of refused entries. *)
From Verif Require Import PyBase IndexModel DMModel StructModel StructSpec PowerModel EntryModel EntrySpec ErrClassSpec ErrClassThms.
Open Scope nat_scope.

Section S.
Context {T : Type}.
Notation kval := (kval T).
Notation kwargs := (kwargs T).
Theorem C116_exceptions : forall name (kw : kwargs) x, NoDup (map fst kw) -> (forall k v, given kw k v -> ValOk v) -> Plain kw -> entry_init name kw = Err x ->
  x = EException \/ (x = EType /\ exists v, given kw "type" v) \/ (x = ENotImpl /\ exists v, given kw "shape" v /\ OddShape v).
Proof. exact entry_class. Qed.
Theorem C116_exception_partial : forall name (kw : kwargs), NoDup (map fst kw) -> (forall k v, given kw k v -> ValOk v) -> ~ Valid kw -> absent kw "type" -> (forall v, given kw "shape" v -> PlainShape v) -> (forall v, given kw "shape" v -> ~ OddShape v) -> entry_init name kw = Err EException.
Proof. exact entry_exception. Qed.
Theorem C116_exception_early : forall name (kw : kwargs), NoDup (map fst kw) ->
  (exists k v, given kw k v /\ ~ In k doc_keywords) \/ (exists k k' v v', In (k, k') doc_conflicts /\ given kw k v /\ given kw k' v') \/ (exists v, given kw "repeat" v /\ forall zs, ~ RepeatArg v zs) -> entry_init name kw = Err EException.
Proof. exact early_class. Qed.
Theorem C116_type_error_iff : forall name (kw : kwargs), NoDup (map fst kw) -> (forall k v, given kw k v -> ValOk v) -> Plain kw -> (entry_init name kw = Err EType <-> Valid (untyped kw) /\ exists v, given kw "type" v /\ ~ GoodType kw v).
Proof. exact entry_type_error. Qed.
Theorem C116_not_implemented_iff : forall name (kw : kwargs), NoDup (map fst kw) -> (forall k v, given kw k v -> ValOk v) -> Plain kw ->
  (entry_init name kw = Err ENotImpl <-> (forall k v, given kw k v -> In k doc_keywords) /\ (forall k k' v v', In (k, k') doc_conflicts -> given kw k v -> given kw k' v' -> False) /\ (exists r, DocRepeat kw r) /\ exists v, given kw "shape" v /\ OddShape v).
Proof. exact entry_not_impl. Qed.
End S.
Theorem C116_type_refuted : exists name (kw kw' : kwargs nat), NoDup (map fst kw) /\ (forall k v, given kw k v -> ValOk v) /\ given kw "type" (VStr "sym") /\ ~ Valid kw /\ entry_init name kw = Err EType /\
  NoDup (map fst kw') /\ (forall k v, given kw' k v -> ValOk v) /\ given kw' "type" (VStr "symm") /\ ~ Valid kw' /\ entry_init name kw' = Err EType.
Proof. exact type_refuted. Qed.

Print Assumptions C116_exceptions.
Print Assumptions C116_exception_partial.
Print Assumptions C116_exception_early.
Print Assumptions C116_type_error_iff.
Print Assumptions C116_not_implemented_iff.
Print Assumptions C116_type_refuted.
