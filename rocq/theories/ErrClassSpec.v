(** Specification vocabulary for the exceptions of [entry(...)] (C116). *)
From Verif Require Import PyBase DMModel StructModel StructSpec EntryModel EntrySpec.
Open Scope nat_scope.

(** The keyword arguments other than 'type' *)
Definition untyped {T} (kw : kwargs T) : kwargs T := filter (fun kv => negb (String.eqb (fst kv) "type")) kw.
(** 'type' is "symm" and the declared matrix is square. *)
Definition GoodType {T} (kw : kwargs T) (v : kval T) : Prop := v = VStr "symm" /\ exists sp, DocSparsity kw sp /\ sp_nr sp = sp_nc sp.
(** A shape of one or two elements that are not all integers *)
Definition OddShape {T} (v : kval T) : Prop := exists l, (v = VList l \/ v = VTuple l) /\ (length l = 1 \/ length l = 2) /\ forall zs, l <> map VInt zs.
(** Values that can be compared with "symm": no matrices or patterns, whose comparison CasADi may refuse with an exception of its own *)
Definition PlainType {T} (v : kval T) : Prop := match v with VNone | VInt _ | VStr _ | VList _ | VTuple _ | VStructure _ => True | _ => False end.
(** Shapes whose elements are numbers, strings or None: CasADi also takes a pair, or numbers that are matrices, as elements. *)
Definition PlainShape {T} (v : kval T) : Prop := match v with VList l | VTuple l => forall x, In x l -> match x with VInt _ | VStr _ | VNone => True | _ => False end | _ => True end.
Definition Plain {T} (kw : kwargs T) : Prop := (forall v, given kw "type" v -> PlainType v) /\ (forall v, given kw "shape" v -> PlainShape v).
