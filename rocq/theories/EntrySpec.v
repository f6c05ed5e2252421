(** Specification vocabulary for [entry(...)] and lists of entries: the documented
    meaning of the keywords. *)
From Coq Require Import Permutation.
From Verif Require Import PyBase DMModel StructModel StructSpec EntryModel.
Open Scope nat_scope.

Section Spec.
Context {T : Type}.
Notation kval := (kval T).
Notation kwargs := (kwargs T).

Definition given (kw : kwargs) (k : string) (v : kval) : Prop := In (k, v) kw.
Definition absent (kw : kwargs) (k : string) : Prop := forall v, ~ In (k, v) kw.

Definition doc_keywords : list string :=
  ["expr"; "repeat"; "shape"; "shapestruct"; "struct"; "sym"; "type"]%string.

(** Pairs of keywords that exclude each other. *)
Definition doc_conflicts : list (string * string) :=
  [("shape", "struct"); ("struct", "shapestruct"); ("sym", "shape"); ("sym", "repeat");
   ("sym", "expr"); ("expr", "shape"); ("expr", "repeat")]%string.

(** Structures and matrices as arguments. *)
Definition struct_value (v : kval) (s : structure) : Prop :=
  v = VStructure s \/ exists m, v = VStructured s m.
Definition SizeOf (s : structure) (n : nat) : Prop := exists c, casadi_structure s = Ok c /\ cs_size c = n.
Inductive MatrixOf : kval -> spy -> Prop :=
| MO_sx : forall b m, MatrixOf (VSX b m) (dm_sp m)
| MO_mat : forall m, MatrixOf (VMat m) (dm_sp m)
| MO_struct : forall s m n, SizeOf s n -> MatrixOf (VStructured s m) (sp_dense n 1).

(** The element reached by following first elements through a nested list; the lengths
    met on the way; or nothing, if an empty list is met. *)
Inductive FirstOf : kval -> list Z -> kval -> Prop :=
| FO_leaf : forall v sp, MatrixOf v sp -> FirstOf v [] v
| FO_list : forall x l dims p, FirstOf x dims p -> FirstOf (VList (x :: l)) (Z.of_nat (length (x :: l)) :: dims) p.
Inductive NoFirst : kval -> Prop :=
| NF_none : NoFirst VNone
| NF_nil : NoFirst (VList [])
| NF_list : forall x l, NoFirst x -> NoFirst (VList (x :: l)).

(** repeat *)
Inductive RepeatArg : kval -> list Z -> Prop :=
| RA_int : forall z, RepeatArg (VInt z) [z]
| RA_list : forall zs, RepeatArg (VList (map VInt zs)) zs.
Inductive DocRepeat (kw : kwargs) : list Z -> Prop :=
| DR_none : absent kw "repeat" -> absent kw "expr" -> DocRepeat kw []
| DR_given : forall v zs, given kw "repeat" v -> RepeatArg v zs -> DocRepeat kw zs
| DR_expr : forall e dims p, given kw "expr" e -> FirstOf e dims p -> DocRepeat kw dims
| DR_empty : forall e, given kw "expr" e -> NoFirst e -> DocRepeat kw [0%Z].

(** shape: an integer, a list or tuple of one or two integers, a sparsity pattern *)
Inductive ShapeArg : kval -> spy -> Prop :=
| SA_int : forall n, ShapeArg (VInt (Z.of_nat n)) (sp_dense n 1)
| SA_list1 : forall n, ShapeArg (VList [VInt (Z.of_nat n)]) (sp_dense n 1)
| SA_tuple1 : forall n, ShapeArg (VTuple [VInt (Z.of_nat n)]) (sp_dense n 1)
| SA_list2 : forall n m, ShapeArg (VList [VInt (Z.of_nat n); VInt (Z.of_nat m)]) (sp_dense n m)
| SA_tuple2 : forall n m, ShapeArg (VTuple [VInt (Z.of_nat n); VInt (Z.of_nat m)]) (sp_dense n m)
| SA_sp : forall sp, ShapeArg (VSp sp) sp.

(** shapestruct: a structure (a column), or a tuple of one or two structures or numbers *)
Inductive CompArg : kval -> sdim -> Prop :=
| CA_int : forall n, CompArg (VInt n) (SDI n)
| CA_struct : forall v s, struct_value v s -> CompArg v (SDS s).
Inductive ShapeStructArg : kval -> list sdim -> Prop :=
| SSA_one : forall v s, struct_value v s -> ShapeStructArg v [SDS s; SDI 1]
| SSA_tuple1 : forall v d, CompArg v d -> ShapeStructArg (VTuple [v]) [d]
| SSA_tuple2 : forall v w d e, CompArg v d -> CompArg w e -> ShapeStructArg (VTuple [v; w]) [d; e].
Inductive DimSize : sdim -> nat -> Prop :=
| DS_int : forall n, DimSize (SDI (Z.of_nat n)) n
| DS_struct : forall s n, SizeOf s n -> DimSize (SDS s) n.
Inductive ShapeStructSp : list sdim -> spy -> Prop :=
| SSS1 : forall d n, DimSize d n -> ShapeStructSp [d] (sp_dense n 1)
| SSS2 : forall d e n m, DimSize d n -> DimSize e m -> ShapeStructSp [d; e] (sp_dense n m).

(** sym: a purely symbolic SX, or a structured symbolic *)
Inductive SymArg : kval -> dm T -> Prop :=
| SY_sx : forall m, SymArg (VSX true m) m
| SY_struct : forall s m, SymArg (VStructured s m) m.

(** The declared sparsity (before 'type'). *)
Inductive DocSparsity (kw : kwargs) : spy -> Prop :=
| DP_expr : forall e dims p sp, given kw "expr" e -> FirstOf e dims p -> MatrixOf p sp -> DocSparsity kw sp
| DP_empty : forall e, given kw "expr" e -> NoFirst e -> DocSparsity kw (sp_dense 0 0)
| DP_sym : forall v m, given kw "sym" v -> SymArg v m -> DocSparsity kw (dm_sp m)
| DP_shape : forall v sp, given kw "shape" v -> ShapeArg v sp -> DocSparsity kw sp
| DP_shapestruct : forall v l sp, absent kw "expr" -> absent kw "sym" -> absent kw "shape" ->
    given kw "shapestruct" v -> ShapeStructArg v l -> ShapeStructSp l sp -> DocSparsity kw sp
| DP_default : absent kw "expr" -> absent kw "sym" -> absent kw "shape" -> absent kw "shapestruct" ->
    DocSparsity kw (sp_dense 1 1).

(** 'type': a symmetric entry stores the upper triangle of its declared sparsity. *)
Inductive DocStored (kw : kwargs) : spy -> spy -> bool -> option spy -> Prop :=
| DT_none : forall sp, absent kw "type" -> DocStored kw sp sp false None
| DT_symm : forall sp n, given kw "type" (VStr "symm") -> sp_nr sp = n -> sp_nc sp = n ->
    DocStored kw sp (Spy n n (filter (fun p => (fst p <=? snd p) && (snd p <? n)) (sp_pat sp))) true (Some sp).

(** The sub-structure and the shapestruct. *)
Definition DocStruct (kw : kwargs) (o : option structure) : Prop :=
  match o with
  | Some s => (exists v, given kw "struct" v /\ struct_value v s) /\ (forall s' m, ~ given kw "sym" (VStructured s' m))
              \/ exists m, given kw "sym" (VStructured s m)
  | None => (forall v s, given kw "struct" v -> ~ struct_value v s) /\ (forall s m, ~ given kw "sym" (VStructured s m))
  end.
Definition DocShapestruct (kw : kwargs) (o : option (list sdim)) : Prop :=
  match o with
  | Some l => exists v, given kw "shapestruct" v /\ ShapeStructArg v l
  | None => absent kw "shapestruct"
  end.

(** Acceptable keyword arguments. *)
Record Valid (kw : kwargs) : Prop := {
  va_keys : forall k v, given kw k v -> In k doc_keywords;
  va_conflicts : forall k k' v v', In (k, k') doc_conflicts -> given kw k v -> given kw k' v' -> False;
  va_repeat : exists r, DocRepeat kw r;
  va_shapestruct : exists o, DocShapestruct kw o /\
    (forall l, o = Some l -> absent kw "shape" -> exists sp, ShapeStructSp l sp);
  va_sparsity : exists sp stored symm orig, DocSparsity kw sp /\ DocStored kw sp stored symm orig
}.

(** Arguments as Python can make them: patterns and structures are proper. *)
Fixpoint ValOk (v : kval) : Prop :=
  match v with
  | VList l | VTuple l => (fix go (l : list kval) : Prop := match l with [] => True | x :: l' => ValOk x /\ go l' end) l
  | VSp sp => SpOk sp
  | VStructure s => Wf s
  | VStructured s m => Wf s /\ SpOk (dm_sp m)
  | VSX _ m | VMat m => SpOk (dm_sp m)
  | _ => True
  end.
Definition EntryOk (e : entry) : Prop := SpOk (e_sp e) /\ forall s, e_struct e = Some s -> Wf s.
Definition arg_ok (a : earg T) : Prop := match a with AName _ => True | AEntry e => EntryOk (ce_entry e) end.
Definition items_ok (l : list (item_arg T)) : Prop :=
  forall it, In it l -> match it with IOne a => arg_ok a | ITup g => forall a, In a g -> arg_ok a end.

(** Names in an argument list of [struct([...])], in order of appearance. *)
Definition arg_name (a : earg T) : string := match a with AName n => n | AEntry e => e_name (ce_entry e) end.
Definition item_names (it : item_arg T) : list string :=
  match it with IOne a => [arg_name a] | ITup l => map arg_name l end.
Definition arg_names (l : list (item_arg T)) : list string := flat_map item_names l.
Definition item_order (it : item_arg T) : oelem :=
  match it with IOne a => OName (arg_name a) | ITup l => OGroup (map arg_name l) end.
(** The entries meant: a bare name stands for a scalar entry. *)
Definition arg_entry (a : earg T) : centry T :=
  match a with AName n => CEntry (mkEntry n [] None (sp_dense 1 1) false None None) None None | AEntry e => e end.
Definition item_entries (it : item_arg T) : list (centry T) :=
  match it with IOne a => [arg_entry a] | ITup l => map arg_entry l end.
Definition arg_entries (l : list (item_arg T)) : list (centry T) := flat_map item_entries l.
Definition grouped (l : list (item_arg T)) : Prop := exists g, In (ITup g) l.
(** The order of the entries: that of the list unless order= is given, and then every name
    exactly once. *)
Definition the_order (l : list (item_arg T)) (order : option (list oelem)) : list oelem :=
  match order with None => map item_order l | Some o => o end.
Definition OrderOk (l : list (item_arg T)) (order : option (list oelem)) : Prop :=
  forall o, order = Some o -> Permutation (flat_map oelem_names o) (arg_names l).
End Spec.
