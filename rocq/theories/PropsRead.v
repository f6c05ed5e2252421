(** Property theorems about [s.f], reads, [getStruct] and symbolic structures (C76-C79). *)
From Verif Require Import PyBase IndexModel DMModel StructModel StructSpec PowerModel PowerSpec ReadSpec
  IndexProofs StructProofs LayoutProofs LayoutThms LayoutExamples DMProofs PowerProofs PowerThms SliceProofs PowerThms2 PowerThms3 PowerThms4 PowerThms5
  PowerExamples EntryModel EntrySpec EntryProofs StructsModel StructsSpec LabelModel SymModel SymSpec SimThms ReadThms SymThms ReadExamples.
Open Scope list_scope.
Open Scope nat_scope.

Section P.
Context {T : Type} (zero : T).
Notation pstate := (pstate T).

Theorem C76_f_lists_positions_partial : forall s c pi l,
  casadi_structure s = Ok c -> no_fun pi ->
  (f_get zero s pi = Ok (RFlat l) <-> exists r, i_get zero s pi = Ok r /\ Listy r /\ AllDense r /\ l = positions r).
Proof. exact (f_lists_positions zero). Qed.

Theorem C76_f_needs_dense : forall s c pi R,
  casadi_structure s = Ok c -> no_fun pi -> f_get zero s pi = Ok R ->
  exists r, i_get zero s pi = Ok r /\ AllDense r.
Proof. exact (f_needs_dense zero). Qed.

Theorem C77_getitem_values : forall s c (st : pstate) pi R,
  Obj s c st -> NoSymm s -> no_fun pi ->
  (getitem zero s (num_env c) pi st = Ok R <-> exists r, i_get zero s pi = Ok r /\ Values (ps_master st) r R).
Proof. exact (getitem_values zero). Qed.

Theorem C77_getitem_defined : forall s c (st : pstate) pi r,
  Obj s c st -> NoSymm s -> no_fun pi -> i_get zero s pi = Ok r ->
  exists R, getitem zero s (num_env c) pi st = Ok R /\ Values (ps_master st) r R.
Proof. exact (getitem_defined zero). Qed.

Context (newsym : nat -> string -> T).

Theorem C79_symSX_new : forall l order (o : sobj T),
  items_ok l -> OrderOk l order -> (forall ce m, In ce (arg_entries l) -> ce_sym ce = Some m -> e_dims (ce_entry ce) = []) ->
  struct_symSX zero newsym l order = Ok o ->
  length (so_cat o) = cs_size (so_c o) /\
  forall ce ci e m j k, In ce (arg_entries l) -> ce_sym ce = None -> Leaf (cs_struct (so_c o)) (KS (ce_name ce) :: ci) e ->
    i_get zero (cs_struct (so_c o)) (pidx (KS (ce_name ce) :: ci)) = Ok (RIdx m) -> nth_error (dm_nz m) j = Some k ->
    nth_error (so_cat o) k = Some (newsym k (symbol_name (KS (ce_name ce) :: ci) (sp_nnz (e_sp e)) j)).
Proof. exact (symSX_new zero newsym). Qed.

Theorem C79_symSX_given_partial : forall l order (o : sobj T),
  items_ok l -> OrderOk l order -> (forall ce m, In ce (arg_entries l) -> ce_sym ce = Some m -> e_dims (ce_entry ce) = []) ->
  struct_symSX zero newsym l order = Ok o ->
  forall ce m, In ce (arg_entries l) -> ce_sym ce = Some m -> sym_fits ce m -> so_get zero o [PStr (ce_name ce)] = Ok (RMat m).
Proof. exact (symSX_given zero newsym). Qed.

Theorem C79_symSX_accepts : forall l order,
  items_ok l -> OrderOk l order -> (forall ce m, In ce (arg_entries l) -> ce_sym ce = Some m -> sym_fits ce m) ->
  ((exists o, struct_symSX zero newsym l order = Ok o) <->
   NoDup (arg_names l) /\ (order = None \/ ~ grouped l) /\ forall ce, In ce (arg_entries l) -> ce_expr ce = None).
Proof. exact (symSX_accepts zero newsym). Qed.

Theorem C79_symSX_distinct : forall l order (o : sobj T),
  items_ok l -> OrderOk l order -> (forall ce, In ce (arg_entries l) -> ce_sym ce = None) ->
  (forall i j a b, newsym i a = newsym j b -> i = j) -> struct_symSX zero newsym l order = Ok o ->
  NoDup (so_cat o) /\ length (so_cat o) = cs_size (so_c o).
Proof. exact (symSX_distinct zero newsym). Qed.

Theorem C79_entry_sym_fits : forall name (m : dm T) ce,
  SpOk (dm_sp m) -> length (dm_nz m) = sp_nnz (dm_sp m) ->
  entry_init name [("sym"%string, VSX true m)] = Ok ce -> ce_sym ce = Some m /\ ce_name ce = name /\ sym_fits ce m.
Proof. exact entry_sym_fits. Qed.

Theorem C79_entry_symstruct_fits : forall name s' n (m : dm T) ce,
  SizeOf s' n -> (exists ci e, Leaf s' ci e) -> dm_sp m = sp_dense n 1 -> length (dm_nz m) = n ->
  entry_init name [("sym"%string, VStructured s' m)] = Ok ce -> ce_sym ce = Some m /\ ce_name ce = name /\ e_struct (ce_entry ce) = Some s' /\ sym_fits ce m.
Proof. exact entry_symstruct_fits. Qed.

Theorem C79_symMX_accepts : forall (V : list T) l order el c,
  items_ok l -> OrderOk l order -> struct_ l order = Ok (el, c) -> length V = cs_size c ->
  ((exists o, struct_symMX V l order = Ok o) <-> forall ce, In ce (arg_entries l) -> ce_expr ce = None /\ ce_sym ce = None) /\
  (forall o, struct_symMX V l order = Ok o -> so_cat o = V /\ so_c o = c).
Proof. exact (symMX_accepts zero). Qed.

End P.

Theorem C78_getStruct_known : forall s e,
  NoDup (map e_name (s_entries s)) -> In e (s_entries s) ->
  getStruct s (e_name e) = match e_struct e with Some s' => Ok s' | None => Err EException end.
Proof. exact getStruct_known. Qed.

Theorem C78_getStruct_unknown : forall s name,
  ~ In name (map e_name (s_entries s)) -> getStruct s name = Err EAttr.
Proof. exact getStruct_unknown. Qed.

Open Scope Z_scope.
Theorem C76_f_sparse_refuted : exists s c pi r, Wf s /\ casadi_structure s = Ok c /\ no_fun pi /\ i_get 0 s pi = Ok r /\ Listy r /\
  forall l, f_get 0 s pi <> Ok (@RFlat Z l).
Proof. exact f_sparse_refuted. Qed.

Theorem C78_getStruct_message_refuted : exists s name, Wf s /\ ~ In name (map e_name (s_entries s)) /\ getStruct s name <> Err EException.
Proof. exact getStruct_message_refuted. Qed.

Theorem C79_symSX_symm_refuted : exists name (m : dm sx) ce o, DmOk m /\ entry_init name [("sym"%string, VSX true m); ("type"%string, VStr "symm")] = Ok ce /\
  struct_symSX sx0 new [IOne (AEntry ce)] None = Ok o /\ so_get sx0 o [PStr name] <> Ok (RMat m).
Proof. exact symSX_symm_refuted. Qed.

Theorem C79_symSX_broadcast_refuted : exists name s' (m : dm sx) ce o, Wf s' /\ DmOk m /\
  entry_init name [("struct"%string, VStructure s'); ("sym"%string, VSX true m)] = Ok ce /\
  struct_symSX sx0 new [IOne (AEntry ce)] None = Ok o /\ so_get sx0 o [PStr name] <> Ok (RMat m) /\ ~ NoDup (so_cat o).
Proof. exact symSX_broadcast_refuted. Qed.

Print Assumptions C76_f_lists_positions_partial.
Print Assumptions C76_f_needs_dense.
Print Assumptions C77_getitem_values.
Print Assumptions C77_getitem_defined.
Print Assumptions C79_symSX_new.
Print Assumptions C79_symSX_given_partial.
Print Assumptions C79_symSX_accepts.
Print Assumptions C79_symSX_distinct.
Print Assumptions C79_entry_sym_fits.
Print Assumptions C79_entry_symstruct_fits.
Print Assumptions C79_symMX_accepts.
Print Assumptions C78_getStruct_known.
Print Assumptions C78_getStruct_unknown.
Print Assumptions C76_f_sparse_refuted.
Print Assumptions C78_getStruct_message_refuted.
Print Assumptions C79_symSX_symm_refuted.
Print Assumptions C79_symSX_broadcast_refuted.
