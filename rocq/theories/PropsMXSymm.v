(** C118: symmetric entries in struct_MX. *)
From Verif Require Import PyBase IndexModel DMModel StructModel StructSpec PowerModel PowerSpec DMProofs PowerProofs
  EntryModel EntrySpec StructsModel StructsSpec StructsThms3 StructsThms6 MXSymmThms MXSymmThms2.
Open Scope nat_scope.

Section S.
Context {T : Type} (zero : T).
Notation sobj := (sobj T).

Theorem C23_mx_cat_order : forall (l : list (item_arg T)) order (h : hist) (o o' : sobj),
  items_ok l -> OrderOk l order -> (forall ce v, In ce (arg_entries l) -> ce_expr ce = Some v -> PayOk (pay_of_val v)) ->
  struct_MX zero l order = Ok o -> HistOk (cs_struct (so_c o)) h -> veccat_sets zero o (hist_pi h) = Ok o' ->
  so_c o' = so_c o /\
  exists cat, veccat_master o' = Ok cat /\ length cat = cs_size (so_c o) /\
  forall e idx q, In e (s_entries (cs_struct (so_c o))) -> InDims idx (e_dims e) -> LastAssigned (initial l ++ h) (e_name e) idx q ->
    exists M m, q = PayMat M /\ i_get zero (cs_struct (so_c o)) (pidx (top (e_name e) idx)) = Ok (RIdx m) /\
      dm_sp M = dm_sp m /\ map (fun k => nth k cat zero) (dm_nz m) = dm_nz M /\
      (e_symm e = false -> veccat_get zero o' (pidx (top (e_name e) idx)) = Ok (RMat M)).
Proof. exact (mx_cat_order zero). Qed.

Theorem C118_reads : forall (l : list (item_arg T)) order (h : hist) (o o' : sobj),
  items_ok l -> OrderOk l order -> (forall ce v, In ce (arg_entries l) -> ce_expr ce = Some v -> PayOk (pay_of_val v)) ->
  struct_MX zero l order = Ok o -> HistOk (cs_struct (so_c o)) h -> veccat_sets zero o (hist_pi h) = Ok o' ->
  forall e n orig idx q, In e (s_entries (cs_struct (so_c o))) -> SymmEntry e n orig -> InDims idx (e_dims e) -> LastAssigned (initial l ++ h) (e_name e) idx q ->
    exists M R, q = PayMat M /\ (forall a b, In (a, b) (sp_pat (dm_sp M)) <-> In (a, b) (sp_pat orig) /\ a <= b) /\
      veccat_get zero o' (pidx (top (e_name e) idx)) = Ok (RMat R) /\ DmOk R /\ dm_shape R = (n, n) /\
      (forall a b, a <= b -> dm_at R (a, b) = dm_at M (a, b) /\ dm_at R (b, a) = dm_at M (a, b)).
Proof. exact (mx_symm_reads zero). Qed.

Theorem C118_lower_refused : forall (l : list (item_arg T)) order el c ce v path x sp M n orig a b,
  items_ok l -> OrderOk l order -> (forall ce v, In ce (arg_entries l) -> ce_expr ce = Some v -> PayOk (pay_of_val v)) -> struct_ l order = Ok (el, c) ->
  In ce (arg_entries l) -> ce_expr ce = Some v -> SymmEntry (ce_entry ce) n orig -> Regular v (e_dims (ce_entry ce)) -> Reach v path x -> MatrixOf x sp -> pay_of_val x = PayMat M ->
  b < a -> In (a, b) (sp_pat (dm_sp M)) -> struct_MX zero l order = Err EException.
Proof. exact (mx_symm_refused zero). Qed.

Theorem C118_sparsity_refused : forall (l : list (item_arg T)) order el c ce v path x sp M,
  items_ok l -> OrderOk l order -> (forall ce v, In ce (arg_entries l) -> ce_expr ce = Some v -> PayOk (pay_of_val v)) -> struct_ l order = Ok (el, c) ->
  In ce (arg_entries l) -> ce_expr ce = Some v -> e_struct (ce_entry ce) = None -> Regular v (e_dims (ce_entry ce)) -> Reach v path x -> MatrixOf x sp -> pay_of_val x = PayMat M ->
  dm_sp M <> e_sp (ce_entry ce) -> struct_MX zero l order = Err EException.
Proof. exact (mx_expr_refused zero). Qed.

Theorem C118_accepts_iff : forall (l : list (item_arg T)) order el c,
  items_ok l -> OrderOk l order -> (forall ce v, In ce (arg_entries l) -> ce_expr ce = Some v -> PayOk (pay_of_val v)) -> struct_ l order = Ok (el, c) ->
  (forall ce, In ce (arg_entries l) -> e_struct (ce_entry ce) = None /\ exists v, ce_expr ce = Some v /\ Regular v (e_dims (ce_entry ce))) ->
  ((exists o, struct_MX zero l order = Ok o) <->
   forall ce v path x sp M, In ce (arg_entries l) -> ce_expr ce = Some v -> Reach v path x -> MatrixOf x sp -> pay_of_val x = PayMat M -> dm_sp M = e_sp (ce_entry ce)).
Proof. exact (mx_accepts zero). Qed.

Theorem C118_symm_iff : forall name (E : dm T) ce, DmOk E -> entry_init name [("expr"%string, VMat E); ("type"%string, VStr "symm")] = Ok ce ->
  ((exists o, struct_MX zero [IOne (AEntry ce)] None = Ok o) <-> forall a b, In (a, b) (sp_pat (dm_sp E)) -> a <= b) /\
  ((exists a b, In (a, b) (sp_pat (dm_sp E)) /\ b < a) -> struct_MX zero [IOne (AEntry ce)] None = Err EException).
Proof. exact (mx_symm_iff zero). Qed.

Theorem C118_sx_reads : forall nan (l : list (item_arg T)) (o : sobj),
  items_ok l -> (forall ce, In ce (arg_entries l) -> SymmOk (ce_entry ce)) ->
  (forall ce v, In ce (arg_entries l) -> ce_expr ce = Some v -> PayOk (pay_of_val v)) -> struct_SX zero nan l = Ok o ->
  forall ce v path x sp, In ce (arg_entries l) -> ce_expr ce = Some v -> Regular v (e_dims (ce_entry ce)) -> Reach v path x -> MatrixOf x sp ->
    exists sp' R, IdxSp (ce_entry ce) sp' /\ so_get zero o (pidx (top (ce_name ce) path)) = Ok (RMat R) /\ Keeps zero (ce_entry ce) (pay_of_val x) sp' R.
Proof. exact (sx_reads zero). Qed.

Theorem C118_sx_accepts : forall nan name (E : dm T) ce, DmOk E -> entry_init name [("expr"%string, VMat E); ("type"%string, VStr "symm")] = Ok ce ->
  exists o R, struct_SX zero nan [IOne (AEntry ce)] = Ok o /\ so_get zero o [PStr name] = Ok (RMat R) /\
    (forall a b, a <= b -> dm_at R (a, b) = dm_at E (a, b) /\ dm_at R (b, a) = dm_at E (a, b)) /\
    ((forall a b, dm_at E (a, b) = dm_at E (b, a)) -> R = E).
Proof. exact (sx_symm_accepts zero). Qed.
End S.

(** The full symmetric matrix that struct_SX keeps is refused by struct_MX. *)
Theorem C118_full_refuted : exists E ce o, DmOk E /\ (forall a b, dm_at E (a, b) = dm_at E (b, a)) /\
  entry_init "P" [("expr"%string, VMat E); ("type"%string, VStr "symm")] = Ok ce /\
  struct_MX 0%Z [IOne (AEntry ce)] None = Err EException /\ struct_SX 0%Z 0%Z [IOne (AEntry ce)] = Ok o /\ so_get 0%Z o [PStr "P"] = Ok (RMat E).
Proof. exact mx_full_refuted. Qed.

Print Assumptions C23_mx_cat_order.
Print Assumptions C118_reads.
Print Assumptions C118_lower_refused.
Print Assumptions C118_sparsity_refused.
Print Assumptions C118_accepts_iff.
Print Assumptions C118_symm_iff.
Print Assumptions C118_sx_reads.
Print Assumptions C118_sx_accepts.
Print Assumptions C118_full_refuted.
