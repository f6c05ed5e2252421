(** Property theorems about structure objects (C20-C25, C29-C33, C35). *)
From Verif Require Import PyBase IndexModel DMModel StructModel StructSpec PowerModel PowerSpec DMProofs IndexProofs StructProofs
  LayoutProofs LayoutExamples PowerProofs PowerThms PowerExamples EntryModel EntrySpec StructsModel StructsSpec
  StructsExamples StructsExamples2 StructsExamples3 StructsSymExamples StructsSymThms StructsThms10 StructsThms2 StructsThms3 StructsThms5 StructsThms6 StructsThms7 StructsThms8 StructsThms9 ViewThms.
Open Scope nat_scope.

Section Props.
Context (T : Type) (zero : T).
Notation rval := (rval T).
Notation pel := (pel T).
Notation pay := (pay T).
Notation env := (env T).
Notation pstate := (pstate T).
Notation Holds := (Holds zero).
Notation Keeps := (Keeps zero).
Notation kwargs := (kwargs T).
Notation hist := (hist (T := T)).
Notation RowSel := (RowSel zero).
Notation Writes := (Writes zero).
Notation RWrites := (RWrites zero).

(** C20 *)
Theorem C20_call_dict_all_partial : forall nan s c kv (o : sobj T),
  Wf s -> casadi_structure s = Ok c -> (forall e, In e (s_entries s) -> SymmOk e) ->
  NoDup (map fst kv) -> (forall k v, In (k, v) kv -> PayOk v) ->
  call_struct zero nan c (CDict kv) = Ok o ->
  (forall k, In k (map fst kv) <-> In k (map e_name (s_entries s))) /\
  (forall n p e idx, In (n, p) kv -> In e (s_entries s) -> e_name e = n -> InDims idx (e_dims e) ->
    exists q sp R, nest_item p idx = Some q /\ IdxSp e sp /\ so_get zero o (pidx (top n idx)) = Ok (RMat R) /\ Keeps e q sp R).
Proof. exact (call_dict_all zero). Qed.

Theorem C20_call_dict_keys : forall nan s c kv,
  Wf s -> casadi_structure s = Ok c -> ~ (forall k, In k (map fst kv) <-> In k (map e_name (s_entries s))) ->
  call_struct zero nan c (CDict kv) = Err EException.
Proof. exact (call_dict_keys zero). Qed.

Theorem C20_call_dict_all_fill_partial : forall nan nan' s c kv (o o' : sobj T),
  Wf s -> casadi_structure s = Ok c -> (forall e, In e (s_entries s) -> SymmOk e) ->
  NoDup (map fst kv) -> (forall k v, In (k, v) kv -> PayOk v) ->
  call_struct zero nan c (CDict kv) = Ok o -> call_struct zero nan' c (CDict kv) = Ok o' -> so_cat o = so_cat o'.
Proof. exact (call_dict_all_fill zero). Qed.

Theorem C20_symm_struct_unreadable : forall s c (st : pstate) ci e s' n,
  Obj s c st -> At s ci e -> e_symm e = true -> e_struct e = Some s' -> SizeOf s' n -> n <> 1 ->
  getitem zero s (num_env c) (pidx ci) st = Err EException.
Proof. exact (symm_struct_unreadable zero). Qed.

Theorem C20_entry_symm : forall name (kw : kwargs) ce,
  NoDup (map fst kw) -> (forall k v, given kw k v -> ValOk v) ->
  entry_init name kw = Ok ce -> e_struct (ce_entry ce) = None -> SymmOk (ce_entry ce).
Proof. exact entry_symm. Qed.

(** C21 *)
Theorem C21_call_vector : forall nan s c (d : dm T),
  Wf s -> casadi_structure s = Ok c -> dm_shape d = (cs_size c, 1) ->
  exists o, call_struct zero nan c (CMat d) = Ok o /\ length (so_cat o) = cs_size c /\
    (forall i, i < cs_size c -> nth_error (so_cat o) i = Some (dm_val zero d (i, 0))) /\
    (forall ci e m, At s ci e -> e_symm e = false -> i_get zero s (pidx ci) = Ok (RIdx m) ->
      so_get zero o (pidx ci) = Ok (RMat (DM (dm_sp m) (map (fun k => dm_val zero d (k, 0)) (dm_nz m))))).
Proof. exact (call_vector zero). Qed.

Theorem C21_call_scalar : forall nan s c (d : dm T),
  Wf s -> casadi_structure s = Ok c -> dm_shape d = (1, 1) -> DmOk d ->
  exists o, call_struct zero nan c (CMat d) = Ok o /\ so_cat o = repeat (dm_val zero d (0, 0)) (cs_size c).
Proof. exact (call_scalar zero). Qed.

Theorem C21_call_bad_shape : forall nan c (d : dm T),
  0 < cs_size c -> dm_shape d <> (1, 1) -> dm_shape d <> (cs_size c, 1) -> call_struct zero nan c (CMat d) = Err EException.
Proof. exact (call_bad_shape zero). Qed.

Theorem C21_call_empty : forall nan c (d : dm T), cs_size c = 0 ->
  (dm_nr d = 0 \/ dm_shape d = (1, 1) -> exists o, call_struct zero nan c (CMat d) = Ok o /\ so_cat o = []) /\
  (dm_nr d <> 0 -> dm_shape d <> (1, 1) -> call_struct zero nan c (CMat d) = Err EException).
Proof. exact (call_empty zero). Qed.

(** C22 *)
Theorem C22_parse_ok : forall nan s c nc (f : nat -> nat -> T),
  Wf s -> casadi_structure s = Ok c -> 0 < nc ->
  (forall e, In e (s_entries s) -> e_dims e = [] /\ e_symm e = false /\ exists m, i_get zero s [PStr (e_name e)] = Ok (@RIdx T m)) ->
  exists r, parse_matrix zero nan c (A2 (cs_size c) nc f) = Ok r /\ map fst r = s_keys s /\
    forall k M m, In (k, M) r -> i_get zero s [PStr k] = Ok (@RIdx T m) ->
      dm_nr M = dm_nr m /\ dm_nc M = nc * dm_nc m /\
      forall a b j, b < dm_nc m -> j < nc ->
        dm_at M (a, j * dm_nc m + b) = match dm_at m (a, b) with Some p => Some (f p j) | None => None end.
Proof. exact (parse_ok zero). Qed.

Theorem C22_parse_bad_rows_partial : forall nan s c nr nc (f : nat -> nat -> T),
  Wf s -> casadi_structure s = Ok c -> s_entries s <> [] -> 0 < nc -> nr <> cs_size c -> nr <> 1 ->
  exists x, parse_matrix zero nan c (A2 nr nc f) = Err x.
Proof. exact (parse_bad_rows zero). Qed.

(** C35 *)
Theorem C35_expr_dims_partial : forall name (v : kval T) ce dims,
  entry_init name [("expr"%string, v)] = Ok ce -> Regular v dims -> ~ In 0%Z dims ->
  e_dims (ce_entry ce) = dims.
Proof. exact expr_dims. Qed.

Theorem C35_expr_struct_reads_partial : forall nan (l : list (item_arg T)) (o : sobj T),
  items_ok l ->
  (forall ce, In ce (arg_entries l) -> e_symm (ce_entry ce) = false) ->
  (forall ce v, In ce (arg_entries l) -> ce_expr ce = Some v -> PayOk (pay_of_val v)) ->
  struct_SX zero nan l = Ok o ->
  forall ce v path x sp, In ce (arg_entries l) -> ce_expr ce = Some v -> Regular v (e_dims (ce_entry ce)) ->
    Reach v path x -> MatrixOf x sp ->
    exists sp' R, IdxSp (ce_entry ce) sp' /\ so_get zero o (pidx (top (ce_name ce) path)) = Ok (RMat R) /\ Holds (pay_of_val x) sp' R.
Proof. exact (expr_struct_reads zero). Qed.

(** C23 *)
Theorem C23_mx_cat : forall (l : list (item_arg T)) (h : hist) (o o' : sobj T),
  items_ok l -> (forall ce v, In ce (arg_entries l) -> ce_expr ce = Some v -> PayOk (pay_of_val v)) ->
  struct_MX zero l None = Ok o -> HistOk (cs_struct (so_c o)) h -> veccat_sets zero o (hist_pi h) = Ok o' ->
  so_c o' = so_c o /\
  exists cat, veccat_master o' = Ok cat /\ length cat = cs_size (so_c o) /\
  forall e idx q, In e (s_entries (cs_struct (so_c o))) -> InDims idx (e_dims e) -> LastAssigned (initial l ++ h) (e_name e) idx q ->
    exists M m, q = PayMat M /\ i_get zero (cs_struct (so_c o)) (pidx (top (e_name e) idx)) = Ok (RIdx m) /\
      dm_sp M = dm_sp m /\ map (fun k => nth k cat zero) (dm_nz m) = dm_nz M /\
      (e_symm e = false -> veccat_get zero o' (pidx (top (e_name e) idx)) = Ok (RMat M)).
Proof. exact (mx_cat zero). Qed.

Theorem C23_mx_missing : forall s c (h : hist) (o : sobj T),
  Wf s -> casadi_structure s = Ok c -> HistOk s h -> veccat_sets zero (veccat_init c) (hist_pi h) = Ok o ->
  forall e jdx, In e (s_entries s) -> InDims jdx (e_dims e) -> (forall x, In x h -> ~ covers x (e_name e) jdx) -> veccat_master o = Err EException.
Proof. exact (mx_missing zero). Qed.

(** C24 *)
Theorem C24_mx_fast_path : forall s c (master : list T),
  Wf s -> casadi_structure s = Ok c -> length master = cs_size c ->
  exists o, mx_struct c master = Ok o /\ so_cat o = master /\
    (forall ci e m, At s ci e -> e_symm e = false -> i_get zero s (pidx ci) = Ok (RIdx m) ->
      so_get zero o (pidx ci) = Ok (RMat (DM (dm_sp m) (map (fun k => nth k master zero) (dm_nz m))))) /\
    (forall ci e n orig, At s ci e -> SymmEntry e n orig ->
      so_get zero o (pidx ci) = so_get zero (plain_obj c master) (pidx ci)).
Proof. exact (mx_fast_path zero). Qed.

Theorem C24_mx_bad_length : forall s c (master : list T),
  Wf s -> casadi_structure s = Ok c -> length master <> cs_size c ->
  mx_struct c master = Err EException.
Proof. exact mx_bad_length. Qed.

(** C25 *)
Theorem C25_mx_write_partial : forall s c (master : list T) o o' ci e m v M r,
  Wf s -> casadi_structure s = Ok c -> mx_struct c master = Ok o ->
  At s ci e -> e_symm e = false -> i_get zero s (pidx ci) = Ok (RIdx m) -> pay_ok v -> to_mtype v = Ok M ->
  so_set zero o (pidx ci) v = (o', Ok r) ->
  Holds v (dm_sp m) (DM (dm_sp m) (map (fun k => nth k (so_cat o') zero) (dm_nz m))) /\
  (forall k, ~ In k (dm_nz m) -> nth_error (so_cat o') k = nth_error (so_cat o) k) /\
  (forall ci' e' m', At s ci' e' -> i_get zero s (pidx ci') = Ok (@RIdx T m') -> so_get zero o' (pidx ci') = so_get zero o (pidx ci')).
Proof. exact (mx_write zero). Qed.

(** C29 *)
Theorem C29_product_ok : forall s c s2 c2 (a : dm T),
  Wf s -> Wf s2 -> casadi_structure s = Ok c -> casadi_structure s2 = Ok c2 ->
  dm_sp a = sp_dense (cs_size c) (cs_size c2) -> exists vw, product_ s c s2 c2 a = Ok vw.
Proof. exact product_ok. Qed.

Theorem C29_product_accepts : forall s c s2 c2 (a : dm T),
  Wf s -> Wf s2 -> casadi_structure s = Ok c -> casadi_structure s2 = Ok c2 -> DmOk a ->
  (exists vw, product_ s c s2 c2 a = Ok vw) <->
  dm_sp a = sp_dense (cs_size c) (cs_size c2) \/
  (dm_shape a = (1, 1) /\ cs_size c <> 1 /\ (dm_nz a <> [] \/ cs_size c * cs_size c2 = 0)).
Proof. exact product_accepts. Qed.

Theorem C29_product_bad_shape : forall s c s2 c2 (a : dm T),
  dm_shape a <> (cs_size c, cs_size c2) -> (dm_shape a = (1, 1) -> cs_size c = 1) -> product_ s c s2 c2 a = Err EException.
Proof. exact product_bad_shape. Qed.

Theorem C29_product_blocks : forall s c s2 c2 (a : dm T) vw0 vw,
  Wf s -> Wf s2 -> casadi_structure s = Ok c -> casadi_structure s2 = Ok c2 -> DmOk a ->
  dm_shape a = (cs_size c, cs_size c2) -> product_ s c s2 c2 a = Ok vw0 -> Writes s s2 (cs_size c) (cs_size c2) vw0 vw ->
  view_matrix vw0 = dm_nz a /\
  exists M, dm_sp M = dm_sp a /\ view_matrix vw = dm_nz M /\
  forall p q la lb, RowSel s p la -> RowSel s2 q lb -> Forall (fun k => k < cs_size c) la -> Forall (fun k => k < cs_size c2) lb ->
    (exists B, view_get zero vw [p; q] = Ok (RMat B) /\ dm_shape B = (length la, length lb) /\
       forall i j, i < length la -> j < length lb -> dm_at B (i, j) = dm_at M (nth i la 0, nth j lb 0)) /\
    (forall v B vw' r, NoDup la -> NoDup lb -> pay_ok v -> to_mtype v = Ok B -> (dm_is_scalar B = true -> dm_nz B <> []) ->
       view_set zero vw [p; q] v = (vw', Ok r) ->
       fits B (sp_dense (length la) (length lb)) /\
       exists M', dm_sp M' = dm_sp a /\ view_matrix vw' = dm_nz M' /\
         (forall i j, i < length la -> j < length lb -> dm_at M' (nth i la 0, nth j lb 0) = Some (fit zero B (sp_dense (length la) (length lb)) (i, j))) /\
         (forall x, ~ (In (fst x) la /\ In (snd x) lb) -> dm_at M' x = dm_at M x)).
Proof. exact (product_blocks zero). Qed.

Theorem C29_name_sel : forall s c e mi,
  Wf s -> casadi_structure s = Ok c -> In e (s_entries s) -> e_dims e = [] ->
  i_get zero s [PStr (e_name e)] = Ok (RIdx mi) -> sp_is_dense (dm_sp mi) = true ->
  RowSel s (PStr (e_name e)) (dm_nz mi) /\ Forall (fun k => k < cs_size c) (dm_nz mi) /\ NoDup (dm_nz mi).
Proof. exact (name_sel zero). Qed.

(** C30 *)
Theorem C30_product_scalar_partial : forall s c s2 c2 (a : dm T) x,
  Wf s -> Wf s2 -> casadi_structure s = Ok c -> casadi_structure s2 = Ok c2 ->
  dm_shape a = (1, 1) -> dm_nz a = [x] -> cs_size c <> 1 ->
  exists vw, product_ s c s2 c2 a = Ok vw /\ view_matrix vw = repeat x (cs_size c * cs_size c2) /\
    product_ s c s2 c2 (DM (sp_dense (cs_size c) (cs_size c2)) (repeat x (cs_size c * cs_size c2))) = Ok vw.
Proof. exact product_scalar. Qed.

Theorem C30_squared_scalar : forall s c (a : dm T) x,
  Wf s -> casadi_structure s = Ok c -> SpOk (dm_sp a) ->
  dm_shape a = (1, 1) -> dm_nz a = [x] -> sp_nnz (dm_sp a) = 1 ->
  exists vw, squared_ s c a = Ok vw /\ view_matrix vw = repeat x (cs_size c * cs_size c).
Proof. exact squared_scalar. Qed.

(** C35 *)
Theorem C35_mx_expr_reads_partial : forall (l : list (item_arg T)) (o : sobj T),
  items_ok l -> (forall ce v, In ce (arg_entries l) -> ce_expr ce = Some v -> PayOk (pay_of_val v)) ->
  struct_MX zero l None = Ok o ->
  forall ce v path x sp, In ce (arg_entries l) -> ce_expr ce = Some v -> Regular v (e_dims (ce_entry ce)) -> Reach v path x -> MatrixOf x sp ->
    exists M m cat, pay_of_val x = PayMat M /\ i_get zero (cs_struct (so_c o)) (pidx (top (ce_name ce) path)) = Ok (RIdx m) /\
      veccat_master o = Ok cat /\ map (fun k => nth k cat zero) (dm_nz m) = dm_nz M /\
      (e_symm (ce_entry ce) = false -> veccat_get zero o (pidx (top (ce_name ce) path)) = Ok (RMat M)).
Proof. exact (mx_expr_reads zero). Qed.

(** C31 *)
Theorem C31_repeated_columns : forall s c (a : dm T),
  Wf s -> casadi_structure s = Ok c -> DmOk a -> dm_nr a = cs_size c -> sp_is_dense (dm_sp a) = true ->
  exists vw0, repeated_ s c a = Ok vw0 /\ view_matrix vw0 = dm_nz a /\
  forall vw, RWrites (dm_nc a) vw0 vw ->
    so_cat (vw_obj vw) = view_matrix vw /\ length (view_matrix vw) = dm_nc a * cs_size c /\
    forall z q, (- Z.of_nat (dm_nc a) <= z < Z.of_nat (dm_nc a))%Z -> q <> [] -> no_fun q ->
      let j := Z.to_nat (from_end (Z.of_nat (dm_nc a)) z) in
      view_get zero vw (PInt z :: q) = so_get zero (plain_obj c (column (cs_size c) j (view_matrix vw))) q /\
      forall p vw' r, PayFull p -> view_set zero vw (PInt z :: q) p = (vw', r) ->
        exists o', so_set zero (plain_obj c (column (cs_size c) j (view_matrix vw))) q p = (o', r) /\
          length (so_cat o') = cs_size c /\ view_matrix vw' = put_column (cs_size c) j (view_matrix vw) (so_cat o') /\ so_cat (vw_obj vw') = view_matrix vw'.
Proof. exact (repeated_columns zero). Qed.

Theorem C31_repeated_bad_rows : forall s c (a : dm T),
  dm_nr a <> cs_size c -> repeated_ s c a = Err EException.
Proof. exact repeated_bad_rows. Qed.

(** C32 *)
Theorem C32_prefix_concat : forall (o : sobj T) p q v,
  prefix_get zero (prefix_ o p) q = so_get zero o (p ++ q) /\
  prefix_set zero (prefix_ o p) q v = (prefix_ (fst (so_set zero o (p ++ q) v)) p, snd (so_set zero o (p ++ q) v)).
Proof. exact (prefix_concat zero). Qed.

Theorem C32_prefix_block : forall s c raw P e s' c',
  Wf s -> casadi_structure s = Ok c -> Addr s raw P e -> e_struct e = Some s' -> Block s P s' ->
  casadi_structure s' = Ok c' ->
  exists start, start + cs_size c' <= cs_size c /\
  (cs_size c' <> 0 -> cmap_get P (cs_map c) = Some (dm_col (seq start (cs_size c')))) /\
  forall (x w y : list T) q, length x = start -> length w = cs_size c' -> length (x ++ w ++ y) = cs_size c -> q <> [] -> no_fun q ->
    let o := plain_obj c (x ++ w ++ y) in let o' := plain_obj c' w in
    prefix_get zero (prefix_ o (pidx raw)) q = so_get zero o' q /\
    forall v o2 r, so_set zero o' q v = (o2, r) ->
      prefix_set zero (prefix_ o (pidx raw)) q v = (prefix_ (plain_obj c (x ++ so_cat o2 ++ y)) (pidx raw), r) /\ length (so_cat o2) = cs_size c'.
Proof. exact (prefix_block zero). Qed.

(** C33 *)
Theorem C33_unpickle_layout : forall s c,
  Wf s -> casadi_structure s = Ok c ->
  exists c', unpickle s = Ok c' /\ cs_size c' = cs_size c /\ cs_map c' = cs_map c /\
    (forall i m, getCanonicalIndex c' i m = getCanonicalIndex c i m) /\ (forall m, canonicalIndices c' m = canonicalIndices c m) /\
    (forall pi, i_get zero (cs_struct c') pi = i_get zero s pi) /\ (forall pi, f_get zero (cs_struct c') pi = f_get zero s pi).
Proof. exact (unpickle_layout zero). Qed.

Theorem C33_unpickle_object_partial : forall s c (v : list T),
  Wf s -> casadi_structure s = Ok c -> length v = cs_size c ->
  exists o', unpickle_obj (plain_obj c v) = Ok o' /\ so_cat o' = v /\
    (forall pi, so_get zero o' pi = so_get zero (plain_obj c v) pi) /\
    (NoSymm s -> forall pi p, so_cat (fst (so_set zero o' pi p)) = so_cat (fst (so_set zero (plain_obj c v) pi p)) /\
       snd (so_set zero o' pi p) = snd (so_set zero (plain_obj c v) pi p)).
Proof. exact (unpickle_object zero). Qed.

End Props.

Open Scope Z_scope.
Theorem C20_dict_symm_refuted : exists s c (o : sobj Z) v w,
  Wf s /\ casadi_structure s = Ok c /\ call_struct 0 (-1) c (CDict [("P"%string, PayMat v); ("x"%string, PayNum 9)]) = Ok o /\
  so_get 0 o [PStr "P"] = Ok (RMat w) /\ dm_sp v = dm_sp w /\ v <> w.
Proof. exact dict_symm_refuted. Qed.

Theorem C20_dict_symm_struct_refuted : exists (kw : kwargs Z) e c (o : sobj Z),
  entry_init "P" kw = Ok (CEntry e None None) /\ Wf (mkStruct [e] [OName "P"%string]) /\ casadi_structure (mkStruct [e] [OName "P"%string]) = Ok c /\
  call_struct 0 (-1) c (CDict [("P"%string, PayNum 3)]) = Ok o /\ so_cat o = [3; 3] /\ so_get 0 o [PStr "P"] = Err EException.
Proof. exact dict_symm_struct_refuted. Qed.

Theorem C22_parse_one_row_refuted : exists s c nc (f : nat -> nat -> Z) r,
  Wf s /\ casadi_structure s = Ok c /\ cs_size c <> 1%nat /\ parse_matrix 0 (-1) c (A2 1 nc f) = Ok r /\
  r = [("x"%string, DM (sp_dense 2 2) [f 0%nat 0%nat; f 0%nat 0%nat; f 0%nat 1%nat; f 0%nat 1%nat]);
       ("y"%string, DM (sp_dense 2 4) (repeat (f 0%nat 0%nat) 4 ++ repeat (f 0%nat 1%nat) 4))].
Proof. exact parse_one_row_refuted. Qed.

Theorem C22_parse_1d_refuted : exists s c (l : list Z) r,
  Wf s /\ casadi_structure s = Ok c /\ length l = cs_size c /\ parse_matrix 0 (-1) c (A1 l) = Ok r /\
  ~ exists k M, In (k, M) r /\ dm_nc M = 1%nat.
Proof. exact parse_1d_refuted. Qed.

Theorem C35_expr_ragged_refuted : exists v x ce o,
  entry_init "u" [("expr"%string, v)] = Ok ce /\ Reach v [1; 1] (VMat (T := Z) x) /\
  struct_SX 0 (-1) [IOne (AEntry ce)] = Ok o /\
  (exists y, In y (dm_nz x) /\ ~ In y (so_cat o)) /\
  so_get 0 o (pidx (top "u" [1; 1])) = Err EException.
Proof. exact expr_ragged_refuted. Qed.

Theorem C35_expr_pattern_refuted : exists v x ce o R,
  entry_init "u" [("expr"%string, v)] = Ok ce /\ Regular v [2] /\ Reach v [1] (VMat (T := Z) x) /\
  struct_SX 0 (-1) [IOne (AEntry ce)] = Ok o /\
  so_get 0 o (pidx (top "u" [1])) = Ok (RMat R) /\ dm_shape R = dm_shape x /\
  dm_val 0 x (1, 0)%nat <> dm_val 0 R (1, 0)%nat.
Proof. exact expr_pattern_refuted. Qed.

Theorem C25_mx_stale_refuted : exists s c (master : list Z) o o' M,
  Wf s /\ casadi_structure s = Ok c /\ mx_struct c master = Ok o /\
  so_set 0 o (pidx [KS "x"]) (PayMat M) = (o', Ok RNone) /\ fits M (sp_dense 2 1) /\
  so_cat o' = [7; 8; 3; 4; 5; 6] /\
  so_get 0 o' (pidx [KS "x"]) = Ok (RMat (col [1; 2])) /\ M = col [7; 8].
Proof. exact mx_stale_refuted. Qed.

Theorem C30_product_scalar_refuted : exists s c s2 c2 (a : dm Z),
  Wf s /\ Wf s2 /\ casadi_structure s = Ok c /\ casadi_structure s2 = Ok c2 /\ a = dm_scalar 0 /\ product_ s c s2 c2 a = Err EException.
Proof. exact product_scalar_refuted. Qed.

Theorem C33_pickle_symm_refuted : exists s c (v : list Z) o' M o1,
  Wf s /\ casadi_structure s = Ok c /\ length v = cs_size c /\ unpickle_obj (plain_obj c v) = Ok o' /\
  so_set 0 (plain_obj c v) [PStr "P"] (PayMat M) = (o1, Ok RNone) /\ so_cat o1 <> v /\
  so_set 0 o' [PStr "P"] (PayMat M) = (o', Err EException).
Proof. exact pickle_symm_refuted. Qed.

Print Assumptions C20_call_dict_all_partial.
Print Assumptions C20_call_dict_keys.
Print Assumptions C20_call_dict_all_fill_partial.
Print Assumptions C20_symm_struct_unreadable.
Print Assumptions C20_entry_symm.
Print Assumptions C21_call_vector.
Print Assumptions C21_call_scalar.
Print Assumptions C21_call_bad_shape.
Print Assumptions C21_call_empty.
Print Assumptions C22_parse_ok.
Print Assumptions C22_parse_bad_rows_partial.
Print Assumptions C35_expr_dims_partial.
Print Assumptions C35_expr_struct_reads_partial.
Print Assumptions C23_mx_cat.
Print Assumptions C23_mx_missing.
Print Assumptions C24_mx_fast_path.
Print Assumptions C24_mx_bad_length.
Print Assumptions C25_mx_write_partial.
Print Assumptions C29_product_ok.
Print Assumptions C29_product_accepts.
Print Assumptions C29_product_bad_shape.
Print Assumptions C29_product_blocks.
Print Assumptions C29_name_sel.
Print Assumptions C30_product_scalar_partial.
Print Assumptions C30_squared_scalar.
Print Assumptions C35_mx_expr_reads_partial.
Print Assumptions C31_repeated_columns.
Print Assumptions C31_repeated_bad_rows.
Print Assumptions C32_prefix_concat.
Print Assumptions C32_prefix_block.
Print Assumptions C33_unpickle_layout.
Print Assumptions C33_unpickle_object_partial.
Print Assumptions C20_dict_symm_refuted.
Print Assumptions C20_dict_symm_struct_refuted.
Print Assumptions C22_parse_one_row_refuted.
Print Assumptions C22_parse_1d_refuted.
Print Assumptions C35_expr_ragged_refuted.
Print Assumptions C35_expr_pattern_refuted.
Print Assumptions C25_mx_stale_refuted.
Print Assumptions C30_product_scalar_refuted.
Print Assumptions C33_pickle_symm_refuted.
