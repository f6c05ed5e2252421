(** Property theorems about lists on the right-hand side (C89) and rejected constructor arguments (C90). *)
From Coq Require Import ZArith.
From Verif Require Import PyBase IndexModel DMModel StructModel StructSpec PowerModel PowerSpec
  LayoutProofs LayoutThms DMProofs PowerProofs PowerThms EntryModel EntrySpec StructsModel SymModel ListRhsThms CtorErrThms.
Open Scope list_scope.
Open Scope nat_scope.

Section P.
Context (T : Type) (zero : T) (newsym : nat -> string -> T).
Notation rval := (rval T).
Notation pay := (pay T).
Notation pel := (pel T).
Notation env := (env T).
Notation pstate := (pstate T).
Notation ElemIs := (@ElemIs T zero).

Theorem C89_rows_write : forall s c st ci e m rows,
  Obj s c st -> At s ci e -> e_symm e = false -> i_get zero s (pidx ci) = Ok (RIdx m) ->
  rows <> [] -> (forall r, In r rows -> length r = dm_nc m) -> length rows = dm_nr m ->
  exists st' r, setitem zero s (num_env c) (pidx ci) (rows_of rows) st = (st', Ok r) /\
    ElemIs s c st ci m (fun i j => nth_error (nth i rows []) j) st'.
Proof. exact (@rows_write T zero). Qed.

Theorem C89_rows_refused : forall s c st ci e m rows,
  Obj s c st -> At s ci e -> e_symm e = false -> i_get zero s (pidx ci) = Ok (RIdx m) -> rows <> [] ->
  (exists r r', In r rows /\ In r' rows /\ length r <> length r') \/
  (exists k, (forall r, In r rows -> length r = k) /\ ~ (length rows = 1 /\ k = 1) /\ ~ (length rows = dm_nr m /\ k = dm_nc m) /\
     ~ (length rows = dm_nc m /\ k = dm_nr m /\ Nat.min (dm_nr m) (dm_nc m) = 1)) ->
  setitem zero s (num_env c) (pidx ci) (rows_of rows) st = (st, Err EException).
Proof. exact (@rows_refused T zero). Qed.

Theorem C89_nums_write : forall s c st ci e m xs,
  Obj s c st -> At s ci e -> e_symm e = false -> i_get zero s (pidx ci) = Ok (RIdx m) ->
  (dm_nc m = 1 /\ length xs = dm_nr m) \/ (dm_nr m = 1 /\ length xs = dm_nc m /\ xs <> []) ->
  exists st' r, setitem zero s (num_env c) (pidx ci) (nums xs) st = (st', Ok r) /\ ElemIs s c st ci m (fun i j => nth_error xs (i + j)) st'.
Proof. exact (@nums_write T zero). Qed.

Theorem C89_nums_fill : forall s c st ci e m x,
  Obj s c st -> At s ci e -> e_symm e = false -> i_get zero s (pidx ci) = Ok (RIdx m) ->
  exists st' r, setitem zero s (num_env c) (pidx ci) (nums [x]) st = (st', Ok r) /\ ElemIs s c st ci m (fun _ _ => Some x) st'.
Proof. exact (@nums_fill T zero). Qed.

Theorem C89_nums_refused : forall s c st ci e m xs,
  Obj s c st -> At s ci e -> e_symm e = false -> i_get zero s (pidx ci) = Ok (RIdx m) -> length xs <> 1 ->
  ~ (dm_nc m = 1 /\ length xs = dm_nr m) -> ~ (dm_nr m = 1 /\ length xs = dm_nc m /\ xs <> []) ->
  setitem zero s (num_env c) (pidx ci) (nums xs) st = (st, Err EException).
Proof. exact (@nums_refused T zero). Qed.

Theorem C90_entry_one_argument : forall (args : list (earg T)) kw,
  length args <> 1 -> entry_ args kw = Err EException.
Proof. exact (@entry_one_argument T). Qed.

Theorem C90_list_error : forall (l : list (item_arg T)) order x,
  entry_list l order = Err x -> x = EException.
Proof. exact (@list_error T). Qed.

Theorem C90_struct_rejects : forall (l : list (item_arg T)) order,
  ~ NoDup (arg_names l) \/ (order <> None /\ grouped l) \/ (exists o n, order = Some o /\ In n (flat_map oelem_names o) /\ ~ In n (arg_names l)) ->
  struct_ l order = Err EException.
Proof. exact (@struct_rejects T). Qed.

Theorem C90_expr_needed : forall (nan : T) (l : list (item_arg T)) order r ce,
  struct_ l order = Ok r -> In ce (arg_entries l) -> ce_expr ce = None ->
  struct_MX zero l order = Err EException /\ (order = None -> struct_SX zero nan l = Err EException /\ struct_MX_mutable zero nan l = Err EException).
Proof. exact (@expr_needed T zero). Qed.

Theorem C90_expr_refused : forall (V : list T) (l : list (item_arg T)) order r ce,
  struct_ l order = Ok r -> In ce (arg_entries l) ->
  (ce_expr ce <> None -> struct_symSX zero newsym l order = Err EException /\ struct_symMX V l order = Err EException) /\
  (ce_sym ce <> None -> struct_symMX V l order = Err EException).
Proof. exact (@expr_refused T zero newsym). Qed.

End P.

Print Assumptions C89_rows_write.
Print Assumptions C89_rows_refused.
Print Assumptions C89_nums_write.
Print Assumptions C89_nums_fill.
Print Assumptions C89_nums_refused.
Print Assumptions C90_entry_one_argument.
Print Assumptions C90_list_error.
Print Assumptions C90_struct_rejects.
Print Assumptions C90_expr_needed.
Print Assumptions C90_expr_refused.
