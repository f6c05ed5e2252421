(** Property theorems about callables in indices (C102, C11). *)
From Verif Require Import PyBase IndexModel DMModel StructModel StructSpec PowerModel PowerSpec
  IndexProofs StructProofs LayoutProofs LayoutThms LayoutExamples DMProofs PowerProofs PowerThms PowerThms2 ReadSpec AssignSpec AssignThms
  CallSpec CallThms CallThms2 PowerExamples CallExamples.
Open Scope list_scope. Open Scope nat_scope.

Section Props.
Context (T : Type) (zero : T).
Notation rval := (rval T).
Notation pel := (pel T).
Notation pay := (pay T).
Notation env := (env T).
Notation pstate := (pstate T).

Theorem C102_read_call : forall s (en : env) pre f post (st : pstate),
  Above s pre ->
  getitem zero s en (pre ++ PFun f :: post) st = raised (let* r := getitem zero s en (pre ++ post) st in apply_at pre f r).
Proof. exact (getitem_call zero). Qed.

Theorem C102_index_call : forall s c pre f post,
  casadi_structure s = Ok c -> Above s pre ->
  i_get zero s (pre ++ PFun f :: post) = raised (let* r := i_get zero s (pre ++ post) in apply_at pre f r).
Proof. exact (i_get_call zero). Qed.

Theorem C102_leaf_index : forall s c ci e f post,
  Wf s -> casadi_structure s = Ok c -> At s ci e -> e_struct e = None ->
  i_get zero s (pidx ci ++ PFun f :: post) = raised (let* r := i_get zero s (pidx ci ++ post) in f r).
Proof. exact (leaf_index zero). Qed.

Theorem C102_leaf_call : forall s c (st : pstate) ci e f post J R,
  Obj s c st -> At s ci e -> e_struct e = None -> e_symm e = false ->
  i_get zero s (pidx ci ++ PFun f :: post) = Ok (RIdx J) -> DmOk J -> Forall (fun k => k < cs_size c) (dm_nz J) ->
  (getitem zero s (num_env c) (pidx ci ++ PFun f :: post) st = Ok R <-> Values (ps_master st) (RIdx J) R).
Proof. exact (leaf_call zero). Qed.

Theorem C102_write_call_partial : forall s c (st : pstate) pre f post p W,
  Obj s c st -> NoSymm s -> path pre -> (exists x, p = PayNum x) \/ (exists m, p = PayMat m) -> to_mtype p = Ok W -> DmOk W ->
  (forall J, i_get zero s (pre ++ PFun f :: post) = Ok (RIdx J) -> DmOk J -> Forall (fun k => k < cs_size c) (dm_nz J) ->
     (fits W (dm_sp J) -> exists v', setitem zero s (num_env c) (pre ++ PFun f :: post) p st = (PState v' (ps_mirror st) (ps_storage st), Ok RNone) /\
        unchanged (dm_nz J) st (PState v' (ps_mirror st) (ps_storage st)) /\
        (NoDup (dm_nz J) -> Values v' (RIdx J) (RMat (DM (dm_sp J) (map (fit zero W (dm_sp J)) (sp_pat (dm_sp J))))))) /\
     (~ fits W (dm_sp J) -> setitem zero s (num_env c) (pre ++ PFun f :: post) p st = (st, Err EException))) /\
  ((forall J, i_get zero s (pre ++ PFun f :: post) <> Ok (RIdx J)) -> setitem zero s (num_env c) (pre ++ PFun f :: post) p st = (st, Err EException)).
Proof. exact (write_call zero). Qed.

Theorem C102_call_read_back : forall s c (st : pstate) pre f post p W J,
  Obj s c st -> NoSymm s -> path pre -> Above s pre -> no_fun post -> selects f ->
  (exists x, p = PayNum x) \/ (exists m, p = PayMat m) -> to_mtype p = Ok W -> DmOk W ->
  i_get zero s (pre ++ PFun f :: post) = Ok (RIdx J) -> DmOk J -> Forall (fun k => k < cs_size c) (dm_nz J) -> NoDup (dm_nz J) -> fits W (dm_sp J) ->
  exists st', setitem zero s (num_env c) (pre ++ PFun f :: post) p st = (st', Ok RNone) /\
    getitem zero s (num_env c) (pre ++ PFun f :: post) st' = Ok (RMat (DM (dm_sp J) (map (fit zero W (dm_sp J)) (sp_pat (dm_sp J))))).
Proof. exact (call_read_back zero). Qed.

Theorem C11_writes_call : forall s c (st st' : pstate) pi v rr r,
  casadi_structure s = Ok c -> NoSymm s -> sets_ok pi -> i_get zero s pi = Ok rr ->
  setitem zero s (num_env c) pi v st = (st', r) -> unchanged (positions rr) st st'.
Proof. exact (writes_call zero). Qed.

End Props.

Open Scope Z_scope.
Theorem C102_leaf_call_refuted : exists s c (st : pstate Z) ci e f r fr,
  Obj s c st /\ At s ci e /\ e_struct e = None /\ e_symm e = false /\
  getitem 0 s (num_env c) (pidx ci) st = Ok r /\ f r = Ok fr /\
  (exists r', getitem 0 s (num_env c) (pidx ci ++ [PFun f]) st = Ok r' /\ r' <> fr).
Proof. exact leaf_call_refuted. Qed.

Theorem C102_list_call_refuted : exists s c (st : pstate Z) pre f p W J,
  Obj s c st /\ NoSymm s /\ path pre /\ Above s pre /\ to_mtype p = Ok W /\ DmOk W /\
  i_get 0 s (pre ++ [PFun f]) = Ok (RIdx J) /\ fits W (dm_sp J) /\
  snd (setitem 0 s (num_env c) (pre ++ [PFun f]) (PayMat W) st) = Ok RNone /\
  setitem 0 s (num_env c) (pre ++ [PFun f]) p st = (st, Err EException).
Proof. exact list_call_refuted. Qed.

Print Assumptions C102_read_call.
Print Assumptions C102_index_call.
Print Assumptions C102_leaf_index.
Print Assumptions C102_leaf_call.
Print Assumptions C102_write_call_partial.
Print Assumptions C102_call_read_back.
Print Assumptions C11_writes_call.
Print Assumptions C102_leaf_call_refuted.
Print Assumptions C102_list_call_refuted.
