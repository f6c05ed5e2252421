(** C119: which matrices the views of a structure accept, and how the others fail. *)
From Verif Require Import PyBase IndexModel DMModel DMProofs StructModel StructSpec PowerModel EntryModel StructsModel ViewAcceptThms.
Open Scope list_scope.
Open Scope nat_scope.

Section C.
Context {T : Type} (zero : T).

Theorem C119_repeated_accepts : forall s c (a : dm T),
  Wf s -> casadi_structure s = Ok c -> DmOk a ->
  ((exists vw, repeated_ s c a = Ok vw) <-> dm_sp a = sp_dense (cs_size c) (dm_nc a)) /\
  (repeated_ s c a = Err EException <-> dm_nr a <> cs_size c) /\
  (repeated_ s c a = Err EAssert <-> dm_nr a = cs_size c /\ dm_sp a <> sp_dense (cs_size c) (dm_nc a)).
Proof. exact (repeated_accepts zero). Qed.

Theorem C119_repeated_default : forall s c (x : T),
  Wf s -> casadi_structure s = Ok c ->
  (exists vw, repeated_ s c (dm_scalar x) = Ok vw) <-> cs_size c = 1.
Proof. exact (repeated_default zero). Qed.

Theorem C119_squared_repeated_accepts : forall s c (a : dm T),
  Wf s -> casadi_structure s = Ok c -> DmOk a ->
  ((exists vw, squared_repeated_ s c a = Ok vw) <->
    cs_size c <> 0 /\ exists N, dm_sp a = sp_dense (cs_size c) (N * cs_size c)) /\
  (squared_repeated_ s c a = Err EException <->
    dm_nr a <> cs_size c \/ (cs_size c <> 0 /\ ~ Nat.divide (cs_size c) (dm_nc a))) /\
  (squared_repeated_ s c a = Err EZeroDiv <-> dm_nr a = 0 /\ cs_size c = 0) /\
  (squared_repeated_ s c a = Err EAssert <->
    cs_size c <> 0 /\ exists N, dm_shape a = (cs_size c, N * cs_size c) /\ dm_sp a <> sp_dense (cs_size c) (N * cs_size c)).
Proof. exact (squared_repeated_accepts zero). Qed.

Theorem C119_product_errors : forall s c s2 c2 (a : dm T),
  Wf s -> Wf s2 -> casadi_structure s = Ok c -> casadi_structure s2 = Ok c2 -> DmOk a ->
  let n := cs_size c in let m := cs_size c2 in
  (product_ s c s2 c2 a = Err EException <-> dm_shape a <> (n, m) /\ (dm_shape a = (1, 1) -> n = 1)) /\
  (product_ s c s2 c2 a = Err EAssert <->
    (dm_shape a = (n, m) /\ dm_sp a <> sp_dense n m) \/
    (dm_shape a = (1, 1) /\ n <> 1 /\ dm_nz a = [] /\ n * m <> 0)).
Proof. exact (product_errors zero). Qed.

Theorem C119_squared_errors : forall s c (a : dm T),
  Wf s -> casadi_structure s = Ok c -> DmOk a ->
  let n := cs_size c in
  (squared_ s c a = Err EException <-> dm_shape a <> (n, n) /\ (dm_shape a = (1, 1) -> n = 1)) /\
  (squared_ s c a = Err EAssert <->
    (dm_shape a = (n, n) /\ dm_sp a <> sp_dense n n) \/
    (dm_shape a = (1, 1) /\ n <> 1 /\ dm_nz a = [] /\ n * n <> 0)).
Proof. exact (fun s c a Hw Hc Ha => product_errors zero s c s c a Hw Hw Hc Hc Ha). Qed.
End C.

Print Assumptions C119_repeated_accepts.
Print Assumptions C119_repeated_default.
Print Assumptions C119_squared_repeated_accepts.
Print Assumptions C119_product_errors.
Print Assumptions C119_squared_errors.
