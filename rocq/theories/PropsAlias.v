(** Property theorems about shared data (C91) and the reach of assignments (C92). *)
From Coq Require Import ZArith.
From Verif Require Import PyBase IndexModel DMModel StructModel StructSpec PowerModel PowerSpec StructsModel AliasModel AliasThms InvThms.
Open Scope list_scope.
Open Scope nat_scope.

Section P.
Context (T : Type) (zero nan : T).
Notation rval := (rval T).
Notation pay := (pay T).
Notation pel := (pel T).
Notation env := (env T).
Notation pstate := (pstate T).
Notation heap := (heap T).
Notation darg := (darg T).
Notation written := (@written T zero).

Theorem C91_own_copy_partial : forall h c (a : darg) h' o l,
  call_dm zero nan h c a = Ok (h', o) -> (forall r d, a = ARef r -> nth_error h r = Some d -> ~ used_as_is c d) ->
  forall r, r < length h -> nth_error (a_sets zero h' o l) r = nth_error h r.
Proof. exact (@own_copy T zero nan). Qed.

Theorem C91_shared : forall h c r d h' o l,
  nth_error h r = Some d -> used_as_is c d -> call_dm zero nan h c (ARef r) = Ok (h', o) ->
  h' = h /\ (exists d', nth_error (a_sets zero h' o l) r = Some d' /\ column zero d' = written c (column zero d) l) /\
  (forall r', r' <> r -> nth_error (a_sets zero h' o l) r' = nth_error h r') /\
  (forall c2 h2 o2, used_as_is c2 d -> call_dm zero nan h' c2 (ARef r) = Ok (h2, o2) -> a_cat zero (a_sets zero h2 o l) o2 = written c (column zero d) l).
Proof. exact (@shared T zero nan). Qed.

Theorem C91_cat_no_copy : forall nan h c a h' o l,
  call_dm zero nan h c a = Ok (h', o) ->
  call_dm zero nan (a_sets zero h' o l) c (ARef (ao_ref o)) = Ok (a_sets zero h' o l, o).
Proof. intros nan0; exact (@cat_no_copy T zero nan0). Qed.

Theorem C92_set_keeps_size : forall s (en : env) pi v st st' r,
  setitem zero s en pi v st = (st', r) ->
  length (ps_master st') = length (ps_master st) /\ length (ps_mirror st') = length (ps_mirror st) /\ length (ps_storage st') = length (ps_storage st).
Proof. exact (@set_keeps_size T zero). Qed.

Theorem C92_set_keeps_mirror : forall s (en : env) pi v st st' r,
  en_kind en = KRep -> ps_mirror st = ps_master st ->
  setitem zero s en pi v st = (st', r) -> ps_mirror st' = ps_master st'.
Proof. exact (@set_keeps_mirror T zero). Qed.

Theorem C92_entry_local : forall s c n pi v st st' r,
  Wf s -> casadi_structure s = Ok c -> no_fun pi ->
  setitem zero s (num_env c) (PStr n :: pi) v st = (st', r) ->
  forall k, ~ under c n k -> nth_error (ps_master st') k = nth_error (ps_master st) k.
Proof. exact (@entry_local T zero). Qed.

Theorem C92_other_entries : forall s c n n' pi pi' v st st' r,
  Wf s -> casadi_structure s = Ok c -> no_fun pi -> no_fun pi' -> n <> n' ->
  setitem zero s (num_env c) (PStr n :: pi) v st = (st', r) ->
  getitem zero s (num_env c) (PStr n' :: pi') st' = getitem zero s (num_env c) (PStr n' :: pi') st.
Proof. exact (@other_entries T zero). Qed.

End P.

Theorem C91_own_copy_refuted : exists (h : heap Z) c r d o pi v,
  nth_error h r = Some d /\ call_dm 0%Z (-1)%Z h c (ARef r) = Ok (h, o) /\ nth_error (fst (a_set 0%Z h o pi v)) r <> Some d.
Proof. exact own_copy_refuted. Qed.

Print Assumptions C91_own_copy_partial.
Print Assumptions C91_shared.
Print Assumptions C91_cat_no_copy.
Print Assumptions C92_set_keeps_size.
Print Assumptions C92_set_keeps_mirror.
Print Assumptions C92_entry_local.
Print Assumptions C92_other_entries.
Print Assumptions C91_own_copy_refuted.
