(** Property theorems about assignments of nested values (C101). *)
From Coq Require Import Permutation.
From Verif Require Import PyBase IndexModel DMModel StructModel StructSpec PowerModel PowerSpec
  IndexProofs StructProofs LayoutProofs LayoutThms LayoutExamples DMProofs PowerProofs PowerThms ReadSpec AssignSpec AssignThms PowerExamples AssignExamples.
Open Scope list_scope. Open Scope nat_scope.

Section Props.
Context (T : Type) (zero : T).
Notation rval := (rval T).
Notation pel := (pel T).
Notation pay := (pay T).
Notation pstate := (pstate T).
Notation Receives := (Receives zero).

Theorem C101_assign_reads : forall s c (st : pstate) pi r p R,
  Obj s c st -> NoSymm s -> initial pi -> i_get zero s pi = Ok r -> NoDup (positions r) -> Receives (ps_master st) r p R ->
  exists st' x, setitem zero s (num_env c) pi p st = (st', Ok x) /\
    getitem zero s (num_env c) pi st' = Ok R /\ unchanged (positions r) st st' /\
    ps_mirror st' = ps_mirror st /\ ps_storage st' = ps_storage st.
Proof. exact (assign_reads zero). Qed.

Theorem C101_assign_iff : forall s c (st : pstate) pi r p,
  Obj s c st -> NoSymm s -> initial pi -> no_set pi -> i_get zero s pi = Ok r -> NoDup (positions r) -> PayOk p ->
  ((exists st' x, setitem zero s (num_env c) pi p st = (st', Ok x)) <-> exists R, Receives (ps_master st) r p R).
Proof. exact (assign_iff zero). Qed.

Theorem C101_assign_copy : forall s c (st1 st2 : pstate) pi r,
  Obj s c st1 -> Obj s c st2 -> NoSymm s -> initial pi -> i_get zero s pi = Ok r -> NoDup (positions r) ->
  exists R st' x, getitem zero s (num_env c) pi st1 = Ok R /\
    setitem zero s (num_env c) pi (pay_of R) st2 = (st', Ok x) /\
    length (ps_master st') = length (ps_master st2) /\
    forall k, nth_error (ps_master st') k = nth_error (if in_dec Nat.eq_dec k (positions r) then ps_master st1 else ps_master st2) k.
Proof. exact (assign_copy zero). Qed.

Theorem C101_nest_positions : forall s c,
  Wf s -> casadi_structure s = Ok c ->
  exists r, i_get zero s [PNest] = Ok r /\ Permutation (positions r) (seq 0 (cs_size c)).
Proof. exact (nest_positions zero). Qed.

Theorem C101_nest_copy : forall s c (st1 st2 : pstate),
  Obj s c st1 -> Obj s c st2 -> NoSymm s ->
  exists R st' x, getitem zero s (num_env c) [PNest] st1 = Ok R /\
    setitem zero s (num_env c) [PNest] (pay_of R) st2 = (st', Ok x) /\ ps_master st' = ps_master st1.
Proof. exact (nest_copy zero). Qed.

End Props.

Open Scope Z_scope.
Theorem C101_set_keys_refuted : exists s c (st st' : pstate Z) pi r p x,
  Obj s c st /\ NoSymm s /\ initial pi /\ i_get 0 s pi = Ok r /\ NoDup (positions r) /\ PayOk p /\
  setitem 0 s (num_env c) pi p st = (st', Ok x) /\ ~ exists R, Receives 0 (ps_master st) r p R.
Proof. exact set_keys_refuted. Qed.

Print Assumptions C101_assign_reads.
Print Assumptions C101_assign_iff.
Print Assumptions C101_assign_copy.
Print Assumptions C101_nest_positions.
Print Assumptions C101_nest_copy.
Print Assumptions C101_set_keys_refuted.
