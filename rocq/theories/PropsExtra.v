(** Property theorems about blocks of ordinary entries (C28). *)
From Coq Require Import ZArith.
From Verif Require Import PyBase IndexModel DMModel StructModel StructSpec PowerModel PowerSpec
  LayoutProofs LayoutThms LayoutExamples DMProofs PowerProofs PowerThms PowerThms4 PowerThms5 PowerExamples ExtraThms ExtraExamples.
Open Scope list_scope.
Open Scope nat_scope.

Section P.
Context (T : Type) (zero : T).
Notation pay := (pay T).
Notation pel := (pel T).
Notation pstate := (pstate T).

Theorem C28_extra_block_read : forall s c (st : pstate) ci e R a b A B,
  Obj s c st -> At s ci e -> e_struct e = None -> e_symm e = false ->
  getitem zero s (num_env c) (pidx ci) st = Ok (RMat R) ->
  Selects (dm_nr R) a A -> Selects (dm_nc R) b B ->
  exists E, getitem zero s (num_env c) (pidx ci ++ [a; b]) st = Ok (RMat E) /\ dm_shape E = (length A, length B) /\
    forall x y p q, nth_error A x = Some p -> nth_error B y = Some q -> dm_at E (x, y) = dm_at R (p, q).
Proof. exact (@extra_block_read T zero). Qed.

Theorem C28_extra_block_read_err : forall s c (st : pstate) ci e R a b,
  Obj s c st -> At s ci e -> e_struct e = None -> e_symm e = false ->
  getitem zero s (num_env c) (pidx ci) st = Ok (RMat R) ->
  (Rejects (dm_nr R) a /\ (Rejects (dm_nc R) b \/ exists B, Selects (dm_nc R) b B)) \/ ((exists A, Selects (dm_nr R) a A) /\ Rejects (dm_nc R) b) ->
  getitem zero s (num_env c) (pidx ci ++ [a; b]) st = Err EException.
Proof. exact (@extra_block_read_err T zero). Qed.

Theorem C28_extra_linear_read : forall s c (st : pstate) ci e R a K,
  Obj s c st -> At s ci e -> e_struct e = None -> e_symm e = false ->
  getitem zero s (num_env c) (pidx ci) st = Ok (RMat R) ->
  Selects (dm_nr R * dm_nc R) a K ->
  exists E, getitem zero s (num_env c) (pidx ci ++ [a]) st = Ok (RMat E) /\
    (dm_nr R <> 1 -> dm_shape E = (length K, 1) /\
       forall x p q, p < dm_nr R -> nth_error K x = Some (p + q * dm_nr R) -> dm_at E (x, 0) = dm_at R (p, q)) /\
    (dm_nr R = 1 -> dm_shape E = (1, length K) /\ forall x q, nth_error K x = Some q -> dm_at E (0, x) = dm_at R (0, q)).
Proof. exact (@extra_linear_read T zero). Qed.

Theorem C28_extra_linear_read_err : forall s c (st : pstate) ci e R a,
  Obj s c st -> At s ci e -> e_struct e = None -> e_symm e = false ->
  getitem zero s (num_env c) (pidx ci) st = Ok (RMat R) -> Rejects (dm_nr R * dm_nc R) a ->
  getitem zero s (num_env c) (pidx ci ++ [a]) st = Err EException.
Proof. exact (@extra_linear_read_err T zero). Qed.

Theorem C28_extra_block_write : forall s c (st : pstate) ci e R a b A B v M,
  Obj s c st -> At s ci e -> e_struct e = None -> e_symm e = false ->
  getitem zero s (num_env c) (pidx ci) st = Ok (RMat R) ->
  Selects (dm_nr R) a A -> Selects (dm_nc R) b B -> NoDup A -> NoDup B ->
  pay_ok v -> to_mtype v = Ok M -> dm_shape M = (length A, length B) ->
  exists st' r R', setitem zero s (num_env c) (pidx ci ++ [a; b]) v st = (st', Ok r) /\
    getitem zero s (num_env c) (pidx ci) st' = Ok (RMat R') /\ dm_sp R' = dm_sp R /\
    (forall x y p q, nth_error A x = Some p -> nth_error B y = Some q -> In (p, q) (sp_pat (dm_sp R)) -> dm_at R' (p, q) = Some (dm_val zero M (x, y))) /\
    (forall p q, ~ (In p A /\ In q B) -> dm_at R' (p, q) = dm_at R (p, q)) /\
    (forall ii, i_get zero s (pidx ci) = Ok ii -> unchanged (positions ii) st st').
Proof. exact (@extra_block_write T zero). Qed.

Theorem C28_extra_block_fill : forall s c (st : pstate) ci e R a b A B v M,
  Obj s c st -> At s ci e -> e_struct e = None -> e_symm e = false ->
  getitem zero s (num_env c) (pidx ci) st = Ok (RMat R) ->
  Selects (dm_nr R) a A -> Selects (dm_nc R) b B ->
  pay_ok v -> to_mtype v = Ok M -> dm_shape M = (1, 1) ->
  exists st' r R', setitem zero s (num_env c) (pidx ci ++ [a; b]) v st = (st', Ok r) /\
    getitem zero s (num_env c) (pidx ci) st' = Ok (RMat R') /\ dm_sp R' = dm_sp R /\
    (forall p q, In p A -> In q B -> In (p, q) (sp_pat (dm_sp R)) -> dm_at R' (p, q) = Some (dm_val zero M (0, 0))) /\
    (forall p q, ~ (In p A /\ In q B) -> dm_at R' (p, q) = dm_at R (p, q)) /\
    (forall ii, i_get zero s (pidx ci) = Ok ii -> unchanged (positions ii) st st').
Proof. exact (@extra_block_fill T zero). Qed.

Theorem C28_extra_block_misfit : forall s c (st : pstate) ci e R a b A B v M,
  Obj s c st -> At s ci e -> e_struct e = None -> e_symm e = false ->
  getitem zero s (num_env c) (pidx ci) st = Ok (RMat R) ->
  Selects (dm_nr R) a A -> Selects (dm_nc R) b B -> pay_ok v -> to_mtype v = Ok M ->
  dm_shape M <> (1, 1) -> dm_shape M <> (length A, length B) ->
  (dm_shape M = (length B, length A) -> length A <> 1 /\ length B <> 1) ->
  setitem zero s (num_env c) (pidx ci ++ [a; b]) v st = (st, Err EException).
Proof. exact (@extra_block_misfit T zero). Qed.

Theorem C28_extra_linear_write : forall s c (st : pstate) ci e R a K v M,
  Obj s c st -> At s ci e -> e_struct e = None -> e_symm e = false ->
  getitem zero s (num_env c) (pidx ci) st = Ok (RMat R) ->
  Selects (dm_nr R * dm_nc R) a K -> NoDup K -> K <> [] -> pay_ok v -> to_mtype v = Ok M ->
  dm_shape M = (length K, 1) \/ dm_shape M = (1, length K) ->
  exists st' r R', setitem zero s (num_env c) (pidx ci ++ [a]) v st = (st', Ok r) /\
    getitem zero s (num_env c) (pidx ci) st' = Ok (RMat R') /\ dm_sp R' = dm_sp R /\
    (forall x p q, p < dm_nr R -> nth_error K x = Some (p + q * dm_nr R) -> In (p, q) (sp_pat (dm_sp R)) ->
       dm_at R' (p, q) = Some (dm_val zero M (if dm_nc M =? 1 then (x, 0) else (0, x)))) /\
    (forall p q, p < dm_nr R -> ~ In (p + q * dm_nr R) K -> dm_at R' (p, q) = dm_at R (p, q)) /\
    (forall ii, i_get zero s (pidx ci) = Ok ii -> unchanged (positions ii) st st').
Proof. exact (@extra_linear_write T zero). Qed.

Theorem C28_extra_linear_fill : forall s c (st : pstate) ci e R a K v M,
  Obj s c st -> At s ci e -> e_struct e = None -> e_symm e = false ->
  getitem zero s (num_env c) (pidx ci) st = Ok (RMat R) ->
  Selects (dm_nr R * dm_nc R) a K -> pay_ok v -> to_mtype v = Ok M -> dm_shape M = (1, 1) ->
  exists st' r R', setitem zero s (num_env c) (pidx ci ++ [a]) v st = (st', Ok r) /\
    getitem zero s (num_env c) (pidx ci) st' = Ok (RMat R') /\ dm_sp R' = dm_sp R /\
    (forall p q, p < dm_nr R -> In (p + q * dm_nr R) K -> In (p, q) (sp_pat (dm_sp R)) -> dm_at R' (p, q) = Some (dm_val zero M (0, 0))) /\
    (forall p q, p < dm_nr R -> ~ In (p + q * dm_nr R) K -> dm_at R' (p, q) = dm_at R (p, q)) /\
    (forall ii, i_get zero s (pidx ci) = Ok ii -> unchanged (positions ii) st st').
Proof. exact (@extra_linear_fill T zero). Qed.

End P.

Print Assumptions C28_extra_block_read.
Print Assumptions C28_extra_block_read_err.
Print Assumptions C28_extra_linear_read.
Print Assumptions C28_extra_linear_read_err.
Print Assumptions C28_extra_block_write.
Print Assumptions C28_extra_block_fill.
Print Assumptions C28_extra_block_misfit.
Print Assumptions C28_extra_linear_write.
Print Assumptions C28_extra_linear_fill.
