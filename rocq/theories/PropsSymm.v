(** Property theorems about blocks of symmetric entries (C87). *)
From Coq Require Import ZArith.
From Verif Require Import PyBase IndexModel DMModel StructModel StructSpec PowerModel PowerSpec
  LayoutProofs LayoutThms LayoutExamples DMProofs PowerProofs PowerThms PowerThms4 PowerThms5 PowerExamples SymmBlockThms SymmBlockExamples.
Open Scope list_scope.
Open Scope nat_scope.

Section P.
Context (T : Type) (zero : T).
Notation pay := (pay T).
Notation pel := (pel T).
Notation pstate := (pstate T).

Theorem C87_symm_block_write : forall s c (st : pstate) ci e n orig v P a b sa sb A B,
  Obj s c st -> At s ci e -> SymmEntry e n orig -> pay_ok v -> to_mtype v = Ok P ->
  sel_of a = Some sa -> sel_of b = Some sb -> sel_resolve sa n = Ok A -> sel_resolve sb n = Ok B ->
  dm_is_scalar P = false -> NoDup A -> NoDup B -> BlockPattern (dm_sp P) orig A B ->
  exists st' r R R', setitem zero s (num_env c) (pidx ci ++ [a; b]) v st = (st', Ok r) /\
    getitem zero s (num_env c) (pidx ci) st = Ok (RMat R) /\
    getitem zero s (num_env c) (pidx ci) st' = Ok (RMat R') /\
    (forall p q, dm_at R' (p, q) = dm_at R' (q, p)) /\
    (forall x y p q, nth_error A x = Some p -> nth_error B y = Some q -> dm_at R (p, q) <> None ->
       p <= q \/ ~ (In q A /\ In p B) -> dm_at R' (p, q) = Some (dm_val zero P (x, y))) /\
    (forall p q, ~ (In p A /\ In q B) -> ~ (In q A /\ In p B) -> dm_at R' (p, q) = dm_at R (p, q)) /\
    (forall ii, i_get zero s (pidx ci) = Ok ii -> unchanged (positions ii) st st').
Proof. exact (@symm_block_write T zero). Qed.

Theorem C87_symm_block_fill : forall s c (st : pstate) ci e n orig v P a b sa sb A B,
  Obj s c st -> At s ci e -> SymmEntry e n orig -> pay_ok v -> to_mtype v = Ok P ->
  sel_of a = Some sa -> sel_of b = Some sb -> sel_resolve sa n = Ok A -> sel_resolve sb n = Ok B ->
  dm_is_scalar P = true ->
  exists st' r R R', setitem zero s (num_env c) (pidx ci ++ [a; b]) v st = (st', Ok r) /\
    getitem zero s (num_env c) (pidx ci) st = Ok (RMat R) /\
    getitem zero s (num_env c) (pidx ci) st' = Ok (RMat R') /\
    (forall p q, (In p A /\ In q B) \/ (In q A /\ In p B) -> dm_at R (p, q) <> None -> dm_at R' (p, q) = Some (dm_val zero P (0, 0))) /\
    (forall p q, ~ (In p A /\ In q B) -> ~ (In q A /\ In p B) -> dm_at R' (p, q) = dm_at R (p, q)) /\
    (forall ii, i_get zero s (pidx ci) = Ok ii -> unchanged (positions ii) st st').
Proof. exact (@symm_block_fill T zero). Qed.

Theorem C87_symm_block_mismatch : forall s c (st : pstate) ci e n orig v P a b sa sb A B,
  Obj s c st -> At s ci e -> SymmEntry e n orig -> pay_ok v -> to_mtype v = Ok P ->
  sel_of a = Some sa -> sel_of b = Some sb -> sel_resolve sa n = Ok A -> sel_resolve sb n = Ok B ->
  dm_is_scalar P = false -> ~ BlockPattern (dm_sp P) orig A B ->
  setitem zero s (num_env c) (pidx ci ++ [a; b]) v st = (st, Err EException).
Proof. exact (@symm_block_mismatch T zero). Qed.

Theorem C87_symm_block_read_partial : forall s c (st : pstate) ci e n orig R a b sa sb A B,
  Obj s c st -> At s ci e -> SymmEntry e n orig ->
  sel_of a = Some sa -> sel_of b = Some sb -> sel_resolve sa n = Ok A -> sel_resolve sb n = Ok B ->
  getitem zero s (num_env c) (pidx ci) st = Ok (RMat R) ->
  (length A = length B /\
   (forall x y p q, nth_error A x = Some p -> nth_error B y = Some q -> y < x -> p <= q -> dm_at R (p, q) = None) /\
   exists E, getitem zero s (num_env c) (pidx ci ++ [a; b]) st = Ok (RMat E) /\ DmOk E /\ dm_shape E = (length A, length A) /\
     (forall x y, dm_at E (x, y) = dm_at E (y, x)) /\
     (forall x y p q, nth_error A x = Some p -> nth_error B y = Some q -> x <= y ->
        dm_at E (x, y) = if p <=? q then dm_at R (p, q) else None)) \/
  ((length A <> length B \/
    exists x y p q, nth_error A x = Some p /\ nth_error B y = Some q /\ y < x /\ p <= q /\ dm_at R (p, q) <> None) /\
   getitem zero s (num_env c) (pidx ci ++ [a; b]) st = Err EException).
Proof. exact (@symm_block_read T zero). Qed.

Theorem C87_symm_block_read_diag : forall s c (st : pstate) ci e n orig R a b sa sb A,
  Obj s c st -> At s ci e -> SymmEntry e n orig ->
  sel_of a = Some sa -> sel_of b = Some sb -> sel_resolve sa n = Ok A -> sel_resolve sb n = Ok A ->
  (forall x y p q, nth_error A x = Some p -> nth_error A y = Some q -> x < y -> p < q) ->
  getitem zero s (num_env c) (pidx ci) st = Ok (RMat R) ->
  exists E, getitem zero s (num_env c) (pidx ci ++ [a; b]) st = Ok (RMat E) /\ dm_shape E = (length A, length A) /\
    forall x y p q, nth_error A x = Some p -> nth_error A y = Some q -> dm_at E (x, y) = dm_at R (p, q).
Proof. exact (@symm_block_read_diag T zero). Qed.

Theorem C87_symm_linear_fill_partial : forall s c (st : pstate) ci e n orig v P a sa K,
  Obj s c st -> At s ci e -> SymmEntry e n orig -> pay_ok v -> to_mtype v = Ok P -> dm_is_scalar P = true ->
  sel_of a = Some sa -> sel_resolve sa (n * n) = Ok K ->
  exists st' r R R', setitem zero s (num_env c) (pidx ci ++ [a]) v st = (st', Ok r) /\
    getitem zero s (num_env c) (pidx ci) st = Ok (RMat R) /\
    getitem zero s (num_env c) (pidx ci) st' = Ok (RMat R') /\
    (forall p q, p <= q -> In (p + q * n) K -> dm_at R (p, q) <> None ->
       dm_at R' (p, q) = Some (dm_val zero P (0, 0)) /\ dm_at R' (q, p) = Some (dm_val zero P (0, 0))) /\
    (forall p q, p <= q -> ~ In (p + q * n) K -> dm_at R' (p, q) = dm_at R (p, q) /\ dm_at R' (q, p) = dm_at R (q, p)) /\
    (forall ii, i_get zero s (pidx ci) = Ok ii -> unchanged (positions ii) st st').
Proof. exact (@symm_linear_fill T zero). Qed.

Theorem C87_symm_linear_read : forall s c (st : pstate) ci e n orig R a sa K,
  Obj s c st -> At s ci e -> SymmEntry e n orig -> sel_of a = Some sa -> sel_resolve sa (n * n) = Ok K ->
  getitem zero s (num_env c) (pidx ci) st = Ok (RMat R) ->
  (exists k E, K = [k] /\ getitem zero s (num_env c) (pidx ci ++ [a]) st = Ok (RMat E) /\ dm_shape E = (1, 1) /\
     dm_at E (0, 0) = if k mod n <=? k / n then dm_at R (k mod n, k / n) else None) \/
  (length K <> 1 /\ getitem zero s (num_env c) (pidx ci ++ [a]) st = Err EException).
Proof. exact (@symm_linear_read T zero). Qed.

Theorem C87_symm_linear_refused : forall s c (st : pstate) ci e n orig v P a sa,
  Obj s c st -> At s ci e -> SymmEntry e n orig -> pay_ok v -> to_mtype v = Ok P -> dm_is_scalar P = false -> sel_of a = Some sa ->
  setitem zero s (num_env c) (pidx ci ++ [a]) v st = (st, Err EException).
Proof. exact (@symm_linear_refused T zero). Qed.

End P.

Open Scope Z_scope.
Theorem C87_symm_block_read_refuted : exists s c (st : pstate Z) ci e n orig R a b sa sb A B,
  Obj s c st /\ At s ci e /\ SymmEntry e n orig /\ sel_of a = Some sa /\ sel_of b = Some sb /\
  sel_resolve sa n = Ok A /\ sel_resolve sb n = Ok B /\ length A = length B /\
  get s c (pidx ci) st = Ok (RMat R) /\ get s c (pidx ci ++ [a; b]) st = Err EException.
Proof. exact (@symm_block_read_refuted). Qed.

Theorem C87_symm_linear_ignored_refuted : exists s c (st : pstate Z) ci e n orig R k x r,
  Obj s c st /\ At s ci e /\ SymmEntry e n orig /\
  get s c (pidx ci) st = Ok (RMat R) /\ norm_index (n * n) (Z.of_nat k) = Ok k /\
  dm_at R (k mod n, k / n)%nat <> None /\ dm_val 0 R (k mod n, k / n)%nat <> x /\
  set s c (pidx ci ++ [PInt (Z.of_nat k)]) (PayNum x) st = (st, Ok r).
Proof. exact (@symm_linear_ignored_refuted). Qed.

Print Assumptions C87_symm_block_write.
Print Assumptions C87_symm_block_fill.
Print Assumptions C87_symm_block_mismatch.
Print Assumptions C87_symm_block_read_partial.
Print Assumptions C87_symm_block_read_diag.
Print Assumptions C87_symm_linear_fill_partial.
Print Assumptions C87_symm_linear_read.
Print Assumptions C87_symm_linear_refused.
Print Assumptions C87_symm_block_read_refuted.
Print Assumptions C87_symm_linear_ignored_refuted.
