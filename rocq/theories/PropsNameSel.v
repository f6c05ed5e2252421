(** Property theorems about selecting parts of an entry by name (C111). *)
From Coq Require Import ZArith.
From Verif Require Import PyBase IndexModel DMModel StructModel StructSpec PowerModel PowerSpec
  LayoutProofs LayoutThms LayoutExamples DMProofs PowerProofs PowerThms PowerThms4 PowerThms5 PowerExamples StructsThms7 ExtraThms NameSelThms NameSelExamples.
Open Scope list_scope.
Open Scope nat_scope.

Section P.
Context (T : Type) (zero : T).
Notation pay := (pay T).
Notation pel := (pel T).
Notation pstate := (pstate T).
Notation env := (env T).

Theorem C111_names_are_numbers : forall s ci e a b a' b',
  Wf s -> At s ci e -> e_struct e = None -> Means zero e 0 a a' -> Means zero e 1 b b' ->
  (forall (en : env) st, getitem zero s en (pidx ci ++ [a; b]) st = getitem zero s en (pidx ci ++ [a'; b']) st) /\
  (forall (en : env) v st, setitem zero s en (pidx ci ++ [a; b]) v st = setitem zero s en (pidx ci ++ [a'; b']) v st) /\
  i_get zero s (pidx ci ++ [a; b]) = i_get zero s (pidx ci ++ [a'; b']) /\ f_get zero s (pidx ci ++ [a; b]) = f_get zero s (pidx ci ++ [a'; b']).
Proof. exact (names_are_numbers zero). Qed.

Theorem C111_names_read : forall s c (st : pstate) ci e R a b la lb,
  Obj s c st -> At s ci e -> e_struct e = None -> e_symm e = false ->
  getitem zero s (num_env c) (pidx ci) st = Ok (RMat R) ->
  ByName zero e 0 a la -> ByName zero e 1 b lb -> Forall (fun k => k < dm_nr R) la -> Forall (fun k => k < dm_nc R) lb ->
  exists E, getitem zero s (num_env c) (pidx ci ++ [a; b]) st = Ok (RMat E) /\ dm_shape E = (length la, length lb) /\
    forall x y p q, nth_error la x = Some p -> nth_error lb y = Some q -> dm_at E (x, y) = dm_at R (p, q).
Proof. exact (names_read zero). Qed.

Theorem C111_names_write : forall s c (st : pstate) ci e R a b la lb v M,
  Obj s c st -> At s ci e -> e_struct e = None -> e_symm e = false ->
  getitem zero s (num_env c) (pidx ci) st = Ok (RMat R) ->
  ByName zero e 0 a la -> ByName zero e 1 b lb -> Forall (fun k => k < dm_nr R) la -> Forall (fun k => k < dm_nc R) lb -> NoDup la -> NoDup lb ->
  pay_ok v -> to_mtype v = Ok M -> dm_shape M = (length la, length lb) ->
  exists st' r R', setitem zero s (num_env c) (pidx ci ++ [a; b]) v st = (st', Ok r) /\
    getitem zero s (num_env c) (pidx ci) st' = Ok (RMat R') /\ dm_sp R' = dm_sp R /\
    (forall x y p q, nth_error la x = Some p -> nth_error lb y = Some q -> In (p, q) (sp_pat (dm_sp R)) -> dm_at R' (p, q) = Some (dm_val zero M (x, y))) /\
    (forall p q, ~ (In p la /\ In q lb) -> dm_at R' (p, q) = dm_at R (p, q)) /\
    (forall ii, i_get zero s (pidx ci) = Ok ii -> unchanged (positions ii) st st').
Proof. exact (names_write zero). Qed.

Theorem C111_name_is_numbers : forall s ci e p l,
  Wf s -> At s ci e -> e_struct e = None -> ByName zero e 0 p l -> ~ RowIndex zero e p l ->
  (forall (en : env) st, getitem zero s en (pidx ci ++ [p]) st = getitem zero s en (pidx ci ++ [byNumber l]) st) /\
  (forall (en : env) v st, setitem zero s en (pidx ci ++ [p]) v st = setitem zero s en (pidx ci ++ [byNumber l]) v st) /\
  i_get zero s (pidx ci ++ [p]) = i_get zero s (pidx ci ++ [byNumber l]) /\ f_get zero s (pidx ci ++ [p]) = f_get zero s (pidx ci ++ [byNumber l]).
Proof. exact (name_is_numbers zero). Qed.

Theorem C111_row_read : forall s c (st : pstate) ci e R p l,
  Obj s c st -> At s ci e -> e_struct e = None -> e_symm e = false ->
  getitem zero s (num_env c) (pidx ci) st = Ok (RMat R) -> RowIndex zero e p l -> Forall (fun k => k < dm_nr R * dm_nc R) l ->
  exists E, getitem zero s (num_env c) (pidx ci ++ [p]) st = Ok (RMat E) /\ dm_shape E = (if dm_nc R =? 1 then (length l, 1) else (1, length l)) /\
    forall x r q, r < dm_nr R -> nth_error l x = Some (r + q * dm_nr R) -> dm_at E (if dm_nc R =? 1 then (x, 0) else (0, x)) = dm_at R (r, q).
Proof. exact (row_read zero). Qed.

Theorem C111_row_write : forall s c (st : pstate) ci e R p l v,
  Obj s c st -> At s ci e -> e_struct e = None -> e_symm e = false -> pay_ok v ->
  getitem zero s (num_env c) (pidx ci) st = Ok (RMat R) -> RowIndex zero e p l -> Forall (fun k => k < dm_nr R * dm_nc R) l -> 1 < length l ->
  setitem zero s (num_env c) (pidx ci ++ [p]) v st = setitem zero s (num_env c) (pidx ci ++ [byNumber l]) v st.
Proof. exact (row_write zero). Qed.

Theorem C111_names_refused : forall s c (st : pstate) ci e a b v,
  Obj s c st -> At s ci e -> e_struct e = None ->
  BadName zero e 0 a \/ (BadName zero e 1 b /\ (forall f, a <> PFun f) /\ a <> PNest) ->
  getitem zero s (num_env c) (pidx ci ++ [a; b]) st = Err EException /\ setitem zero s (num_env c) (pidx ci ++ [a; b]) v st = (st, Err EException).
Proof. exact (names_refused zero). Qed.

Theorem C111_name_refused : forall s c (st : pstate) ci e a v,
  Obj s c st -> At s ci e -> e_struct e = None -> BadName zero e 0 a ->
  getitem zero s (num_env c) (pidx ci ++ [a]) st = Err EException /\ setitem zero s (num_env c) (pidx ci ++ [a]) v st = (st, Err EException).
Proof. exact (name_refused zero). Qed.

End P.

Print Assumptions C111_names_are_numbers.
Print Assumptions C111_names_read.
Print Assumptions C111_names_write.
Print Assumptions C111_name_is_numbers.
Print Assumptions C111_row_read.
Print Assumptions C111_row_write.
Print Assumptions C111_names_refused.
Print Assumptions C111_name_refused.
