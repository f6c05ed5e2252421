(** Property theorems about power-index access (C10-C19, C26-C28). *)
From Verif Require Import PyBase IndexModel DMModel StructModel StructSpec PowerModel PowerSpec
  IndexProofs StructProofs LayoutProofs LayoutThms LayoutExamples DMProofs PowerProofs PowerThms SliceProofs PowerThms2 PowerThms3 PowerThms4
  PowerThms5 PowerExamples.
Open Scope nat_scope.

Section Props.
Context (T : Type) (zero : T).
Notation rval := (rval T).
Notation pel := (pel T).
Notation pay := (pay T).
Notation env := (env T).
Notation pstate := (pstate T).

(** C10 *)
Theorem C10_read_after_write : forall s c st ci e m v M st' r,
  Obj s c st -> At s ci e -> e_symm e = false -> i_get zero s (pidx ci) = Ok (RIdx m) ->
  pay_ok v -> to_mtype v = Ok M ->
  setitem zero s (num_env c) (pidx ci) v st = (st', Ok r) ->
  fits M (dm_sp m) /\
  exists R, getitem zero s (num_env c) (pidx ci) st' = Ok (RMat R) /\ dm_sp R = dm_sp m /\
    (forall p, In p (sp_pat (dm_sp m)) -> dm_at R p = Some (fit zero M (dm_sp m) p)) /\
    (dm_sp M = dm_sp m -> R = M).
Proof. exact (read_after_write zero). Qed.

Theorem C10_write_succeeds_iff : forall s c st ci e m v M,
  Obj s c st -> At s ci e -> e_symm e = false -> i_get zero s (pidx ci) = Ok (RIdx m) ->
  pay_ok v -> to_mtype v = Ok M ->
  ((exists st' r, setitem zero s (num_env c) (pidx ci) v st = (st', Ok r)) <-> fits M (dm_sp m)).
Proof. exact (write_succeeds_iff zero). Qed.

(** C11 *)
Theorem C11_writes_local_partial : forall s c (st st' : pstate) pi v rr r,
  casadi_structure s = Ok c -> NoSymm s -> no_fun pi -> i_get zero s pi = Ok rr ->
  setitem zero s (num_env c) pi v st = (st', r) -> unchanged (positions rr) st st'.
Proof. exact (writes_local zero). Qed.

Theorem C11_reads_local : forall s c (st st' : pstate) pi rr,
  casadi_structure s = Ok c -> no_fun pi -> i_get zero s pi = Ok rr ->
  agree (positions rr) st st' ->
  getitem zero s (num_env c) pi st = getitem zero s (num_env c) pi st'.
Proof. exact (reads_local zero). Qed.

Theorem C11_write_disjoint_read_partial : forall s c (st st' : pstate) pi v rr r pi' rr',
  casadi_structure s = Ok c -> NoSymm s -> no_fun pi -> no_fun pi' ->
  i_get zero s pi = Ok rr -> i_get zero s pi' = Ok rr' ->
  (forall k, In k (positions rr) -> In k (positions rr') -> False) ->
  setitem zero s (num_env c) pi v st = (st', r) ->
  getitem zero s (num_env c) pi' st' = getitem zero s (num_env c) pi' st.
Proof. exact (write_disjoint_read zero). Qed.

(** C12 *)
Theorem C12_negative_canonical : forall s c (st : pstate) raw ci e rest v,
  Wf s -> Addr s raw ci e -> Within s raw ->
  At s ci e /\
  getitem zero s (num_env c) (pidx raw ++ rest) st = getitem zero s (num_env c) (pidx ci ++ rest) st /\
  setitem zero s (num_env c) (pidx raw ++ rest) v st = setitem zero s (num_env c) (pidx ci ++ rest) v st.
Proof. exact (negative_canonical zero). Qed.

Theorem C12_out_of_range_partial : forall s c (st : pstate) raw ci e v,
  Wf s -> casadi_structure s = Ok c -> Addr s raw ci e -> ~ Within s raw ->
  getitem zero s (num_env c) (pidx raw) st = Err EException /\
  setitem zero s (num_env c) (pidx raw) v st = (st, Err EException) /\
  i_get zero s (pidx raw) = Err EException /\ f_get zero s (pidx raw) = Err EException.
Proof. exact (out_of_range zero). Qed.

Theorem C12_int_accepted_iff_partial : forall s c (st : pstate) raw ci e,
  Obj s c st -> Addr s raw ci e -> e_struct e = None -> e_symm e = false ->
  ((exists R, getitem zero s (num_env c) (pidx raw) st = Ok R) <-> Within s raw).
Proof. exact (int_accepted_iff zero). Qed.

Theorem C12_int_accepted_block_partial : forall s c (st : pstate) raw ci e s',
  Obj s c st -> Addr s raw ci e -> e_struct e = Some s' -> e_symm e = false -> leaves s' <> [] ->
  ((exists R, getitem zero s (num_env c) (pidx raw) st = Ok R) <-> Within s raw).
Proof. exact (int_accepted_block zero). Qed.

(** C13 *)
Theorem C13_slice_read : forall s (en : env) (st : pstate) e ds1 d ds2 idx rest l,
  Wf s -> In e (s_entries s) -> e_dims e = ds1 ++ d :: ds2 -> length idx = length ds1 ->
  getitem zero s en (PStr (e_name e) :: map (fun i => PInt i) idx ++ PSlc slice_all :: rest) st = Ok (RList l) ->
  Z.of_nat (length l) = d /\
  (forall i x, nth_error l i = Some x ->
     getitem zero s en (PStr (e_name e) :: map (fun i => PInt i) idx ++ PInt (Z.of_nat i) :: rest) st = Ok x) /\
  forall sl, sl_step sl <> Some 0%Z ->
  getitem zero s en (PStr (e_name e) :: map (fun i => PInt i) idx ++ PSlc sl :: rest) st = Ok (RList (py_slice l sl)).
Proof. exact (slice_read zero). Qed.

Theorem C13_slice_step0 : forall s (en : env) (st : pstate) e ds1 d ds2 idx rest a b,
  Wf s -> In e (s_entries s) -> e_dims e = ds1 ++ d :: ds2 -> length idx = length ds1 ->
  getitem zero s en (PStr (e_name e) :: map (fun i => PInt i) idx ++ PSlc (Slc a b (Some 0%Z)) :: rest) st = Err EException.
Proof. exact (slice_step0 zero). Qed.

(** C14 *)
Theorem C14_pending_colons : forall s (en : env) e ds1 ds2 idx k md p (st : pstate),
  Wf s -> In e (s_entries s) -> e_dims e = ds1 ++ ds2 -> length idx = length ds1 -> k <= length ds2 ->
  travS zero s en md (PStr (e_name e) :: map (fun i => PInt i) idx ++ repeat (PSlc slice_all) k) [] p st =
  travS zero s en md (PStr (e_name e) :: map (fun i => PInt i) idx) [] p st.
Proof. exact (pending_colons zero). Qed.

Theorem C14_pending_nested : forall s (en : env) e ds1 ds2 idx (st : pstate) (f : list Z -> rval),
  Wf s -> In e (s_entries s) -> e_dims e = ds1 ++ ds2 -> length idx = length ds1 -> Forall (fun d => (0 <= d)%Z) ds2 ->
  (forall jdx, InDims jdx ds2 ->
     getitem zero s en (PStr (e_name e) :: map (fun i => PInt i) (idx ++ jdx)) st = Ok (f jdx)) ->
  getitem zero s en (PStr (e_name e) :: map (fun i => PInt i) idx) st = Ok (nested ds2 f).
Proof. exact (pending_nested zero). Qed.

Theorem C14_pending_negative : forall s (en : env) e ds1 d ds2 idx (st : pstate),
  Wf s -> In e (s_entries s) -> e_dims e = ds1 ++ d :: ds2 -> length idx = length ds1 -> (d < 0)%Z ->
  getitem zero s en (PStr (e_name e) :: map (fun i => PInt i) idx) st = Err EException.
Proof. exact (pending_negative zero). Qed.

(** C15 *)
Theorem C15_ellipsis_read : forall s (en : env) rest (st : pstate),
  getitem zero s en (PEll :: rest) st = rmap (@RList T) (rmapM (fun k => getitem zero s en (PStr k :: rest) st) (s_keys s)).
Proof. exact (ellipsis_read zero). Qed.

Theorem C15_dict_read : forall s (en : env) rest (st : pstate),
  Wf s ->
  getitem zero s en (PDict :: rest) st = rmap (@RDict T) (rmapM (pair_with zero s en rest st) (map e_name (s_entries s))).
Proof. exact (dict_read zero). Qed.

Theorem C15_set_read : forall s (en : env) names rest (st : pstate),
  NoDup names ->
  getitem zero s en (PSet names :: rest) st = rmap (@RDict T) (rmapM (pair_with zero s en rest st) names).
Proof. exact (set_read zero). Qed.

Theorem C15_unknown_name : forall s (en : env) md n rest p (st : pstate),
  Wf s -> ~ In n (map e_name (s_entries s)) ->
  travS zero s en md (PStr n :: rest) [] p st = (st, Err EException).
Proof. exact (unknown_name zero). Qed.

(** C16 *)
Theorem C16_names_read_partial : forall s c (st : pstate) names,
  Obj s c st ->
  (forall n, In n names -> exists e, In e (s_entries s) /\ e_name e = n /\ e_dims e = [] /\ e_symm e = false) ->
  getitem zero s (num_env c) [PLst (map KS names)] st =
  rmap (@RList T) (rmapM (fun n => getitem zero s (num_env c) [PStr n] st) names).
Proof. exact (names_read zero). Qed.

(** C17 *)
Theorem C17_write_back_partial : forall s c (st : pstate) pi R,
  Obj s c st -> NoSymm s -> initial pi ->
  getitem zero s (num_env c) pi st = Ok R ->
  exists r, setitem zero s (num_env c) pi (pay_of R) st = (st, Ok r).
Proof. exact (write_back zero). Qed.

(** C18 *)
Theorem C18_list_write : forall s (en : env) (st : pstate) e ds1 d ds2 idx rest p,
  Wf s -> In e (s_entries s) -> e_dims e = ds1 ++ d :: ds2 -> length idx = length ds1 -> (0 <= d)%Z ->
  done (setitem zero s en (PStr (e_name e) :: map (fun i => PInt i) idx ++ PSlc slice_all :: rest) p st) =
  write_seq zero s en (map (write_at e idx rest p) (seq 0 (Z.to_nat d))) st.
Proof. exact (list_write zero). Qed.

Theorem C18_list_write_reads : forall s c (st st' : pstate) e ds1 d idx p r,
  Obj s c st -> In e (s_entries s) -> e_symm e = false -> e_dims e = ds1 ++ [d] -> InDims idx ds1 ->
  (0 <= d)%Z -> (forall i q, item p i = Some q -> pay_ok q) ->
  setitem zero s (num_env c) (PStr (e_name e) :: map (fun i => PInt i) idx ++ [PSlc slice_all]) p st = (st', Ok r) ->
  forall i m, i < Z.to_nat d ->
  i_get zero s (PStr (e_name e) :: map (fun i => PInt i) idx ++ [PInt (Z.of_nat i)]) = Ok (@RIdx T m) ->
  exists q M R, item p i = Some q /\ to_mtype q = Ok M /\ fits M (dm_sp m) /\
    getitem zero s (num_env c) (PStr (e_name e) :: map (fun i => PInt i) idx ++ [PInt (Z.of_nat i)]) st' = Ok (RMat R) /\
    dm_sp R = dm_sp m /\ (forall x, In x (sp_pat (dm_sp m)) -> dm_at R x = Some (fit zero M (dm_sp m) x)) /\
    (dm_sp M = dm_sp m -> R = M).
Proof. exact (list_write_reads zero). Qed.

Theorem C18_list_write_short : forall s (en : env) (st : pstate) e ds1 d ds2 idx rest l,
  Wf s -> In e (s_entries s) -> e_dims e = ds1 ++ d :: ds2 -> length idx = length ds1 -> (Z.of_nat (length l) < d)%Z ->
  snd (setitem zero s en (PStr (e_name e) :: map (fun i => PInt i) idx ++ PSlc slice_all :: rest) (PayList l) st) = Err EException.
Proof. exact (list_write_short zero). Qed.

Theorem C18_list_write_extra : forall s (en : env) (st : pstate) e ds1 d ds2 idx rest l l',
  Wf s -> In e (s_entries s) -> e_dims e = ds1 ++ d :: ds2 -> length idx = length ds1 -> Z.of_nat (length l) = d ->
  done (setitem zero s en (PStr (e_name e) :: map (fun i => PInt i) idx ++ PSlc slice_all :: rest) (PayList (l ++ l')) st) =
  done (setitem zero s en (PStr (e_name e) :: map (fun i => PInt i) idx ++ PSlc slice_all :: rest) (PayList l) st).
Proof. exact (list_write_extra zero). Qed.

Theorem C18_broadcast_write : forall s (en : env) (st : pstate) e ds1 d ds2 idx rest p v,
  Wf s -> In e (s_entries s) -> e_dims e = ds1 ++ d :: ds2 -> length idx = length ds1 -> (0 <= d)%Z ->
  (p = PayRep v \/ (p = v /\ match v with PayList _ | PayRep _ => False | _ => True end)) ->
  done (setitem zero s en (PStr (e_name e) :: map (fun i => PInt i) idx ++ PSlc slice_all :: rest) p st) =
  done (setitem zero s en (PStr (e_name e) :: map (fun i => PInt i) idx ++ PSlc slice_all :: rest) (PayList (repeat v (Z.to_nat d))) st).
Proof. exact (broadcast_write zero). Qed.

(** C19 *)
Theorem C19_single_write_atomic_partial : forall s c (st st' : pstate) ci e rest v x,
  Wf s -> At s ci e -> e_struct e = None -> e_symm e = false ->
  setitem zero s (num_env c) (pidx ci ++ rest) v st = (st', Err x) -> st' = st.
Proof. exact (single_write_atomic zero). Qed.

(** C26 *)
Theorem C26_symm_read : forall s c (st : pstate) ci e n orig,
  Obj s c st -> At s ci e -> SymmEntry e n orig ->
  exists R, getitem zero s (num_env c) (pidx ci) st = Ok (RMat R) /\ DmOk R /\ dm_shape R = (n, n) /\
    (forall a b, dm_at R (a, b) = dm_at R (b, a)) /\
    (forall a b, a <= b -> (dm_at R (a, b) <> None <-> In (a, b) (sp_pat orig))).
Proof. exact (symm_read zero). Qed.

Theorem C26_symm_write : forall s c (st : pstate) ci e n orig v P,
  Obj s c st -> At s ci e -> SymmEntry e n orig -> pay_ok v -> to_mtype v = Ok P -> dm_sp P = orig ->
  exists st' r R, setitem zero s (num_env c) (pidx ci) v st = (st', Ok r) /\
    getitem zero s (num_env c) (pidx ci) st' = Ok (RMat R) /\
    (forall a b, a <= b -> dm_at R (a, b) = dm_at P (a, b) /\ dm_at R (b, a) = dm_at P (a, b)) /\
    ((forall a b, dm_at P (a, b) = dm_at P (b, a)) -> R = P) /\
    (forall ii, i_get zero s (pidx ci) = Ok ii -> unchanged (positions ii) st st').
Proof. exact (symm_write zero). Qed.

Theorem C26_symm_write_mismatch : forall s c (st : pstate) ci e n orig v P,
  Obj s c st -> At s ci e -> SymmEntry e n orig -> to_mtype v = Ok P -> dm_is_scalar P = false -> dm_sp P <> orig ->
  setitem zero s (num_env c) (pidx ci) v st = (st, Err EException).
Proof. exact (symm_write_mismatch zero). Qed.

(** C27 *)
Theorem C27_symm_element_write : forall s c (st : pstate) ci e n orig v P a b i j,
  Obj s c st -> At s ci e -> SymmEntry e n orig -> pay_ok v -> to_mtype v = Ok P -> dm_is_scalar P = true ->
  norm_index n a = Ok i -> norm_index n b = Ok j ->
  exists st' r R R', setitem zero s (num_env c) (pidx ci ++ [PInt a; PInt b]) v st = (st', Ok r) /\
    getitem zero s (num_env c) (pidx ci) st = Ok (RMat R) /\
    getitem zero s (num_env c) (pidx ci) st' = Ok (RMat R') /\
    (dm_at R (i, j) <> None -> dm_at R' (i, j) = Some (dm_val zero P (0, 0)) /\ dm_at R' (j, i) = Some (dm_val zero P (0, 0))) /\
    (forall p, p <> (i, j) -> p <> (j, i) -> dm_at R' p = dm_at R p) /\
    (dm_at R (i, j) = None -> R' = R) /\
    (forall ii, i_get zero s (pidx ci) = Ok ii -> unchanged (positions ii) st st').
Proof. exact (symm_element_write zero). Qed.

Theorem C27_symm_element_read_partial : forall s c (st : pstate) ci e n orig R a b i j,
  Obj s c st -> At s ci e -> SymmEntry e n orig ->
  norm_index n a = Ok i -> norm_index n b = Ok j ->
  getitem zero s (num_env c) (pidx ci) st = Ok (RMat R) ->
  exists E, getitem zero s (num_env c) (pidx ci ++ [PInt a; PInt b]) st = Ok (RMat E) /\ dm_shape E = (1, 1) /\
    dm_at E (0, 0) = if i <=? j then dm_at R (i, j) else None.
Proof. exact (symm_element_read zero). Qed.

(** C28 *)
Theorem C28_extra_read2 : forall s c (st : pstate) ci e R a b sa sb,
  Obj s c st -> At s ci e -> e_struct e = None -> e_symm e = false -> sel_of a = Some sa -> sel_of b = Some sb ->
  getitem zero s (num_env c) (pidx ci) st = Ok (RMat R) ->
  getitem zero s (num_env c) (pidx ci ++ [a; b]) st = wrapE (rmap (@RMat T) (dm_get2 R sa sb)).
Proof. exact (extra_read2 zero). Qed.

Theorem C28_extra_read1 : forall s c (st : pstate) ci e R a sa,
  Obj s c st -> At s ci e -> e_struct e = None -> e_symm e = false -> sel_of a = Some sa ->
  getitem zero s (num_env c) (pidx ci) st = Ok (RMat R) ->
  getitem zero s (num_env c) (pidx ci ++ [a]) st = wrapE (rmap (@RMat T) (dm_get1 R sa)).
Proof. exact (extra_read1 zero). Qed.

Theorem C28_extra_write : forall s c (st st' : pstate) ci e ex m' v M r,
  Obj s c st -> At s ci e -> e_struct e = None -> e_symm e = false -> ex <> [] ->
  Forall (fun p => match p with PFun _ => False | _ => True end) ex ->
  i_get zero s (pidx ci ++ ex) = Ok (@RIdx T m') -> NoDup (dm_nz m') ->
  pay_ok v -> to_mtype v = Ok M ->
  setitem zero s (num_env c) (pidx ci ++ ex) v st = (st', Ok r) ->
  fits M (dm_sp m') /\
  length (ps_master st') = length (ps_master st) /\
  (forall k, ~ In k (dm_nz m') -> nth_error (ps_master st') k = nth_error (ps_master st) k) /\
  exists R, getitem zero s (num_env c) (pidx ci ++ ex) st' = Ok (RMat R) /\ dm_sp R = dm_sp m' /\
    (forall p, In p (sp_pat (dm_sp m')) -> dm_at R p = Some (fit zero M (dm_sp m') p)).
Proof. exact (extra_write zero). Qed.

End Props.

(** Refuted statements *)
Open Scope Z_scope.
Theorem C11_writes_symm_refuted : exists s c (st st' : pstate Z) pi v rr r k,
  Obj s c st /\ no_fun pi /\ i_get 0 s pi = Ok rr /\ set s c pi v st = (st', r) /\
  ~ In k (positions rr) /\ nth_error (ps_master st') k <> nth_error (ps_master st) k.
Proof. exact writes_symm_refuted. Qed.

Theorem C12_out_of_range_empty_refuted : exists s c (st : pstate Z) e d ds i,
  Obj s c st /\ In e (s_entries s) /\ e_dims e = d :: ds /\ ~ (- d <= i < d) /\
  get s c [PStr (e_name e); PInt i] st = Ok (RList []).
Proof. exact out_of_range_empty. Qed.

Theorem C16_names_repeat_refuted : exists s c (st : pstate Z) n l,
  Obj s c st /\ In n (map e_name (s_entries s)) /\ get s c [PStr n] st = Ok (RList l) /\
  get s c [PLst [KS n]] st = Err EException.
Proof. exact names_repeat_refuted. Qed.

Theorem C16_names_symm_refuted : exists s c (st : pstate Z) n R R',
  Obj s c st /\ In n (map e_name (s_entries s)) /\ get s c [PStr n] st = Ok (RMat R) /\
  get s c [PLst [KS n]] st = Ok (RList [RMat R']) /\ R <> R'.
Proof. exact names_symm_refuted. Qed.

Theorem C17_write_back_reversed_refuted : exists s c (st st' : pstate Z) pi R r,
  Obj s c st /\ NoSymm s /\ get s c pi st = Ok R /\ set s c pi (pay_of R) st = (st', Ok r) /\ st' <> st.
Proof. exact write_back_reversed. Qed.

Theorem C17_write_back_offset_refuted : exists s c (st st' : pstate Z) pi R,
  Obj s c st /\ NoSymm s /\ get s c pi st = Ok R /\ set s c pi (pay_of R) st = (st', Err EException) /\ st' <> st.
Proof. exact write_back_offset. Qed.

Theorem C19_not_atomic_refuted : exists s c (st st' : pstate Z) pi v x,
  Obj s c st /\ NoSymm s /\ set s c pi v st = (st', Err x) /\ st' <> st.
Proof. exact not_atomic. Qed.

Theorem C27_symm_lower_read_refuted : exists s c (st : pstate Z) ci e n orig R E i j,
  Obj s c st /\ At s ci e /\ SymmEntry e n orig /\
  get s c (pidx ci) st = Ok (RMat R) /\
  get s c (pidx ci ++ [PInt (Z.of_nat i); PInt (Z.of_nat j)]) st = Ok (RMat E) /\
  dm_val 0 R (i, j) <> dm_val 0 E (0, 0)%nat.
Proof. exact symm_lower_read_refuted. Qed.

Print Assumptions C10_read_after_write.
Print Assumptions C10_write_succeeds_iff.
Print Assumptions C11_writes_local_partial.
Print Assumptions C11_reads_local.
Print Assumptions C11_write_disjoint_read_partial.
Print Assumptions C12_negative_canonical.
Print Assumptions C12_out_of_range_partial.
Print Assumptions C12_int_accepted_iff_partial.
Print Assumptions C12_int_accepted_block_partial.
Print Assumptions C13_slice_read.
Print Assumptions C13_slice_step0.
Print Assumptions C14_pending_colons.
Print Assumptions C14_pending_nested.
Print Assumptions C14_pending_negative.
Print Assumptions C15_ellipsis_read.
Print Assumptions C15_dict_read.
Print Assumptions C15_set_read.
Print Assumptions C15_unknown_name.
Print Assumptions C16_names_read_partial.
Print Assumptions C17_write_back_partial.
Print Assumptions C18_list_write.
Print Assumptions C18_list_write_reads.
Print Assumptions C18_list_write_short.
Print Assumptions C18_list_write_extra.
Print Assumptions C18_broadcast_write.
Print Assumptions C19_single_write_atomic_partial.
Print Assumptions C26_symm_read.
Print Assumptions C26_symm_write.
Print Assumptions C26_symm_write_mismatch.
Print Assumptions C27_symm_element_write.
Print Assumptions C27_symm_element_read_partial.
Print Assumptions C28_extra_read2.
Print Assumptions C28_extra_read1.
Print Assumptions C28_extra_write.
Print Assumptions C11_writes_symm_refuted.
Print Assumptions C12_out_of_range_empty_refuted.
Print Assumptions C16_names_repeat_refuted.
Print Assumptions C16_names_symm_refuted.
Print Assumptions C17_write_back_reversed_refuted.
Print Assumptions C17_write_back_offset_refuted.
Print Assumptions C19_not_atomic_refuted.
Print Assumptions C27_symm_lower_read_refuted.
