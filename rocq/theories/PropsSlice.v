(** Property theorems about assignments through slices and lists (C17-C19), lists of names (C16, C88), short indices (C12),
    symmetric entries (C11), restored objects (C33) and the interpolator 'left' (C59). *)
From Coq Require Import ZArith.
From Coq Require Import Reals.
From Coquelicot Require Import Coquelicot.
From Verif Require Import PyBase IndexModel DMModel StructModel StructSpec PowerModel PowerSpec
  LayoutProofs LayoutThms LayoutExamples DMProofs PowerProofs PowerThms SliceProofs PowerThms4 PowerThms5 PowerExamples
  EntryModel EntrySpec StructsModel StructsSpec StructsThms5
  NumModel NumInst NumSpec PolynomialModel PiecewiseModel PdqModel PolySpec PdqSpec PdqThms PdqThms3 PolynomialExamples PdqExamples
  SliceWriteThms PrefixThms SymFrameThms NamesThms PickleWriteThms PdqLeftThms SliceWriteExamples NamesExamples PdqLeftExamples.
Open Scope list_scope.
Open Scope nat_scope.

Section P.
Context (T : Type) (zero : T).
Notation rval := (rval T).
Notation pay := (pay T).
Notation pel := (pel T).
Notation env := (env T).
Notation pstate := (pstate T).
Notation elem := (@elem T zero).
Notation Wrote := (@Wrote T zero).
Notation OwnBlock := (@OwnBlock T zero).

Theorem C11_writes_local_symm : forall s c (st st' : pstate) pi v rr r,
  Wf s -> casadi_structure s = Ok c -> no_fun pi -> names_end pi -> i_get zero s pi = Ok rr ->
  setitem zero s (num_env c) pi v st = (st', r) ->
  length (ps_master st') = length (ps_master st) /\
  forall k, ~ In k (positions rr) -> ~ InSymm s c k -> nth_error (ps_master st') k = nth_error (ps_master st) k.
Proof. exact (@writes_local_symm T zero). Qed.

Theorem C12_prefix_out_of_range : forall s c (st : pstate) e ds1 ds2 idx v,
  Obj s c st -> In e (s_entries s) -> e_dims e = ds1 ++ ds2 -> length idx = length ds1 ->
  ~ Forall2 (fun i d => (- d <= i < d)%Z) idx ds1 ->
  let ix := PStr (e_name e) :: map (fun i => PInt i) idx in
  fst (setitem zero s (num_env c) ix v st) = st /\
  (Forall (fun d => (0 < d)%Z) ds2 ->
     getitem zero s (num_env c) ix st = Err EException /\ setitem zero s (num_env c) ix v st = (st, Err EException)).
Proof. exact (@prefix_out_of_range T zero). Qed.

Theorem C12_prefix_accepted : forall s c (st : pstate) e ds1 ds2 idx,
  Obj s c st -> In e (s_entries s) -> e_struct e = None -> e_symm e = false -> e_dims e = ds1 ++ ds2 -> length idx = length ds1 ->
  Forall (fun d => (0 <= d)%Z) ds2 ->
  let ix := PStr (e_name e) :: map (fun i => PInt i) idx in
  ((exists R, getitem zero s (num_env c) ix st = Ok R) <-> Forall2 (fun i d => (- d <= i < d)%Z) idx ds1 \/ In 0%Z ds2) /\
  (In 0%Z ds2 -> getitem zero s (num_env c) ix st = Ok (nested ds2 (fun _ => RNone))).
Proof. exact (@prefix_accepted T zero). Qed.

Theorem C16_names_read_exact : forall s c (st : pstate) names,
  Obj s c st ->
  ((exists R, getitem zero s (num_env c) [PLst (map KS names)] st = Ok R) <->
     Forall (fun n => exists m, i_get zero s [PStr n] = Ok (@RIdx T m)) names) /\
  ((exists Ms, getitem zero s (num_env c) [PLst (map KS names)] st = Ok (RList (map (@RMat T) Ms)) /\ Forall2 (OwnBlock s st) names Ms) \/
   getitem zero s (num_env c) [PLst (map KS names)] st = Err EException).
Proof. exact (@names_read_exact T zero). Qed.

Theorem C16_own_block_plain : forall s c (st : pstate) e M,
  Obj s c st -> In e (s_entries s) -> e_symm e = false ->
  OwnBlock s st (e_name e) M -> getitem zero s (num_env c) [PStr (e_name e)] st = Ok (RMat M).
Proof. exact (@own_block_plain T zero). Qed.

Theorem C16_own_block_symm : forall s c (st : pstate) e n orig M,
  Obj s c st -> In e (s_entries s) -> SymmEntry e n orig ->
  OwnBlock s st (e_name e) M ->
  exists R, getitem zero s (num_env c) [PStr (e_name e)] st = Ok (RMat R) /\
    (forall i j, i <= j -> dm_at M (i, j) = dm_at R (i, j) /\ dm_at M (i, j) = dm_at R (j, i)) /\
    (forall i j, j < i -> dm_at M (i, j) = None).
Proof. exact (@own_block_symm T zero). Qed.

Theorem C17_slice_back : forall s c (st : pstate) e ds1 d idx sl,
  Obj s c st -> In e (s_entries s) -> e_symm e = false -> e_struct e = None -> e_dims e = ds1 ++ [d] -> InDims idx ds1 -> (0 <= d)%Z -> sl_step sl <> Some 0%Z ->
  let ps := py_slice_positions d sl in
  let ix := PStr (e_name e) :: map (fun i => PInt i) idx ++ [PSlc sl] in
  exists R st' r, getitem zero s (num_env c) ix st = Ok R /\ setitem zero s (num_env c) ix (pay_of R) st = (st', r) /\
  exists pre post, ps = pre ++ post /\
    ((exists v, r = Ok v) <-> post = []) /\ (post <> [] -> r = Err EException) /\
    st' = with_master st (ps_master st') /\ length (ps_master st') = length (ps_master st) /\
    (forall i post', post = i :: post' -> (Z.of_nat (length ps) <= i)%Z) /\
    (forall i, In i pre -> exists j, nth_error ps (Z.to_nat i) = Some j /\ elem s c (e_name e) idx st' i = elem s c (e_name e) idx st j) /\
    (forall k, (forall i m, In i pre -> i_get zero s (PStr (e_name e) :: map (fun i => PInt i) idx ++ [PInt i]) = Ok (@RIdx T m) -> ~ In k (dm_nz m)) ->
       nth_error (ps_master st') k = nth_error (ps_master st) k).
Proof. exact (@slice_back T zero). Qed.

Theorem C17_slice_back_accepted : forall s c (st : pstate) e ds1 d idx sl,
  Obj s c st -> In e (s_entries s) -> e_symm e = false -> e_struct e = None -> e_dims e = ds1 ++ [d] -> InDims idx ds1 -> (0 <= d)%Z -> sl_step sl <> Some 0%Z ->
  let ps := py_slice_positions d sl in
  let k := Z.of_nat (length ps) in
  let ix := PStr (e_name e) :: map (fun i => PInt i) idx ++ [PSlc sl] in
  exists R st' r, getitem zero s (num_env c) ix st = Ok R /\ setitem zero s (num_env c) ix (pay_of R) st = (st', r) /\
    ((exists v, r = Ok v) <-> ps = pyrange k \/ ps = rev (pyrange k)) /\
    ((exists v, r = Ok v) \/ r = Err EException) /\
    (ps = pyrange k -> forall i, (0 <= i < k)%Z -> elem s c (e_name e) idx st' i = elem s c (e_name e) idx st i) /\
    (ps = rev (pyrange k) -> forall i, (0 <= i < k)%Z -> elem s c (e_name e) idx st' i = elem s c (e_name e) idx st (k - 1 - i)).
Proof. exact (@slice_back_accepted T zero). Qed.

Theorem C17_slice_back_same : forall s c (st st' : pstate) e ds1 d idx sl R r,
  Obj s c st -> In e (s_entries s) -> e_symm e = false -> e_struct e = None -> e_dims e = ds1 ++ [d] -> InDims idx ds1 -> (0 <= d)%Z -> sl_step sl <> Some 0%Z ->
  let ps := py_slice_positions d sl in
  let ix := PStr (e_name e) :: map (fun i => PInt i) idx ++ [PSlc sl] in
  ps = pyrange (Z.of_nat (length ps)) ->
  getitem zero s (num_env c) ix st = Ok R -> setitem zero s (num_env c) ix (pay_of R) st = (st', r) -> st' = st.
Proof. exact (@slice_back_same T zero). Qed.

Theorem C18_slice_write : forall s (en : env) (st : pstate) e ds1 d ds2 idx sl rest p,
  Wf s -> In e (s_entries s) -> e_dims e = ds1 ++ d :: ds2 -> length idx = length ds1 -> (0 <= d)%Z -> sl_step sl <> Some 0%Z ->
  done (setitem zero s en (PStr (e_name e) :: map (fun i => PInt i) idx ++ PSlc sl :: rest) p st) =
  write_seq zero s en (map (write_at_z e idx rest p) (py_slice_positions d sl)) st.
Proof. exact (@slice_write T zero). Qed.

Theorem C18_slice_write_step0 : forall s (en : env) (st : pstate) e ds1 d ds2 idx a b rest p,
  Wf s -> In e (s_entries s) -> e_dims e = ds1 ++ d :: ds2 -> length idx = length ds1 ->
  setitem zero s en (PStr (e_name e) :: map (fun i => PInt i) idx ++ PSlc (Slc a b (Some 0%Z)) :: rest) p st = (st, Err EException).
Proof. exact (@slice_write_step0 T zero). Qed.

Theorem C18_ints_write : forall s (en : env) (st : pstate) e ds1 d ds2 idx l rest p,
  Wf s -> In e (s_entries s) -> e_dims e = ds1 ++ d :: ds2 -> length idx = length ds1 ->
  done (setitem zero s en (PStr (e_name e) :: map (fun i => PInt i) idx ++ PLst (map KI l) :: rest) p st) =
  write_seq zero s en (map (write_at_z e idx rest p) l) st.
Proof. exact (@ints_write T zero). Qed.

Theorem C19_slice_write_exact : forall s c (st st' : pstate) e ds1 d idx sl p r,
  Obj s c st -> In e (s_entries s) -> e_symm e = false -> e_dims e = ds1 ++ [d] -> InDims idx ds1 -> (0 <= d)%Z -> sl_step sl <> Some 0%Z ->
  (forall i q, item_at p i = Some q -> pay_ok q) ->
  setitem zero s (num_env c) (PStr (e_name e) :: map (fun i => PInt i) idx ++ [PSlc sl]) p st = (st', r) ->
  Wrote s c (e_name e) idx p (py_slice_positions d sl) st st' r.
Proof. exact (@slice_write_exact T zero). Qed.

Theorem C19_ints_write_exact : forall s c (st st' : pstate) e ds1 d idx l p r,
  Obj s c st -> In e (s_entries s) -> e_symm e = false -> e_dims e = ds1 ++ [d] -> InDims idx ds1 ->
  (forall i, In i l -> (0 <= i < d)%Z) -> NoDup l ->
  (forall i q, item_at p i = Some q -> pay_ok q) ->
  setitem zero s (num_env c) (PStr (e_name e) :: map (fun i => PInt i) idx ++ [PLst (map KI l)]) p st = (st', r) ->
  Wrote s c (e_name e) idx p l st st' r.
Proof. exact (@ints_write_exact T zero). Qed.

Theorem C33_restored_accepts : forall s c (v : list T) o' pi p r,
  Wf s -> casadi_structure s = Ok c -> length v = cs_size c ->
  unpickle_obj (plain_obj c v) = Ok o' -> snd (so_set zero o' pi p) = Ok r ->
  snd (so_set zero (plain_obj c v) pi p) = Ok r /\ so_cat (fst (so_set zero (plain_obj c v) pi p)) = so_cat (fst (so_set zero o' pi p)).
Proof. exact (@restored_accepts T zero). Qed.

Theorem C33_restored_symm : forall s c (v : list T) o' ci e ex p M,
  Wf s -> casadi_structure s = Ok c -> length v = cs_size c ->
  unpickle_obj (plain_obj c v) = Ok o' -> At s ci e -> e_symm e = true -> e_struct e = None -> to_mtype p = Ok M ->
  (dm_is_scalar M = true ->
     snd (so_set zero o' (pidx ci ++ ex) p) = snd (so_set zero (plain_obj c v) (pidx ci ++ ex) p) /\
     so_cat (fst (so_set zero o' (pidx ci ++ ex) p)) = so_cat (fst (so_set zero (plain_obj c v) (pidx ci ++ ex) p))) /\
  (dm_is_scalar M = false ->
     snd (so_set zero o' (pidx ci ++ ex) p) = Err EException /\ so_cat (fst (so_set zero o' (pidx ci ++ ex) p)) = v).
Proof. exact (@restored_symm T zero). Qed.

Theorem C88_names_write_partial : forall s c (st : pstate) pre post p,
  Wf s -> casadi_structure s = Ok c ->
  Forall (fun n => (exists m, i_get zero s [PStr n] = Ok (@RIdx T m)) /\ exists e, In e (s_entries s) /\ e_name e = n /\ e_symm e = false) pre ->
  (post = [] \/ exists n l, post = n :: l /\ forall m, i_get zero s [PStr n] <> Ok (@RIdx T m)) ->
  done (setitem zero s (num_env c) [PLst (map KS (pre ++ post))] p st) =
  let (st', b) := write_seq zero s (num_env c) (name_writes p 0 pre) st in
  (st', b && match post with [] => true | _ => false end).
Proof. exact (@names_write T zero). Qed.

Theorem C88_names_write_symm : forall s c (st : pstate) e n orig p v P,
  Obj s c st -> In e (s_entries s) -> e_dims e = [] -> SymmEntry e n orig -> item p 0 = Some v -> pay_ok v -> to_mtype v = Ok P ->
  let ix := [PLst (map KS [e_name e])] in
  (~ fits P (e_sp e) -> setitem zero s (num_env c) ix p st = (st, Err EException)) /\
  (fits P (e_sp e) -> exists st' r R, setitem zero s (num_env c) ix p st = (st', Ok r) /\
     getitem zero s (num_env c) [PStr (e_name e)] st' = Ok (RMat R) /\ dm_shape R = (n, n) /\
     (forall i j, i <= j -> In (i, j) (sp_pat orig) -> dm_at R (i, j) = Some (fit zero P (e_sp e) (i, j)) /\ dm_at R (j, i) = Some (fit zero P (e_sp e) (i, j))) /\
     (forall ii, i_get zero s [PStr (e_name e)] = Ok ii -> unchanged (positions ii) st st')).
Proof. exact (@names_write_symm T zero). Qed.

Theorem C88_names_then_int : forall s c (st : pstate) n names i rest v,
  let ix := PLst (map KS (n :: names)) :: PInt i :: rest in
  getitem zero s (num_env c) ix st = Err EException /\ setitem zero s (num_env c) ix v st = (st, Err EException).
Proof. exact (@names_then_int T zero). Qed.

Theorem C88_names_then_name : forall s c (st : pstate) n names k rest v,
  Wf s -> ~ In k (map e_name (s_entries s)) ->
  let ix := PLst (map KS (n :: names)) :: PStr k :: rest in
  getitem zero s (num_env c) ix st = Err EException /\ setitem zero s (num_env c) ix v st = (st, Err EException).
Proof. exact (@names_then_name T zero). Qed.

End P.

Theorem C88_names_write_symm_refuted : exists s c (st st' : pstate Z) n M r,
  Obj s c st /\ In n (map e_name (s_entries s)) /\
  set s c [PStr n] (PayMat M) st = (st, Err EException) /\ set s c [PLst [KS n]] (PayList [PayMat M]) st = (st', Ok r) /\ st' <> st.
Proof. exact names_write_symm_refuted. Qed.

Theorem C88_names_rest_refuted : exists s c (st : pstate Z) n k R n' R',
  Obj s c st /\ get s c [PStr n; PInt k] st = Ok R /\ get s c [PLst [KS n]; PInt k] st = Err EException /\
  get s c [PStr n'; PStr "p"] st = Ok R' /\ get s c [PLst [KS n']; PStr "p"] st = Err EException.
Proof. exact names_rest_refuted. Qed.

Section Left.
Open Scope R_scope.
Context (colpts : nat -> string -> res (list R)) (t : list R) (order : nat) (ptype : string) (tau : list R) (p : pdq R).
Context (HB : Bounds t) (Ho : (1 <= order)%nat) (Ec : colpts order ptype = Ok tau) (HN : Nodes order tau) (Ep : pdq_ colpts t order ptype = Ok p).

Theorem C59_left_exact : exists q, pq_interpolator p "left" = Ok q /\ forall x ts, nc x = (ivals t * order)%nat -> ts <> [] ->
  ((exists k, (k < length ts)%nat /\ InInterval t (node ts k) (ivals t - 1)) -> pi_call q x (PVec ts) = Err EIndex) /\
  ((forall k, (k < length ts)%nat -> ~ InInterval t (node ts k) (ivals t - 1)) ->
   exists M, pi_call q x (PVec ts) = Ok M /\ nr M = nr x /\ nc M = length ts /\
    forall k i r f, (k < length ts)%nat -> InInterval t (node ts k) i -> PolyLt order f ->
      (forall j, (j < order)%nat -> f (node (pq_pts p) (i * order + 1 + j)) = at_m x r (i * order + 1 + j)) -> at_m M r k = f (node ts k)).
Proof. exact (left_exact colpts t order ptype tau p HB Ho Ec HN Ep). Qed.

Theorem C59_left_data : exists q, pq_interpolator p "left" = Ok q /\ forall x i j, nc x = (ivals t * order)%nat ->
  (i < ivals t - 1)%nat -> (0 < j < order)%nat -> let k := (i * order + j)%nat in
  exists M, pi_call q x (PVec [node (pq_pts p) k]) = Ok M /\ nr M = nr x /\ nc M = 1%nat /\ forall r, at_m M r 0 = at_m x r k.
Proof. exact (left_data colpts t order ptype tau p HB Ho Ec HN Ep). Qed.

Close Scope R_scope.
End Left.

Open Scope R_scope.
Theorem C59_left_shift_refuted : exists p q x M, pdq_ (collocation_points cos PI radau2) [0; 1; 3] 2 "radau" = Ok p /\ pq_interpolator p "left" = Ok q /\ nc x = (length (pq_pts p) - 1)%nat /\
  pi_call q x (PVec [node (pq_pts p) 1]) = Ok M /\ at_m M 0 0 = at_m x 0 1 /\ at_m x 0 1 <> at_m x 0 0.
Proof. exact left_shift_refuted. Qed.

Print Assumptions C11_writes_local_symm.
Print Assumptions C12_prefix_out_of_range.
Print Assumptions C12_prefix_accepted.
Print Assumptions C16_names_read_exact.
Print Assumptions C16_own_block_plain.
Print Assumptions C16_own_block_symm.
Print Assumptions C17_slice_back.
Print Assumptions C17_slice_back_accepted.
Print Assumptions C17_slice_back_same.
Print Assumptions C18_slice_write.
Print Assumptions C18_slice_write_step0.
Print Assumptions C18_ints_write.
Print Assumptions C19_slice_write_exact.
Print Assumptions C19_ints_write_exact.
Print Assumptions C33_restored_accepts.
Print Assumptions C33_restored_symm.
Print Assumptions C88_names_write_partial.
Print Assumptions C88_names_write_symm.
Print Assumptions C88_names_then_int.
Print Assumptions C88_names_then_name.
Print Assumptions C88_names_write_symm_refuted.
Print Assumptions C88_names_rest_refuted.
Print Assumptions C59_left_exact.
Print Assumptions C59_left_data.
Print Assumptions C59_left_shift_refuted.
