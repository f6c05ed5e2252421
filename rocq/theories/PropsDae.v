(** Property theorems about inequalities and DAE models (C36-C42). *)
From Coq Require Import Reals.
From Verif Require Import PyBase IndexModel DMModel StructModel StructSpec PowerModel DMProofs EntryModel EntrySpec StructsModel StructsSpec
  IneqModel IneqSpec IneqThms IneqExamples DaeModel DaeSpec DaeThms DaeExamples.
Open Scope nat_scope.

Section Props.
Context {A X : Type} (leA : A -> A -> Prop) (a0 : A) (sym : string -> nat * nat -> X -> xnum A).
Notation xle := (xle leA).
Notation Sat := (Sat leA a0).
Notation z := (@Fin A a0).
Notation fz := (fun _ : X => @Fin A a0).
Notation ineq := (ineq A X).
Notation Stored := (Stored a0).
Notation SatNz := (SatNz leA a0).
Notation picks := (picks a0).

Theorem C36_inequality_iff : forall (e : ex A X) lb ub nom,
  (exists i, inequality_ e lb ub nom = Ok i) <-> ShapeOk e lb /\ ShapeOk e ub /\ ShapeOk e nom.
Proof. first [exact inequality_iff | exact (inequality_iff a0) | exact (inequality_iff leA a0) | exact (inequality_iff a0 sym) | exact (inequality_iff leA a0 sym)]. Qed.

Theorem C36_inequality_fields : forall (e : ex A X) lb ub nom i,
  ArgOk lb -> ArgOk ub -> ArgOk nom -> inequality_ e lb ub nom = Ok i ->
  iq_expr i = e /\ iq_numel i = fst (ex_shape e) * snd (ex_shape e) /\
  Stored (iq_lb i) e lb NInf /\ Stored (iq_ub i) e ub PInf /\
  match iq_nom i with None => nom = ANone | Some n => nom <> ANone /\ Stored n e nom NaN end.
Proof. first [exact inequality_fields | exact (inequality_fields a0) | exact (inequality_fields leA a0) | exact (inequality_fields a0 sym) | exact (inequality_fields leA a0 sym)]. Qed.

Theorem C36_inequality_free : forall (e : ex A X) nom i x m,
  ExOk e -> ArgOk nom -> inequality_ e ANone ANone nom = Ok i -> ex_mat e = Ok m ->
  (Sat i x <-> forall r c, r < fst (ex_shape e) -> c < snd (ex_shape e) -> elem fz m r c x <> NaN).
Proof. first [exact inequality_free | exact (inequality_free a0) | exact (inequality_free leA a0) | exact (inequality_free a0 sym) | exact (inequality_free leA a0 sym)]. Qed.

Theorem C36_bounded_variable_spec : forall n lb ub (nom : barg A) i,
  ArgOk lb -> ArgOk ub -> ArgOk nom -> bounded_variable sym n lb ub nom = Ok i ->
  exists sh m, arg_shape nom = Some sh /\ ex_mat (iq_expr i) = Ok m /\ dm_shape m = sh /\
    (forall r c, r < fst sh -> c < snd sh -> elem fz m r c = sym n (r, c)) /\
    Stored (iq_lb i) (iq_expr i) lb NInf /\ Stored (iq_ub i) (iq_expr i) ub PInf /\
    exists b, iq_nom i = Some b /\ Stored b (iq_expr i) nom NaN.
Proof. first [exact bounded_variable_spec | exact (bounded_variable_spec a0) | exact (bounded_variable_spec leA a0) | exact (bounded_variable_spec a0 sym) | exact (bounded_variable_spec leA a0 sym)]. Qed.

Theorem C37_vertcat_list_spec : forall a l nc,
  Joinable (a :: l) nc ->
  exists r m b, vertcat_list a l = Ok r /\ ex_mat (iq_expr r) = Ok m /\ iq_nom r = Some b /\
    rows r = row_off (a :: l) (S (length l)) /\ snd (ex_shape (iq_expr r)) = nc /\
    (forall k i, nth_error (a :: l) k = Some i ->
       (exists mi, ex_mat (iq_expr i) = Ok mi /\ holds_at fz m mi (row_off (a :: l) k)) /\
       holds_at z (bd_mat (iq_lb r)) (bd_mat (iq_lb i)) (row_off (a :: l) k) /\
       holds_at z (bd_mat (iq_ub r)) (bd_mat (iq_ub i)) (row_off (a :: l) k) /\
       exists bi, iq_nom i = Some bi /\ holds_at z (bd_mat b) (bd_mat bi) (row_off (a :: l) k)) /\
    (forall x, Sat r x <-> forall i, In i (a :: l) -> Sat i x).
Proof. first [exact vertcat_list_spec | exact (vertcat_list_spec a0) | exact (vertcat_list_spec leA a0) | exact (vertcat_list_spec a0 sym) | exact (vertcat_list_spec leA a0 sym)]. Qed.

Theorem C38_vertcat_dict_spec : forall (d : list (string * ineq)),
  NoDup (map fst d) -> (forall k i, In (k, i) d -> Made i /\ iq_nom i <> None) ->
  exists r o ol ou on, vertcat_dict a0 d = Ok r /\ iq_expr r = ExStr o /\ iq_lb r = BdStr ol /\ iq_ub r = BdStr ou /\ iq_nom r = Some (BdStr on) /\
    so_c ol = so_c o /\ so_c ou = so_c o /\ so_c on = so_c o /\ s_keys (cs_struct (so_c o)) = map fst d /\
    (forall k i, In (k, i) d -> exists m b dl du dn, ex_mat (iq_expr i) = Ok m /\ iq_nom i = Some b /\
       veccat_get fz o [PStr k] = Ok (RMat m) /\
       so_get z ol [PStr k] = Ok (RMat dl) /\ picks dl (bd_mat (iq_lb i)) (dm_sp m) /\
       so_get z ou [PStr k] = Ok (RMat du) /\ picks du (bd_mat (iq_ub i)) (dm_sp m) /\
       so_get z on [PStr k] = Ok (RMat dn) /\ picks dn (bd_mat b) (dm_sp m)) /\
    (forall x, Sat r x <-> forall k i, In (k, i) d -> SatNz i x).
Proof. first [exact vertcat_dict_spec | exact (vertcat_dict_spec a0) | exact (vertcat_dict_spec leA a0) | exact (vertcat_dict_spec a0 sym) | exact (vertcat_dict_spec leA a0 sym)]. Qed.

Theorem C38_vertcat_dict_sat_dense_partial : forall (d : list (string * ineq)) r x,
  NoDup (map fst d) -> (forall k i, In (k, i) d -> Made i /\ iq_nom i <> None /\ exists m, ex_mat (iq_expr i) = Ok m /\ dense m) ->
  vertcat_dict a0 d = Ok r -> (Sat r x <-> forall k i, In (k, i) d -> Sat i x).
Proof. first [exact vertcat_dict_sat_dense | exact (vertcat_dict_sat_dense a0) | exact (vertcat_dict_sat_dense leA a0) | exact (vertcat_dict_sat_dense a0 sym) | exact (vertcat_dict_sat_dense leA a0 sym)]. Qed.

Theorem C39_vertcat_list_needs_nominal : forall (a : ineq) l,
  (exists i, In i (a :: l) /\ iq_nom i = None) -> forall r, vertcat_list a l <> Ok r.
Proof. first [exact vertcat_list_needs_nominal | exact (vertcat_list_needs_nominal a0) | exact (vertcat_list_needs_nominal leA a0) | exact (vertcat_list_needs_nominal a0 sym) | exact (vertcat_list_needs_nominal leA a0 sym)]. Qed.

Theorem C39_vertcat_dict_needs_nominal : forall (d : list (string * ineq)),
  NoDup (map fst d) -> (forall k i, In (k, i) d -> Made i) -> (exists k i, In (k, i) d /\ iq_nom i = None) -> forall r, vertcat_dict a0 d <> Ok r.
Proof. first [exact vertcat_dict_needs_nominal | exact (vertcat_dict_needs_nominal a0) | exact (vertcat_dict_needs_nominal leA a0) | exact (vertcat_dict_needs_nominal a0 sym) | exact (vertcat_dict_needs_nominal leA a0 sym)]. Qed.

End Props.

Theorem C40_base_iff_partial : forall tid kw,
  KwOk kw -> (exists d, dae_init tid kw = Ok d) <-> BaseOk kw.
Proof. exact base_iff. Qed.

Theorem C40_struct_t : forall tid kw t,
  KwOk kw -> BaseAsks kw -> dict_get "t"%string kw = Some t -> ~ matrix t -> dae_init tid kw = Err EAttr.
Proof. exact base_struct_t. Qed.

Theorem C40_struct_t_refuted : exists kw, KwOk kw /\ BaseAsks kw /\ dae_init 9 kw = Err EAttr /\ semi_init 9 kw = Err EAttr.
Proof. exact struct_t_refuted. Qed.

Theorem C40_semi_iff_partial : forall tid kw,
  KwOk kw -> (exists d, semi_init tid kw = Ok d) <-> SemiOk kw.
Proof. exact semi_iff. Qed.

Theorem C40_impl_iff_partial : forall tid kw,
  KwOk kw -> (exists d, impl_init tid kw = Ok d) <-> ImplOk kw.
Proof. exact impl_iff. Qed.

Theorem C40_semi_fields : forall tid kw d,
  semi_init tid kw = Ok d ->
  exists ode alg, d_kind d = DSemi ode alg /\ given "ode" kw (eq ode) /\ stored_as alg "alg" kw /\
  given "x" kw (eq (d_x d)) /\ stored_as (d_z d) "z" kw /\ stored_as (d_u d) "u" kw /\ stored_as (d_p d) "p" kw /\
  stored_as (d_quad d) "quad" kw /\ stored_as (d_tdp d) "tdp" kw /\
  (match dict_get "t"%string kw with Some t => d_t d = t | None => dm_shape (mo_mat (d_t d)) = (1, 1) end).
Proof. exact semi_fields. Qed.

Theorem C40_semi_err : forall tid kw e,
  semi_init tid kw = Err e ->
  e = EValue \/ (e = EKey /\ (dict_get "x"%string kw = None \/ dict_get "ode"%string kw = None)) \/ (e = EAttr /\ given "t" kw (fun t => ~ matrix t)).
Proof. exact semi_err. Qed.

Theorem C40_impl_err : forall tid kw e,
  impl_init tid kw = Err e ->
  e = EValue \/ (e = EKey /\ (dict_get "x"%string kw = None \/ dict_get "xdot"%string kw = None \/ dict_get "dae"%string kw = None)) \/ (e = EAttr /\ given "t" kw (fun t => ~ matrix t)).
Proof. exact impl_err. Qed.

Theorem C41_make_implicit_ok : forall d id,
  SemiMade d -> forall ode alg, d_kind d = DSemi ode alg -> numel alg = numel (d_z d) ->
  exists e, make_implicit id d = Ok (DaeObj (d_x d) (d_z d) (d_u d) (d_p d) (d_t d) (d_quad d) (d_tdp d) (DImpl (new_sym id (numel (d_x d))) e)) /\
    numel e = numel (d_x d) + numel (d_z d) /\ column e /\
    (forall i v, i < numel (d_x d) -> at_ e i v = (v id i O - at_ ode i v)%R) /\
    (forall i v, i < numel (d_z d) -> at_ e (numel (d_x d) + i) v = at_ alg i v).
Proof. exact make_implicit_ok. Qed.

Theorem C41_make_implicit_solutions : forall d id ode alg,
  SemiMade d -> d_kind d = DSemi ode alg -> numel alg = numel (d_z d) -> Indep id ode -> Indep id alg ->
  exists e, make_implicit id d = Ok (DaeObj (d_x d) (d_z d) (d_u d) (d_p d) (d_t d) (d_quad d) (d_tdp d) (DImpl (new_sym id (numel (d_x d))) e)) /\
    forall v k, (forall i, i < numel e -> at_ e i (bind v id k) = 0%R) <->
      (forall i, i < numel (d_x d) -> k i = at_ ode i v) /\ (forall i, i < numel alg -> at_ alg i v = 0%R).
Proof. exact make_implicit_solutions. Qed.

Theorem C41_make_implicit_id : forall d id,
  ImplMade d -> make_implicit id d = Ok d.
Proof. exact make_implicit_id. Qed.

Theorem C41_make_implicit_no_alg : forall d id ode alg,
  SemiMade d -> d_kind d = DSemi ode alg -> numel alg <> numel (d_z d) -> make_implicit id d = Err EValue.
Proof. exact make_implicit_no_alg. Qed.

Theorem C42_parallel_spec_partial : forall cv tid ds,
  Forall SemiMade ds ->
  exists xs zs us ps qs ox oz ou op oq oo oa mx mz mu mp mq,
    Members ds "x" xs /\ Members ds "z" zs /\ Members ds "u" us /\ Members ds "p" ps /\ Members ds "quad" qs /\
    ParOf xs ox mx /\ ParOf zs oz mz /\ ParOf us ou mu /\ ParOf ps op mp /\ ParOf qs oq mq /\
    parallel cv tid ds =
      (if cv xs && cv zs && cv us && cv ps
       then Ok (DaeObj mx mz mu mp (new_sym tid 1) mq (new_sym 0 0) DBase,
                [("x", ox); ("z", oz); ("u", ou); ("p", op); ("ode", oo); ("alg", oa); ("quad", oq)]%string)
       else Err EValue).
Proof. exact parallel_spec. Qed.

Theorem C42_parallel_no_dynamics : forall cv tid ds d os,
  parallel cv tid ds = Ok (d, os) ->
  dae_attr d "ode" = Err EAttr /\ dae_attr d "alg" = Err EAttr /\ make_implicit 0 d = Err EAttr.
Proof. exact parallel_no_dynamics. Qed.

Theorem C42_parallel_implicit : forall cv tid ds d,
  In d ds -> ImplMade d -> forall r, parallel cv tid ds <> Ok r.
Proof. exact parallel_implicit. Qed.

Theorem C38_vertcat_dict_sparse_refuted : exists (d : list (string * ineq Z pt)) r x,
    NoDup (map fst d) /\ (forall k i, In (k, i) d -> Made i /\ iq_nom i <> None) /\
    vertcat_dict 0%Z d = Ok r /\ Sat Z.le 0%Z r x /\ exists k i, In (k, i) d /\ ~ Sat Z.le 0%Z i x.
Proof. exact vertcat_dict_sparse_refuted. Qed.

Theorem C39_vertcat_no_nominal_refuted : exists i : ineq Z pt, Made i /\ vertcat_list i [] = Err ENotImpl /\ vertcat_dict 0%Z [("a"%string, i)] = Err EException.
Proof. exact vertcat_no_nominal_refuted. Qed.

Theorem C40_semi_no_alg_refuted : exists kw d ode alg, KwOk kw /\ semi_init 9 kw = Ok d /\ d_kind d = DSemi ode alg /\ numel alg <> numel (d_z d) /\ make_implicit 7 d = Err EValue.
Proof. exact semi_no_alg_refuted. Qed.

Theorem C40_impl_xdot_refuted : exists kw d xdot e, KwOk kw /\ impl_init 9 kw = Ok d /\ d_kind d = DImpl xdot e /\ mo_valid xdot = false.
Proof. exact impl_xdot_refuted. Qed.

Theorem C42_parallel_dynamics_refuted : exists ds d os, ds <> [] /\ Forall SemiMade ds /\ parallel (forallb mo_valid) 9 ds = Ok (d, os) /\
    (forall m, In m ds -> dae_attr m "ode" = Ok Ode /\ numel (d_tdp m) = 1) /\
    dae_attr d "ode" = Err EAttr /\ numel (d_tdp d) = 0.
Proof. exact parallel_dynamics_refuted. Qed.

Print Assumptions C36_inequality_iff.
Print Assumptions C36_inequality_fields.
Print Assumptions C36_inequality_free.
Print Assumptions C36_bounded_variable_spec.
Print Assumptions C37_vertcat_list_spec.
Print Assumptions C38_vertcat_dict_spec.
Print Assumptions C38_vertcat_dict_sat_dense_partial.
Print Assumptions C39_vertcat_list_needs_nominal.
Print Assumptions C39_vertcat_dict_needs_nominal.
Print Assumptions C40_base_iff_partial.
Print Assumptions C40_struct_t.
Print Assumptions C40_struct_t_refuted.
Print Assumptions C40_semi_iff_partial.
Print Assumptions C40_impl_iff_partial.
Print Assumptions C40_semi_fields.
Print Assumptions C40_semi_err.
Print Assumptions C40_impl_err.
Print Assumptions C41_make_implicit_ok.
Print Assumptions C41_make_implicit_solutions.
Print Assumptions C41_make_implicit_id.
Print Assumptions C41_make_implicit_no_alg.
Print Assumptions C42_parallel_spec_partial.
Print Assumptions C42_parallel_no_dynamics.
Print Assumptions C42_parallel_implicit.
Print Assumptions C38_vertcat_dict_sparse_refuted.
Print Assumptions C39_vertcat_no_nominal_refuted.
Print Assumptions C40_semi_no_alg_refuted.
Print Assumptions C40_impl_xdot_refuted.
Print Assumptions C42_parallel_dynamics_refuted.
