(** Property theorems about collocation schemes, integrators, simulators and saving (C61-C69, C71, C74, C75). *)
From Coq Require Import Reals Lra FunctionalExtensionality.
From Coquelicot Require Import Coquelicot.
From Verif Require Import PyBase IndexModel DMModel DMProofs StructModel StructSpec StructProofs PowerModel PowerSpec EntryModel StructsModel IneqModel IneqThms DaeModel DaeSpec DaeThms StructsSpec EntrySpec EntryProofs StructsThms5 StructsThms7 StructsThms11 PowerThms NumModel NumInst NumSpec PolynomialModel PiecewiseModel PdqModel SchemeModel SchemeAttrModel
  PolySpec PiecewiseSpec PdqSpec SchemeSpec PolyMath PolynomialBase PolynomialThms PolynomialThms2 PiecewiseThms PdqThms PdqThms2 SchemeThms SchemeThms2 SchemeThms3 SchemeThms4 SchemeThms5 SchemeThms6 SchemeExamples SchemeExamples2.
Open Scope R_scope.

Theorem C61_scheme_fun_spec : forall assign id d,
  AssignOk d assign -> ImplMade d \/ (SemiMade d /\ exists ode alg, d_kind d = DSemi ode alg /\ numel alg = numel (d_z d)) ->
  exists f, scheme_fun assign id d = Ok f /\ DaeOk f /\ f_nx f = numel (d_x d) /\ f_nz f = numel (d_z d) /\ f_nu f = numel (d_u d) /\ f_np f = numel (d_p d) /\ f_ntdp f = numel (d_tdp d) /\ f_nq f = numel (d_quad d) /\
    f_ndae f = (f_nx f + f_nz f)%nat.
Proof. exact scheme_fun_spec. Qed.

Theorem C61_scheme_fun_semi : forall assign id d ode alg f,
  SemiMade d -> d_kind d = DSemi ode alg -> scheme_fun assign id d = Ok f ->
  (forall a i, (i < numel (d_x d))%nat -> f_dae f a i = assign a id i 0%nat - at_ ode i (assign a)) /\ (forall a i, (i < numel (d_z d))%nat -> f_dae f a (numel (d_x d) + i) = at_ alg i (assign a)).
Proof. exact scheme_fun_semi. Qed.

Theorem C61_scheme_fun_impl : forall assign id d xdot e f,
  ImplMade d -> d_kind d = DImpl xdot e -> scheme_fun assign id d = Ok f ->
  (forall a i, f_dae f a i = at_ e i (assign a)) /\ (forall a i, f_quad f a i = at_ (d_quad d) i (assign a)).
Proof. exact scheme_fun_impl. Qed.

Theorem C61_scheme_fun_quad : forall assign id d ode alg f,
  SemiMade d -> d_kind d = DSemi ode alg -> scheme_fun assign id d = Ok f ->
  forall a i, f_quad f a i = at_ (d_quad d) i (assign a).
Proof. exact scheme_fun_quad. Qed.

Section S1.
Context (cspts : nat -> string -> res (list R)) (f : daefun R) (t : list R) (order : nat) (method : string) (tau : list R) (g : option (R -> mat R)) (rep : bool) (x K Z u p : mat R).
Context (HP : Points cspts order method tau) (HL : (2 <= length t)%nat) (HD : DaeOk f) (HT : TdpOk f g) (HV : VarsOk f (ivals t) order rep x K Z u p).
Notation N := (ivals t).
Notation sch := (scheme_ cspts f t order method g rep x K Z u p).

Theorem C61_scheme_equations : exists s A b e,
  sch = Ok s /\ RungeKutta tau A b /\
  Shaped (sc_X s) (f_nx f) (N * order) /\ (forall i n j, (i < f_nx f)%nat -> (n < N)%nat -> (j < order)%nat -> at_m (sc_X s) i (n * order + j) = stage_x t order A x K n j i) /\
  length (sc_tc s) = (N * order)%nat /\ (forall n j, (n < N)%nat -> (j < order)%nat -> node (sc_tc s) (n * order + j) = node t n + step t n * node tau j) /\
  Shaped (sc_U s) (f_nu f) (N * order) /\ (forall i n j, (n < N)%nat -> (j < order)%nat -> at_m (sc_U s) i (n * order + j) = at_m u i n) /\
  veccat_master (sc_eq s) = Ok e /\ ((forall v, In v e -> v = 0) <-> CollocationEqs f t tau order A b rep g x K Z u p).
Proof. exact (scheme_equations cspts f t order method tau g rep x K Z u p HP HL HD HT HV). Qed.

Theorem C64_scheme_quadratures : exists s A b,
  sch = Ok s /\ RungeKutta tau A b /\
  Shaped (sc_quad s) (f_nq f) (N * order) /\ (forall i n j, (n < N)%nat -> (j < order)%nat -> at_m (sc_quad s) i (n * order + j) = f_quad f (stage t tau order A rep g x K Z u p n j) i) /\
  Shaped (sc_q s) (f_nq f) (N + 1) /\ (forall i, (i < f_nq f)%nat -> at_m (sc_q s) i 0 = 0) /\
  (forall i n, (i < f_nq f)%nat -> (n < N)%nat -> at_m (sc_q s) i (n + 1) = at_m (sc_q s) i n + step t n * Sum order (fun l => b l * at_m (sc_quad s) i (n * order + l)%nat)) /\
  Shaped (sc_Q s) (f_nq f) (N * order) /\
  (forall i n j, (i < f_nq f)%nat -> (n < N)%nat -> (j < order)%nat -> at_m (sc_Q s) i (n * order + j) = at_m (sc_q s) i n + step t n * Sum order (fun l => A j l * at_m (sc_quad s) i (n * order + l)%nat)).
Proof. exact (scheme_quadratures cspts f t order method tau g rep x K Z u p HP HL HD HT HV). Qed.

End S1.

Section S2.
Context (cspts : nat -> string -> res (list R)) (f : daefun R) (t : list R) (order : nat) (method : string) (tau : list R) (g : option (R -> mat R)) (rep : bool) (x K Z u p : mat R).
Context (HP : Points cspts order method tau) (HL : (2 <= length t)%nat) (HD : DaeOk f) (HT : TdpOk f g) (HV : VarsOk f (ivals t) order rep x K Z u p).
Context (HA : Asc t) (HU : InUnit tau).
Notation N := (ivals t).
Notation sch := (scheme_ cspts f t order method g rep x K Z u p).
Context (xd xs zs us : nat -> R -> R) (pv : nat -> R).
Context (HS : Sampled f t tau order rep xd xs zs us pv x K Z u p) (HX : forall i, (i < f_nx f)%nat -> PiecewiseC1 t (S order) (xs i) (xd i)).

Theorem C63_polynomial_solution : SolvesDae f t xd xs zs us pv g ->
  exists s e, sch = Ok s /\ veccat_master (sc_eq s) = Ok e /\ (forall v, In v e -> v = 0) /\
    forall i n j, (i < f_nx f)%nat -> (n < N)%nat -> (j < order)%nat -> at_m (sc_X s) i (n * order + j) = xs i (node (sc_tc s) (n * order + j)).
Proof. exact (polynomial_solution cspts f t order method tau g rep x K Z u p HP HL HD HT HV HA HU xd xs zs us pv HS HX). Qed.

Theorem C63_polynomial_quadrature : forall (w : nat -> R -> R),
  (forall i, (i < f_nq f)%nat -> PiecewiseLt t order (w i)) ->
  (forall i s, (i < f_nq f)%nat -> node t 0 < s <= node t N -> f_quad f (dae_at xd xs zs us pv g s) i = w i s) ->
  exists s, sch = Ok s /\
    (forall i n, (i < f_nq f)%nat -> (n <= N)%nat -> is_RInt (w i) (node t 0) (node t n) (at_m (sc_q s) i n)) /\
    (forall i n j, (i < f_nq f)%nat -> (n < N)%nat -> (j < order)%nat -> is_RInt (w i) (node t 0) (node (sc_tc s) (n * order + j)) (at_m (sc_Q s) i (n * order + j))).
Proof. exact (polynomial_quadrature cspts f t order method tau g rep x K Z u p HP HL HD HT HV HA HU xd xs zs us pv HS HX). Qed.

End S2.

Section S3.
Context (cspts : nat -> string -> res (list R)) (f : daefun R) (t : list R) (order : nat) (method : string) (tau : list R) (g : option (R -> mat R)) (rep : bool) (x K Z u p : mat R).
Context (HP : Points cspts order method tau) (HL : (2 <= length t)%nat) (HD : DaeOk f) (HT : TdpOk f g) (HV : VarsOk f (ivals t) order rep x K Z u p).
Context (HA : Asc t) (HU : InUnit tau).
Notation N := (ivals t).
Notation sch := (scheme_ cspts f t order method g rep x K Z u p).

Theorem C62_trajectory_pieces : forall x' K' s,
  sch = Ok s -> Shaped x' (f_nx f) (N + 1) -> Shaped K' (f_nx f) (N * order) ->
  exists pp, piecewise_X s x' K' = Ok pp /\ PpOk pp (f_nx f) /\ pp_t pp = t /\
    forall n i, (n < N)%nat -> (i < f_nx f)%nat -> exists F, Piece pp n i F /\ PolyLt (S order) F /\ F (node t n) = at_m x' i n /\
      F (node t (n + 1)) = at_m x' i n + step t n * Sum order (fun l => cb tau l * at_m K' i (n * order + l)%nat) /\
      forall j, (j < order)%nat -> F (stage_t t tau n j) = stage_x t order (cA tau) x' K' n j i /\ is_derive F (stage_t t tau n j) (at_m K' i (n * order + j)).
Proof. exact (trajectory_pieces cspts f t order method tau g rep x K Z u p HP HL HD HT HV HA HU). Qed.

Theorem C62_solution_trajectory : forall s e,
  sch = Ok s -> veccat_master (sc_eq s) = Ok e -> (forall v, In v e -> v = 0) ->
  exists pp dp, piecewise_X s x K = Ok pp /\ pp_derivative pp = Ok dp /\ PpOk pp (f_nx f) /\ pp_t pp = t /\
    (forall n i, (n < N)%nat -> (i < f_nx f)%nat -> exists F, Piece pp n i F /\ PolyLt (S order) F /\ F (node t n) = at_m x i n /\ F (node t (n + 1)) = at_m x i (n + 1) /\
       forall j, (j < order)%nat -> F (stage_t t tau n j) = at_m (sc_X s) i (n * order + j) /\ is_derive F (stage_t t tau n j) (at_m K i (n * order + j))) /\
    (forall n i c, (n <= N)%nat -> (i < f_nx f)%nat -> c = "left"%string \/ c = "right"%string -> ppval pp c i (node t n) = at_m x i n) /\
    (forall n j i, (n < N)%nat -> (j < order)%nat -> (i < f_nx f)%nat ->
       ppval pp "left" i (node (sc_tc s) (n * order + j)) = at_m (sc_X s) i (n * order + j) /\ ppval dp "left" i (node (sc_tc s) (n * order + j)) = at_m K i (n * order + j)) /\
    (forall n j r, (n < N)%nat -> (j < order)%nat -> (r < f_ndae f)%nat ->
       let s := node (sc_tc s) (n * order + j) in
       f_dae f (DArgs (fun i => ppval dp "left" i s) (fun i => ppval pp "left" i s) (fun i => at_m Z i (n * order + j)) (fun i => at_m u i n) (fun i => at_m p i (if rep then n * order + j else 0)%nat) s (tdp_at g s)) r = 0).
Proof. exact (solution_trajectory cspts f t order method tau g rep x K Z u p HP HL HD HT HV HA HU). Qed.

End S3.

Section S4.
Context (cspts : nat -> string -> res (list R)) (f : daefun R) (t : list R) (order : nat) (method : string) (tau : list R) (g : option (R -> mat R)).
Context (HP : Points cspts order method tau) (HL : (2 <= length t)%nat) (HD : DaeOk f) (HT : TdpOk f g) (Hsq : f_ndae f = (f_nx f + f_nz f)%nat).
Context (rf : (list R -> res (list R)) -> list R -> res (list R)) (nan : R) (x0 z0 : nat -> R) (u p : mat R) (Hu : Shaped u (f_nu f) (ivals t)) (Hp : Shaped p (f_np f) 1).
Notation N := (ivals t).
Notation sch x K Z u p := (scheme_ cspts f t order method g false x K Z u p).
Notation xz := (mzeros (f_nx f) (N + 1)).
Notation Kz := (mzeros (f_nx f) (N * order)).
Notation Zz := (mzeros (f_nz f) (N * order)).

Theorem C65_integrator_square_partial : forall s0 var,
  sch xz Kz Zz (mzeros (f_nu f) N) (mzeros (f_np f) 1) = Ok s0 -> sc_combine s0 ["x"; "K"; "Z"]%string = Ok var ->
  forall w, length w = cs_size (so_c var) -> exists e, eq_fun cspts f t order method g (so_c var) x0 u p w = Ok e /\ (length e <= length w)%nat /\ (length e = length w <-> Full f).
Proof. exact (integrator_square cspts f t order method tau g HP HL HD HT Hsq x0 u p Hu Hp). Qed.

Theorem C66_integrator_ok_iff : Answers rf -> (exists out, integrator_ rf nan cspts f t order method g x0 z0 u p = Ok out) <-> Full f /\ (f_np f = 0 \/ f_nq f = 0)%nat.
Proof. exact (integrator_ok_iff cspts f t order method tau g HP HL HD HT Hsq rf nan x0 z0 u p Hu Hp). Qed.

Theorem C66_integrator_outputs_partial : forall out,
  RootFinder rf -> integrator_ rf nan cspts f t order method g x0 z0 u p = Ok out ->
  exists s A b, VarsOk f N order false (io_x out) (io_K out) (io_Z out) u p /\ sch (io_x out) (io_K out) (io_Z out) u p = Ok s /\ RungeKutta tau A b /\
    CollocationEqs f t tau order A b false g (io_x out) (io_K out) (io_Z out) u p /\ (forall i, (i < f_nx f)%nat -> at_m (io_x out) i 0 = x0 i) /\
    Shaped (io_xf out) (f_nx f) N /\ (forall i n, at_m (io_xf out) i n = at_m (io_x out) i (n + 1)) /\
    io_X out = sc_X s /\ io_Q out = sc_Q s /\ io_tc out = sc_tc s /\ (forall i, io_qf out i = at_m (sc_q s) i N).
Proof. exact (integrator_outputs cspts f t order method tau g HP HL HD HT Hsq rf nan x0 z0 u p Hu Hp). Qed.

Theorem C66_integrator_roots : forall s0 var x K Z,
  sch xz Kz Zz (mzeros (f_nu f) N) (mzeros (f_np f) 1) = Ok s0 -> sc_combine s0 ["x"; "K"; "Z"]%string = Ok var ->
  VarsOk f N order false x K Z u p -> exists A b e, RungeKutta tau A b /\ eq_fun cspts f t order method g (so_c var) x0 u p (dm_nz (mat_dm x) ++ dm_nz (mat_dm K) ++ dm_nz (mat_dm Z)) = Ok e /\
    ((forall v, In v e -> v = 0) <-> CollocationEqs f t tau order A b false g x K Z u p /\ forall i, (i < f_nx f)%nat -> at_m x i 0 = x0 i).
Proof. exact (integrator_roots cspts f t order method tau g HP HL HD HT Hsq x0 u p Hu Hp). Qed.

Theorem C71_integrate_by_name_partial : forall out pp,
  Asc t -> InUnit tau -> RootFinder rf -> integrate_ rf nan cspts f t order method g true x0 z0 u p = Ok (out, pp) ->
  integrator_ rf nan cspts f t order method g x0 z0 u p = Ok out /\ PpOk pp (f_nx f) /\ pp_t pp = t /\
  forall n i c, (n <= N)%nat -> (i < f_nx f)%nat -> c = "left"%string \/ c = "right"%string -> ppval pp c i (node t n) = at_m (io_x out) i n.
Proof. exact (integrate_by_name cspts f t order method tau g HP HL HD HT Hsq rf nan x0 z0 u p Hu Hp). Qed.

Theorem C71_integrate_by_position : forall out,
  integrator_ rf nan cspts f t order method g x0 z0 u p = Ok out -> integrate_ rf nan cspts f t order method g false x0 z0 u p = Err EType.
Proof. exact (integrate_by_position cspts f t order method g rf nan x0 z0 u p). Qed.

End S4.

Section S5.
Context (cspts : nat -> string -> res (list R)) (f : daefun R) (t : list R) (order : nat) (method : string) (tau : list R) (g : option (R -> mat R)) (rep : bool) (x K Z u p : mat R).
Context (HP : Points cspts order method tau) (HL : (2 <= length t)%nat) (HD : DaeOk f) (HT : TdpOk f g) (HV : VarsOk f (ivals t) order rep x K Z u p).
Notation sch := (scheme_ cspts f t order method g rep x K Z u p).
Context (s : scheme R) (e : list R) (Hs : sch = Ok s) (He : veccat_master (sc_eq s) = Ok e).

Theorem C67_combine_parts_partial : forall what,
  NoDup what -> (forall w, In w what -> In w ["K"; "x"; "Z"; "U"; "u"; "p"; "eq"; "q"]%string) ->
  exists o ms, sc_combine s what = Ok o /\ s_keys (cs_struct (so_c o)) = what /\ Forall2 (PartOf s e) what ms /\ veccat_master o = Ok (flat_map (@dm_nz R) ms) /\
    forall w m, In w what -> PartOf s e w m -> veccat_get 0 o [PStr w] = Ok (RMat m).
Proof. exact (combine_parts cspts f t order method tau g rep x K Z u p HP HL HD HT HV s e Hs He). Qed.

Theorem C67_combine_accepts : forall what,
  (exists o, sc_combine s what = Ok o) <-> NoDup what /\ forall w, In w what -> In w ["K"; "x"; "Z"; "U"; "u"; "p"; "eq"; "q"]%string.
Proof. exact (combine_accepts cspts f t order method tau g rep x K Z u p HP HL HD HT HV s e Hs He). Qed.

End S5.

Section S6.
Context (cspts : nat -> string -> res (list R)) (f : daefun R) (t : list R) (order : nat) (method : string) (tau : list R) (g : option (R -> mat R)).
Context (HP : Points cspts order method tau) (HL : (2 <= length t)%nat) (HD : DaeOk f) (HT : TdpOk f g) (Hsq : f_ndae f = (f_nx f + f_nz f)%nat).
Context (rf : (list R -> res (list R)) -> list R -> res (list R)) (nan : R) (x0 z0 : nat -> R) (u p : mat R) (Hu : Shaped u (f_nu f) (ivals t)) (Hp : Shaped p (f_np f) 1).
Notation N := (ivals t).
Notation sch x K Z u p := (scheme_ cspts f t order method g false x K Z u p).
Notation xz := (mzeros (f_nx f) (N + 1)).
Notation Kz := (mzeros (f_nx f) (N * order)).
Notation Zz := (mzeros (f_nz f) (N * order)).

Theorem C74_integrator_start : forall out,
  integrator_ rf nan cspts f t order method g x0 z0 u p = Ok out ->
  exists s0 var w, sch xz Kz Zz (mzeros (f_nu f) N) (mzeros (f_np f) 1) = Ok s0 /\ sc_combine s0 ["x"; "K"; "Z"]%string = Ok var /\
    rf (eq_fun cspts f t order method g (so_c var) x0 u p)
       (concat (repeat (map x0 (seq 0 (f_nx f))) (N + 1)) ++ repeat 0 (f_nx f * (N * order)) ++ concat (repeat (map z0 (seq 0 (f_nz f))) (N * order))) = Ok w /\
    (length w = (f_nx f * (N + 1) + f_nx f * (N * order) + f_nz f * (N * order))%nat ->
     w = dm_nz (mat_dm (io_x out)) ++ dm_nz (mat_dm (io_K out)) ++ dm_nz (mat_dm (io_Z out))).
Proof. exact (integrator_start cspts f t order method tau g HP HL HD HT Hsq rf nan x0 z0 u p). Qed.

End S6.

Section S7.
Context (cspts : nat -> string -> res (list R)) (f : daefun R) (t : list R) (order : nat) (method : string) (tau : list R) (g : option (R -> mat R)) (rep : bool) (x K Z u p : mat R).
Context (HP : Points cspts order method tau) (HL : (2 <= length t)%nat) (HD : DaeOk f) (HT : TdpOk f g) (HV : VarsOk f (ivals t) order rep x K Z u p).
Notation N := (ivals t).

Theorem C75_property_values_partial : forall s,
  scheme_ cspts f t order method g rep x K Z u p = Ok s ->
  sc_property s "numTotalCollocationPoints" = Ok (VNat (N * order)) /\
  sc_property s "t" = Ok (VVec t) /\ sc_property s "x" = Ok (VMatr x) /\ sc_property s "K" = Ok (VMatr K) /\ sc_property s "xdot" = Ok (VMatr K) /\
  sc_property s "Z" = Ok (VMatr Z) /\ sc_property s "u" = Ok (VMatr u) /\ sc_property s "p" = Ok (VMatr p) /\
  (exists tc, sc_property s "tc" = Ok (VVec tc) /\ length tc = (N * order)%nat /\ forall n j, (n < N)%nat -> (j < order)%nat -> node tc (n * order + j) = stage_t t tau n j) /\
  (exists U, sc_property s "U" = Ok (VMatr U) /\ Shaped U (f_nu f) (N * order) /\ forall i n j, (n < N)%nat -> (j < order)%nat -> at_m U i (n * order + j) = at_m u i n) /\
  (sc_property s "X" = Ok (VMatr (sc_X s)) /\ Shaped (sc_X s) (f_nx f) (N * order)) /\
  (sc_property s "q" = Ok (VMatr (sc_q s)) /\ Shaped (sc_q s) (f_nq f) (N + 1)) /\
  (sc_property s "Q" = Ok (VMatr (sc_Q s)) /\ Shaped (sc_Q s) (f_nq f) (N * order)) /\
  (sc_property s "quad" = Ok (VMatr (sc_quad s)) /\ Shaped (sc_quad s) (f_nq f) (N * order)) /\
  (sc_property s "eq" = Ok (VEq (sc_eq s)) /\ s_keys (cs_struct (so_c (sc_eq s))) = ["collocation"; "continuity"; "param"]%string) /\
  (exists tb, sc_property s "butcher" = Ok (VTab tb) /\ tb_c tb = tau).
Proof. exact (property_values cspts f t order method tau g rep x K Z u p HP HL HD HT HV). Qed.

End S7.

Theorem C65_square_refuted : forall assign,
  AssignOk D0 assign -> exists f, SemiMade D0 /\ scheme_fun assign 7 D0 = Ok f /\
  forall cspts t order method tau x0 u s0 var w, Points cspts order method tau -> (2 <= length t)%nat -> Shaped u (f_nu f) (ivals t) ->
    scheme_ cspts f t order method None false (mzeros (f_nx f) (ivals t + 1)) (mzeros (f_nx f) (ivals t * order)) (mzeros (f_nz f) (ivals t * order)) (mzeros (f_nu f) (ivals t)) (mzeros (f_np f) 1) = Ok s0 ->
    sc_combine s0 ["x"; "K"; "Z"]%string = Ok var -> length w = cs_size (so_c var) ->
    exists e, eq_fun cspts f t order method None (so_c var) x0 u (mzeros (f_np f) 1) w = Ok e /\ (length e < length w)%nat.
Proof. exact @square_refuted. Qed.

Theorem C66_integrator_params_refuted : Full pqf /\ DaeOk pqf /\ forall rf nan x0 z0 u p out, Shaped u 0 2 -> Shaped p 1 1 -> integrator_ rf nan expts pqf ext 2 "radau" None x0 z0 u p <> Ok out.
Proof. exact @integrator_params_refuted. Qed.

Theorem C67_combine_rejects : forall (s : scheme R) what w,
  In w what -> ~ In w ["K"; "x"; "Z"; "U"; "u"; "p"; "eq"; "q"]%string -> sc_combine s what = Err EAssert.
Proof. exact @combine_rejects. Qed.

Theorem C67_combine_documented_refuted : exists w, In w documented_parts /\ forall s : scheme R, sc_combine s [w] = Err EAssert.
Proof. exact @combine_documented_refuted. Qed.

Theorem C67_combine_z_refuted : forall (s : scheme R),
  sc_combine s ["z"%string] = Err EAssert.
Proof. exact @combine_z_refuted. Qed.

Theorem C68_binding : forall params npos kws,
  NoDup (map fst params) -> bind_args params npos kws = Ok tt <-> Binds params npos kws.
Proof. exact bind_spec. Qed.

Theorem C68_binding_total : forall params npos kws, bind_args params npos kws = Ok tt \/ bind_args params npos kws = Err EType.
Proof. exact bind_total. Qed.

Theorem C68_simulator_never : forall {S : Type} colpts (t : list R) poly_order (rest : pdq R -> res S),
  forall p, pdq_ colpts t poly_order "chebyshev" = Ok p -> simulator_ colpts t poly_order rest = Err EType.
Proof. exact @simulator_never. Qed.

Theorem C68_simulator_refuted : forall {S : Type} colpts (t : list R) poly_order (rest : pdq R -> res S),
  forall o, simulator_ colpts t poly_order rest <> Ok o.
Proof. exact @simulator_refuted. Qed.

Theorem C69_save_refuted : forall {O : Type} names (dump : O -> string) (parse : string -> res O) o fname fs,
  ~ In "file"%string names -> save_ names dump o fname fs = Err EName /\ load_ names parse fname fs = Err EName.
Proof. exact @save_refuted. Qed.

Theorem C69_save_load_partial : forall {O : Type} names (dump : O -> string) (parse : string -> res O) o fname fs,
  In "file"%string names -> (forall o, parse (dump o) = Ok o) ->
  exists fs', save_ names dump o fname fs = Ok fs' /\ load_ names parse fname fs' = Ok o.
Proof. exact @save_load_partial. Qed.

Theorem C71_integrate_position_refuted : exists rf, RootFinder rf /\ (exists out, integrator_ rf 0 expts exf ext 2 "radau" None (fun _ => 0) (fun _ => 0) (ex0 2) (ex0 1) = Ok out) /\
  integrate_ rf 0 expts exf ext 2 "radau" None false (fun _ => 0) (fun _ => 0) (ex0 2) (ex0 1) = Err EType.
Proof. exact @integrate_position_refuted. Qed.

Theorem C75_pdq_never : forall (s : scheme R),
  sc_property s "pdq" = Err EAttr.
Proof. exact @pdq_never. Qed.

Theorem C75_pdq_refuted : exists cspts f t order method g rep x K Z u p s, scheme_ cspts f t order method g rep x K Z u p = Ok s /\ sc_property s "pdq" = Err EAttr.
Proof. exact @pdq_refuted. Qed.

Print Assumptions C61_scheme_fun_spec.
Print Assumptions C61_scheme_fun_semi.
Print Assumptions C61_scheme_fun_impl.
Print Assumptions C61_scheme_fun_quad.
Print Assumptions C61_scheme_equations.
Print Assumptions C64_scheme_quadratures.
Print Assumptions C63_polynomial_solution.
Print Assumptions C63_polynomial_quadrature.
Print Assumptions C62_trajectory_pieces.
Print Assumptions C62_solution_trajectory.
Print Assumptions C65_integrator_square_partial.
Print Assumptions C66_integrator_ok_iff.
Print Assumptions C66_integrator_outputs_partial.
Print Assumptions C66_integrator_roots.
Print Assumptions C71_integrate_by_name_partial.
Print Assumptions C71_integrate_by_position.
Print Assumptions C67_combine_parts_partial.
Print Assumptions C67_combine_accepts.
Print Assumptions C74_integrator_start.
Print Assumptions C75_property_values_partial.
Print Assumptions C65_square_refuted.
Print Assumptions C66_integrator_params_refuted.
Print Assumptions C67_combine_rejects.
Print Assumptions C67_combine_documented_refuted.
Print Assumptions C67_combine_z_refuted.
Print Assumptions C68_binding.
Print Assumptions C68_binding_total.
Print Assumptions C68_simulator_never.
Print Assumptions C68_simulator_refuted.
Print Assumptions C69_save_refuted.
Print Assumptions C69_save_load_partial.
Print Assumptions C71_integrate_position_refuted.
Print Assumptions C75_pdq_never.
Print Assumptions C75_pdq_refuted.
