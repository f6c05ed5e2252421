(** Property theorems about parts of time grids (C98) and changes of variables (C99). *)
From Coq Require Import Reals Lra.
From Coquelicot Require Import Coquelicot.
From Verif Require Import PyBase IndexModel DMModel StructModel StructsModel IneqModel DaeModel NumModel NumInst PolynomialModel PiecewiseModel PdqModel SchemeModel
  PolySpec PdqSpec SchemeSpec ConvSpec GridSpec GridThms.
Open Scope R_scope.

Section Split.
Context (cspts : nat -> string -> res (list R)) (f : daefun R) (t : list R) (order : nat) (method : string) (tau : list R) (g : option (R -> mat R)) (rep : bool) (x K Z u p : mat R).
Context (HP : Points cspts order method tau) (HD : DaeOk f) (HT : TdpOk f g) (HV : VarsOk f (ivals t) order rep x K Z u p).
Notation N := (ivals t).
Notation sub a b := (scheme_ cspts f (part t a b) order method g rep (mcols x a (S b)) (mcols K (a * order) (b * order)) (mcols Z (a * order) (b * order)) (mcols u a b) (ppart rep order p a b)).
Theorem C98_split_scheme : forall k,
  (0 < k < N)%nat -> exists s s1 s2 e e1 e2,
  scheme_ cspts f t order method g rep x K Z u p = Ok s /\ sub 0 k = Ok s1 /\ sub k N = Ok s2 /\ veccat_master (sc_eq s) = Ok e /\ veccat_master (sc_eq s1) = Ok e1 /\ veccat_master (sc_eq s2) = Ok e2 /\
  (AllZero e <-> AllZero e1 /\ AllZero e2 /\ (rep = true -> forall i, (i < f_np f)%nat -> at_m p i 0 = at_m p i (k * order))) /\
  sc_tc s = sc_tc s1 ++ sc_tc s2 /\
  (forall i c, (i < f_nx f)%nat -> (c < k * order)%nat -> at_m (sc_X s) i c = at_m (sc_X s1) i c) /\
  (forall i c, (i < f_nx f)%nat -> (c < (N - k) * order)%nat -> at_m (sc_X s) i (k * order + c) = at_m (sc_X s2) i c) /\
  (forall i n, (i < f_nq f)%nat -> (n <= k)%nat -> at_m (sc_q s) i n = at_m (sc_q s1) i n) /\
  (forall i n, (i < f_nq f)%nat -> (n <= N - k)%nat -> at_m (sc_q s) i (k + n) = at_m (sc_q s1) i k + at_m (sc_q s2) i n) /\
  (forall i c, (i < f_nq f)%nat -> (c < k * order)%nat -> at_m (sc_Q s) i c = at_m (sc_Q s1) i c) /\
  (forall i c, (i < f_nq f)%nat -> (c < (N - k) * order)%nat -> at_m (sc_Q s) i (k * order + c) = at_m (sc_q s1) i k + at_m (sc_Q s2) i c).
Proof. exact (split_scheme cspts f t order method tau g rep x K Z u p HP HD HT HV). Qed.

End Split.

Section IntSplit.
Context (cspts : nat -> string -> res (list R)) (f : daefun R) (t : list R) (order : nat) (method : string) (tau : list R) (g : option (R -> mat R)).
Context (HP : Points cspts order method tau) (HD : DaeOk f) (HT : TdpOk f g) (Hsq : f_ndae f = (f_nx f + f_nz f)%nat) (HA : Asc t).
Context (al L : R) (Hal : CoefBound tau al) (Hss : ShortSteps t al L) (Lip : LipDae f L).
Context (x0 : nat -> R) (u p : mat R) (Hu : Shaped u (f_nu f) (ivals t)) (Hp : Shaped p (f_np f) 1).
Notation N := (ivals t).
Notation integ rf nan t x0 z0 u := (integrator_ rf nan cspts f t order method g x0 z0 u p).
Theorem C98_integrator_split : forall k rf nan z0 out rf1 nan1 z1 out1 rf2 nan2 z2 out2,
  (0 < k < N)%nat -> RootFinder rf -> RootFinder rf1 -> RootFinder rf2 ->
  integ rf nan t x0 z0 u = Ok out -> integ rf1 nan1 (part t 0 k) x0 z1 (mcols u 0 k) = Ok out1 -> integ rf2 nan2 (part t k N) (fun i => at_m (io_xf out1) i (k - 1)) z2 (mcols u k N) = Ok out2 ->
  io_tc out = io_tc out1 ++ io_tc out2 /\
  (forall i n, (i < f_nx f)%nat -> (n < k)%nat -> at_m (io_xf out) i n = at_m (io_xf out1) i n) /\
  (forall i n, (i < f_nx f)%nat -> (n < N - k)%nat -> at_m (io_xf out) i (k + n) = at_m (io_xf out2) i n) /\
  (forall i c, (i < f_nx f)%nat -> (c < k * order)%nat -> at_m (io_X out) i c = at_m (io_X out1) i c) /\
  (forall i c, (i < f_nx f)%nat -> (c < (N - k) * order)%nat -> at_m (io_X out) i (k * order + c) = at_m (io_X out2) i c).
Proof. exact (integrator_split cspts f t order method tau g HP HD HT Hsq HA al L Hal Hss Lip x0 u p Hu Hp). Qed.

End IntSplit.

Section Move.
Context (cspts : nat -> string -> res (list R)) (f g : daefun R) (t : list R) (order : nat) (method : string) (tau : list R) (gf gg : option (R -> mat R)) (rep : bool) (y K Z u p : mat R).
Context (HP : Points cspts order method tau) (HL : (2 <= length t)%nat) (HDf : DaeOk f) (HDg : DaeOk g) (HTf : TdpOk f gf) (HTg : TdpOk g gg) (HV : VarsOk g (ivals t) order rep y K Z u p).
Context (S : nat -> nat -> R) (d : nat -> R) (kap c : R) (Hk : kap <> 0) (HC : Carries f g S d kap c).
Context (Htd : forall s i, (i < f_ntdp f)%nat -> tdp_at gf (c + kap * s) i = tdp_at gg s i).
Notation N := (ivals t).
Notation x' := (moved (f_nx f) (f_nx g) S d y).
Notation K' := (slopes (f_nx f) (f_nx g) S kap K).
Notation t' := (clock kap c t).
Theorem C99_move_scheme : forall s e,
  scheme_ cspts g t order method gg rep y K Z u p = Ok s -> veccat_master (sc_eq s) = Ok e -> AllZero e ->
  exists s' e', scheme_ cspts f t' order method gf rep x' K' Z u p = Ok s' /\ veccat_master (sc_eq s') = Ok e' /\ AllZero e' /\
    sc_tc s' = clock kap c (sc_tc s) /\
    (forall i m, (i < f_nx f)%nat -> (m < N * order)%nat -> at_m (sc_X s') i m = Sum (f_nx g) (fun k => S i k * at_m (sc_X s) k m) + d i) /\
    (forall i n, (i < f_nq f)%nat -> (n <= N)%nat -> at_m (sc_q s') i n = at_m (sc_q s) i n) /\
    (forall i m, (i < f_nq f)%nat -> (m < N * order)%nat -> at_m (sc_Q s') i m = at_m (sc_Q s) i m).
Proof. exact (move_scheme cspts f g t order method tau gf gg rep y K Z u p HP HL HDf HDg HTf HTg HV S d kap c Hk HC Htd). Qed.

End Move.

Section IntMove.
Context (cspts : nat -> string -> res (list R)) (f g : daefun R) (t : list R) (order : nat) (method : string) (tau : list R) (gf gg : option (R -> mat R)) (u p : mat R).
Context (HP : Points cspts order method tau) (HL : (2 <= length t)%nat) (HDf : DaeOk f) (HDg : DaeOk g) (HTf : TdpOk f gf) (HTg : TdpOk g gg).
Context (Hqf : f_ndae f = (f_nx f + f_nz f)%nat) (Hqg : f_ndae g = (f_nx g + f_nz g)%nat) (HA : Asc t).
Context (S : nat -> nat -> R) (d : nat -> R) (kap c : R) (Hk : 0 < kap) (HC : Carries f g S d kap c).
Context (Htd : forall s i, (i < f_ntdp f)%nat -> tdp_at gf (c + kap * s) i = tdp_at gg s i).
Context (al L : R) (Hal : CoefBound tau al) (Hss : ShortSteps (clock kap c t) al L) (Lip : LipDae f L).
Context (y0 : nat -> R) (Hu : Shaped u (f_nu g) (ivals t)) (Hp : Shaped p (f_np g) 1).
Theorem C99_integrator_move : forall rf nan z0 out rf' nan' z0' out',
  RootFinder rf -> RootFinder rf' -> integrator_ rf nan cspts g t order method gg y0 z0 u p = Ok out ->
  integrator_ rf' nan' cspts f (clock kap c t) order method gf (fun i => Sum (f_nx g) (fun k => S i k * y0 k) + d i) z0' u p = Ok out' ->
  io_tc out' = clock kap c (io_tc out) /\
  (forall i n, (i < f_nx f)%nat -> (n < ivals t)%nat -> at_m (io_xf out') i n = Sum (f_nx g) (fun k => S i k * at_m (io_xf out) k n) + d i) /\
  (forall i m, (i < f_nx f)%nat -> (m < ivals t * order)%nat -> at_m (io_X out') i m = Sum (f_nx g) (fun k => S i k * at_m (io_X out) k m) + d i).
Proof. exact (integrator_move cspts f g t order method tau gf gg u p HP HL HDf HDg HTf HTg Hqf Hqg HA S d kap c Hk HC Htd al L Hal Hss Lip y0 Hu Hp). Qed.

End IntMove.

Print Assumptions C98_split_scheme.
Print Assumptions C98_integrator_split.
Print Assumptions C99_move_scheme.
Print Assumptions C99_integrator_move.
