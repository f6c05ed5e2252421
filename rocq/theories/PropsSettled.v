(** Property theorems about integrators whose equations determine the solution (C110). *)
From Coq Require Import Reals Lra.
From Coquelicot Require Import Coquelicot.
From Verif Require Import PyBase IndexModel DMModel StructModel StructsModel IneqModel DaeModel NumModel NumInst PolynomialModel PiecewiseModel PdqModel SchemeModel
  PolySpec PdqSpec SchemeSpec SchemeExamples OrderSpec OrderExamples ConvSpec ConvExamples GridSpec RevSpec RevExamples MonoSpec SettledSpec SettledThms SettledExamples.
Open Scope R_scope.

Section Unique.
Context (cspts : nat -> string -> res (list R)) (f : daefun R) (t : list R) (order : nat) (method : string) (tau : list R) (g : option (R -> mat R)) (rep : bool).
Context (HP : Points cspts order method tau) (HL : (2 <= length t)%nat) (HD : DaeOk f) (HT : TdpOk f g) (HA : Asc t) (HS : Settled f t tau).
Context (x K Z u p x' K' Z' : mat R) (HV : VarsOk f (ivals t) order rep x K Z u p) (HV' : VarsOk f (ivals t) order rep x' K' Z' u p) (s s' : scheme R) (e e' : list R).
Notation N := (ivals t).
Notation sch x K Z u p := (scheme_ cspts f t order method g rep x K Z u p).
Context (Es : sch x K Z u p = Ok s) (Ee : veccat_master (sc_eq s) = Ok e) (Hz : AllZero e) (Es' : sch x' K' Z' u p = Ok s') (Ee' : veccat_master (sc_eq s') = Ok e') (Hz' : AllZero e') (E0 : forall i, (i < f_nx f)%nat -> at_m x i 0 = at_m x' i 0).
Theorem C110_unique : sc_tc s = sc_tc s' /\
  (forall n i, (n <= N)%nat -> (i < f_nx f)%nat -> at_m x i n = at_m x' i n) /\ (forall i m, (i < f_nx f)%nat -> (m < N * order)%nat -> at_m K i m = at_m K' i m) /\
  (forall i m, (i < f_nx f)%nat -> (m < N * order)%nat -> at_m (sc_X s) i m = at_m (sc_X s') i m) /\
  (DeterminesZ f -> (forall i m, (i < f_nz f)%nat -> (m < N * order)%nat -> at_m Z i m = at_m Z' i m) /\ (forall n i, (n <= N)%nat -> (i < f_nq f)%nat -> at_m (sc_q s) i n = at_m (sc_q s') i n) /\
     (forall i m, (i < f_nq f)%nat -> (m < N * order)%nat -> at_m (sc_Q s) i m = at_m (sc_Q s') i m)).
Proof. exact (settled_unique cspts f t order method tau g rep HP HL HD HT HA HS x K Z u p x' K' Z' HV HV' s s' e e' Es Ee Hz Es' Ee' Hz' E0). Qed.
End Unique.

Section Split.
Context (cspts : nat -> string -> res (list R)) (f : daefun R) (t : list R) (order : nat) (method : string) (tau : list R) (g : option (R -> mat R)).
Context (HP : Points cspts order method tau) (HD : DaeOk f) (HT : TdpOk f g) (Hsq : f_ndae f = (f_nx f + f_nz f)%nat) (HA : Asc t) (HS : Settled f t tau).
Context (x0 : nat -> R) (u p : mat R) (Hu : Shaped u (f_nu f) (ivals t)) (Hp : Shaped p (f_np f) 1).
Notation N := (ivals t).
Notation integ rf nan t x0 z0 u := (integrator_ rf nan cspts f t order method g x0 z0 u p).
Theorem C110_split : forall k rf nan z0 out rf1 nan1 z1 out1 rf2 nan2 z2 out2, (0 < k < N)%nat -> RootFinder rf -> RootFinder rf1 -> RootFinder rf2 ->
  integ rf nan t x0 z0 u = Ok out -> integ rf1 nan1 (part t 0 k) x0 z1 (mcols u 0 k) = Ok out1 -> integ rf2 nan2 (part t k N) (fun i => at_m (io_xf out1) i (k - 1)) z2 (mcols u k N) = Ok out2 ->
  io_tc out = io_tc out1 ++ io_tc out2 /\
  (forall i n, (i < f_nx f)%nat -> (n < k)%nat -> at_m (io_xf out) i n = at_m (io_xf out1) i n) /\
  (forall i n, (i < f_nx f)%nat -> (n < N - k)%nat -> at_m (io_xf out) i (k + n) = at_m (io_xf out2) i n) /\
  (forall i c, (i < f_nx f)%nat -> (c < k * order)%nat -> at_m (io_X out) i c = at_m (io_X out1) i c) /\
  (forall i c, (i < f_nx f)%nat -> (c < (N - k) * order)%nat -> at_m (io_X out) i (k * order + c) = at_m (io_X out2) i c) /\
  (DeterminesZ f ->
    (forall i c, (i < f_nz f)%nat -> (c < k * order)%nat -> at_m (io_Z out) i c = at_m (io_Z out1) i c) /\
    (forall i c, (i < f_nz f)%nat -> (c < (N - k) * order)%nat -> at_m (io_Z out) i (k * order + c) = at_m (io_Z out2) i c) /\
    (forall i c, (i < f_nq f)%nat -> (c < k * order)%nat -> at_m (io_Q out) i c = at_m (io_Q out1) i c) /\
    (forall i c, (i < f_nq f)%nat -> (c < (N - k) * order)%nat -> at_m (io_Q out) i (k * order + c) = io_qf out1 i + at_m (io_Q out2) i c) /\
    (forall i, (i < f_nq f)%nat -> io_qf out i = io_qf out1 i + io_qf out2 i)).
Proof. exact (settled_split cspts f t order method tau g HP HD HT Hsq HA HS x0 u p Hu Hp). Qed.
End Split.

Section Move.
Context (cspts : nat -> string -> res (list R)) (f g : daefun R) (t : list R) (order : nat) (method : string) (tau : list R) (gf gg : option (R -> mat R)) (u p : mat R).
Context (HP : Points cspts order method tau) (HL : (2 <= length t)%nat) (HDf : DaeOk f) (HDg : DaeOk g) (HTf : TdpOk f gf) (HTg : TdpOk g gg).
Context (Hqf : f_ndae f = (f_nx f + f_nz f)%nat) (Hqg : f_ndae g = (f_nx g + f_nz g)%nat) (HA : Asc t).
Context (S : nat -> nat -> R) (d : nat -> R) (kap c : R) (Hk : 0 < kap) (HC : Carries f g S d kap c).
Context (Htd : forall s i, (i < f_ntdp f)%nat -> tdp_at gf (c + kap * s) i = tdp_at gg s i).
Context (HS : Settled f (clock kap c t) tau) (y0 : nat -> R) (Hu : Shaped u (f_nu g) (ivals t)) (Hp : Shaped p (f_np g) 1).
Notation N := (ivals t).
Theorem C110_move : forall rf nan z0 out rf' nan' z0' out', RootFinder rf -> RootFinder rf' -> integrator_ rf nan cspts g t order method gg y0 z0 u p = Ok out ->
  integrator_ rf' nan' cspts f (clock kap c t) order method gf (fun i => Sum (f_nx g) (fun k => S i k * y0 k) + d i) z0' u p = Ok out' ->
  io_tc out' = clock kap c (io_tc out) /\
  (forall i n, (i < f_nx f)%nat -> (n < N)%nat -> at_m (io_xf out') i n = Sum (f_nx g) (fun k => S i k * at_m (io_xf out) k n) + d i) /\
  (forall i m, (i < f_nx f)%nat -> (m < N * order)%nat -> at_m (io_X out') i m = Sum (f_nx g) (fun k => S i k * at_m (io_X out) k m) + d i) /\
  (DeterminesZ f -> (forall i m, (i < f_nz f)%nat -> (m < N * order)%nat -> at_m (io_Z out') i m = at_m (io_Z out) i m) /\ (forall i m, (i < f_nq f)%nat -> (m < N * order)%nat -> at_m (io_Q out') i m = at_m (io_Q out) i m) /\
     (forall i, (i < f_nq f)%nat -> io_qf out' i = io_qf out i)).
Proof. exact (settled_move cspts f g t order method tau gf gg u p HP HL HDf HDg HTf HTg Hqf Hqg HA S d kap c Hk HC Htd HS y0 Hu Hp). Qed.
End Move.

Section Back.
Context (cspts : nat -> string -> res (list R)) (f f' : daefun R) (t : list R) (order : nat) (method : string) (tau : list R) (gf gf' : option (R -> mat R)) (u p u' : mat R).
Context (HP : Points cspts order method tau) (HSy : Symmetric tau) (HL : (2 <= length t)%nat) (HD : DaeOk f) (HD' : DaeOk f') (HT : TdpOk f gf) (HT' : TdpOk f' gf').
Context (Hq : f_ndae f = (f_nx f + f_nz f)%nat) (Hq' : f_ndae f' = (f_nx f' + f_nz f')%nat) (HA : Asc t).
Context (kap c : R) (Hk : kap < 0) (HC : Retimed f f' kap c) (Htd : forall s i, (i < f_ntdp f)%nat -> tdp_at gf' (c + kap * s) i = tdp_at gf s i).
Notation N := (ivals t).
Notation t' := (clock kap c (rev t)).
Context (HS : Settled f' t' tau) (x0 : nat -> R) (Hu : Shaped u (f_nu f) N) (Hu' : Shaped u' (f_nu f) N) (Hp : Shaped p (f_np f) 1) (Bu : Back (f_nu f) N 1 u u').
Theorem C110_back : forall rf nan z0 out rf' nan' z0' out', RootFinder rf -> RootFinder rf' -> integrator_ rf nan cspts f t order method gf x0 z0 u p = Ok out ->
  integrator_ rf' nan' cspts f' t' order method gf' (fun i => at_m (io_xf out) i (N - 1)) z0' u' p = Ok out' ->
  io_tc out' = clock kap c (rev (io_tc out)) /\ Back (f_nx f) (N * order) 1 (io_X out) (io_X out') /\
  (forall i n, (i < f_nx f)%nat -> (n + 1 < N)%nat -> at_m (io_xf out') i n = at_m (io_xf out) i (N - 2 - n)) /\ (forall i, (i < f_nx f)%nat -> at_m (io_xf out') i (N - 1) = x0 i) /\
  (DeterminesZ f' -> Back (f_nz f) (N * order) 1 (io_Z out) (io_Z out') /\ (forall i m, (i < f_nq f)%nat -> (m < N * order)%nat -> at_m (io_Q out') i m = at_m (io_Q out) i (N * order - 1 - m) - io_qf out i) /\
     (forall i, (i < f_nq f)%nat -> io_qf out' i = - io_qf out i)).
Proof. exact (settled_back cspts f f' t order method tau gf gf' u p u' HP HSy HL HD HD' HT HT' Hq Hq' HA kap c Hk HC Htd HS x0 Hu Hu' Hp Bu). Qed.
End Back.

(** Without such a bound two root finders may lead to different states: [x' = 2 x], midpoint rule, a step of length 1 from 0. *)
Theorem C110_unsettled_refuted : exists rf rf' out out', RootFinder rf /\ RootFinder rf' /\ integrator_ rf 0 (lpts (1 / 2)) (bf 2) [0; 1] 1 "m" None (fun _ => 0) (fun _ => 0) (non 1) (non 1) = Ok out /\
  integrator_ rf' 0 (lpts (1 / 2)) (bf 2) [0; 1] 1 "m" None (fun _ => 0) (fun _ => 0) (non 1) (non 1) = Ok out' /\ at_m (io_xf out) 0 0 <> at_m (io_xf out') 0 0.
Proof. exact unsettled_refuted. Qed.

Print Assumptions C110_unique.
Print Assumptions C110_split.
Print Assumptions C110_move.
Print Assumptions C110_back.
Print Assumptions C110_unsettled_refuted.
