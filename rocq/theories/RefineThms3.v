(** First-order convergence for inputs and derivatives with Lipschitz constants (C115). *)
From Coq Require Import Reals Lra.
From Coquelicot Require Import Coquelicot.
From Verif Require Import PyBase IndexModel DMModel DMProofs StructModel StructSpec PowerModel EntryModel StructsModel IneqModel DaeModel StructsSpec StructsThms11 NumModel NumInst NumSpec PolynomialModel PiecewiseModel PdqModel SchemeModel
  PolySpec PiecewiseSpec PdqSpec SchemeSpec PolyMath PolynomialBase PolynomialThms PolynomialThms2 PiecewiseThms PdqThms PdqThms2 SchemeThms SchemeThms2 SchemeThms3 SchemeThms4 SchemeThms5 OrderSpec OrderMath OrderThms ConvSpec ConvThms GridSpec GridThms ErrSpec ErrThms SuperSpec SuperThms StiffThms MonoSpec MonoThms MonoThms2 MonoThms3 MonoThms4 DissSpec DissThms DissThms2 DissThms3 DissThms4 DissErrThms SensSpec SensThms SensThms2 Sens2Spec SensThms3 RefineSpec RefineThms RefineThms2.
Open Scope R_scope.

Section Rate.
Context (cspts : nat -> string -> res (list R)) (f : daefun R) (order : nat) (method : string) (tau : list R) (g : option (R -> mat R)) (a b : R).
Context (HP : Points cspts order method tau) (HU : InUnit tau) (HD : DaeOk f) (HT : TdpOk f g) (Hab : a < b).
Context (L Lu : R) (HL0 : 0 <= L) (HLu : 0 <= Lu) (Lip : LipXin f L Lu).
Context (Lz Lzu Lq Lqu : R) (HLz0 : 0 <= Lz) (HLzu0 : 0 <= Lzu) (HLq0 : 0 <= Lq) (HLqu0 : 0 <= Lqu) (HLz : LipZin f Lz Lzu) (HLq : LipQin f Lq Lqu).
Context (c : R) (Hc : 0 <= c).
(** The constants depend on the problem's constants, the points and the interval only, not on the solution or the grid. *)
Theorem rate_scheme : exists C dl0, 0 <= C /\ 0 < dl0 /\ forall xd xs zs us pv qs qd, SolvesDae f [a; b] xd xs zs us pv g -> (forall i, (i < f_nx f)%nat -> Follows a b (xs i) (xd i) /\ LipOn a b c (xd i)) -> (forall i, (i < f_nu f)%nat -> LipOn a b c (us i)) ->
  (forall i, (i < f_nq f)%nat -> Follows a b (qs i) (qd i) /\ LipOn a b c (qd i)) -> (forall i v, (i < f_nq f)%nat -> a < v <= b -> qd i v = f_quad f (dae_at xd xs zs us pv g v) i) ->
  forall t dl u p rep x K Z s e, 0 <= dl <= dl0 -> FineGrid t a b dl -> TakenFrom f t u p us pv -> VarsOk f (ivals t) order rep x K Z u p -> scheme_ cspts f t order method g rep x K Z u p = Ok s -> veccat_master (sc_eq s) = Ok e -> AllZero e -> (forall i, (i < f_nx f)%nat -> Rabs (at_m x i 0 - xs i a) <= dl) ->
  (forall n i, (n <= ivals t)%nat -> (i < f_nx f)%nat -> Rabs (at_m x i n - xs i (node t n)) <= C * dl) /\
  (forall n j i, (n < ivals t)%nat -> (j < order)%nat -> (i < f_nx f)%nat -> Rabs (at_m (sc_X s) i (n * order + j) - xs i (node (sc_tc s) (n * order + j))) <= C * dl /\ Rabs (at_m K i (n * order + j) - xd i (node (sc_tc s) (n * order + j))) <= C * dl) /\
  (forall pp i v, piecewise_X s x K = Ok pp -> (i < f_nx f)%nat -> a < v <= b -> Rabs (ppval pp "left" i v - xs i v) <= C * dl) /\
  (forall n j i, (n < ivals t)%nat -> (j < order)%nat -> (i < f_nz f)%nat -> Rabs (at_m Z i (n * order + j) - zs i (node (sc_tc s) (n * order + j))) <= C * dl) /\
  (forall n i, (n <= ivals t)%nat -> (i < f_nq f)%nat -> Rabs (at_m (sc_q s) i n - (qs i (node t n) - qs i a)) <= C * dl) /\
  (forall n j i, (n < ivals t)%nat -> (j < order)%nat -> (i < f_nq f)%nat -> Rabs (at_m (sc_Q s) i (n * order + j) - (qs i (node (sc_tc s) (n * order + j)) - qs i a)) <= C * dl).
Proof.
  destruct (refine_constants cspts order method tau HP HU) as (al & lam & Hal & Hl0 & Hlam). pose proof (conv_al cspts order method tau HP al Hal) as Ha.
  set (C1 := exp (2 * al * L * (b - a)) * (1 + (b - a) * (al * Lu + (1 + al)))). assert (HC1 : 0 <= C1) by exact (conv_pos cspts order method tau a b HP Hab L Lu HLu al Hal).
  set (Cq := al * (Lq * (2 * C1) + Lqu) + (1 + al)). set (C2 := C1 + 2 * C1 + (L * (2 * C1) + Lu) + (lam * (2 * C1 + 1) + 1) + (Lz * (2 * C1) + Lzu) + (b - a) * Cq).
  assert (Q1 : 0 <= L * (2 * C1)) by (apply Rmult_le_pos; lra). assert (Q2 : 0 <= lam * (2 * C1 + 1)) by (apply Rmult_le_pos; lra). assert (Q3 : 0 <= Lz * (2 * C1)) by (apply Rmult_le_pos; lra). assert (Q4 : 0 <= Lq * (2 * C1)) by (apply Rmult_le_pos; lra).
  assert (Q5 : 0 <= al * (Lq * (2 * C1) + Lqu)) by (apply Rmult_le_pos; lra). assert (Q6 : 0 <= Cq) by (unfold Cq; lra). assert (Q7 : 0 <= (b - a) * Cq) by (apply Rmult_le_pos; lra).
  assert (HaL : 0 <= al * L) by now apply Rmult_le_pos. assert (P3 : 0 < / (2 * (al * L + 1))) by (apply Rinv_0_lt_compat; lra).
  assert (exists dl0, 0 < dl0 /\ dl0 <= 1 /\ dl0 <= / (2 * (al * L + 1))) as (dl0 & P0 & P1 & P2) by (exists (Rmin 1 (/ (2 * (al * L + 1)))); split; [apply Rmin_pos; lra|split; [apply Rmin_l|apply Rmin_r]]).
  exists (C2 * (1 + c)), dl0. split; [apply Rmult_le_pos; unfold C2; lra|]. split; [exact P0|]. intros xd xs zs us pv qs qd HSol Hx Hus Hq HQd t dl u p rep x K Z s e [Hdl0 Hdl] HG HTf HV Es Ee Hz E0.
  set (D := (1 + c) * dl). replace (C2 * (1 + c) * dl) with (C2 * D) by (unfold D; ring). assert (Hcd : 0 <= c * dl) by now apply Rmult_le_pos. assert (HdD : dl <= D) by (unfold D; lra). assert (HcD : c * dl <= D) by (unfold D; lra). assert (HD0 : 0 <= D) by lra.
  assert (LD : forall h v w, LipOn a b c h -> a <= v <= b -> a <= w <= b -> Rabs (v - w) <= dl -> Rabs (h v - h w) <= D) by (intros h v w Hh Hv Hw Hvw; specialize (Hh v w Hv Hw); apply (Rmult_le_compat_l c) in Hvw; [|exact Hc]; lra).
  assert (H1 : (1 <= order)%nat) by (destruct HP as (_ & _ & _ & H'); exact H'). pose proof HG as (HA & HL & Ea & Eb & Hst).
  assert (HS : ShortSteps t al L) by (apply (fine_short t a b _ HG); [exact Ha|exact HL0|lra]).
  assert (HSt : SolvesDae f t xd xs zs us pv g) by (intros v r Hv Hr; apply HSol; [unfold node; simpl; lra|exact Hr]).
  assert (HF : NearFed f t D g g u p us pv) by (apply (fine_fed t a b _ HG); [exact HD0|intros i v z Hi; apply LD; now apply Hus|exact HTf]).
  assert (HCl : forall i, (i < f_nx f)%nat -> Close t order D (xs i) (xd i)) by (intros i Hi; apply (fine_close t a b _ HG); [exact H1|apply (Hx i Hi)|intros v z; apply LD; apply (Hx i Hi)]).
  assert (HQc : forall i, (i < f_nq f)%nat -> Close t order D (qs i) (qd i)) by (intros i Hi; apply (fine_close t a b _ HG); [exact H1|apply (Hq i Hi)|intros v z; apply LD; apply (Hq i Hi)]).
  destruct (fed_error cspts f t order method tau g g HP HL HD HT HA HU al L Lu D D D Hal HS Lip HLu HD0 HD0 HD0 xd xs zs us pv u p HSt HF HCl rep x K Z s e HV Es Ee Hz) as (G1 & G2 & G3 & G4 & G5 & G6); [intros i Hi; rewrite Ea; specialize (E0 i Hi); lra|].
  assert (Bn : forall n, (n <= ivals t)%nat -> fedB al L Lu D D D t n <= C1 * D) by (intros n Hn; exact (conv_bound cspts order method tau a b HP L Lu HL0 HLu al Hal t dl n D HD0 HG Hn)).
  destruct (G5 Lq Lqu D qs qd HLq0 HLqu0 HD0 HLq HQc) as [G7 G8]; [intros i v Hi Hv; apply HQd; [exact Hi|lra]|].
  assert (T1 : 0 <= C1 * D) by (apply Rmult_le_pos; lra). assert (T2 : 0 <= L * (2 * C1) * D) by (apply Rmult_le_pos; lra). assert (T3 : 0 <= lam * (2 * C1 + 1) * D) by (apply Rmult_le_pos; lra). assert (T4 : 0 <= Lu * D) by (apply Rmult_le_pos; lra).
  assert (T5 : 0 <= (Lz * (2 * C1) + Lzu) * D) by (apply Rmult_le_pos; lra). assert (T6 : 0 <= (b - a) * Cq * D) by (apply Rmult_le_pos; lra).
  assert (EC : C2 * D = C1 * D + 2 * (C1 * D) + (L * (2 * C1) * D + Lu * D) + (lam * (2 * C1 + 1) * D + D) + (Lz * (2 * C1) + Lzu) * D + (b - a) * Cq * D) by (unfold C2; ring).
  assert (Qb : forall n, (n <= ivals t)%nat -> (node t n - node t 0) * (al * (Lq * (2 * fedB al L Lu D D D t n) + Lqu * D) + (1 + al) * D) <= (b - a) * Cq * D).
  { intros n Hn. pose proof (fine_in t a b _ HG n Hn) as I. pose proof (carry_tpos t HA n Hn) as Ht. pose proof (Bn n Hn) as Bn1. replace ((b - a) * Cq * D) with ((b - a) * (Cq * D)) by ring. apply Rle_trans with ((node t n - node t 0) * (Cq * D)); [|apply Rmult_le_compat_r; [apply Rmult_le_pos; lra|lra]]. apply Rmult_le_compat_l; [exact Ht|]. unfold Cq.
    apply (Rmult_le_compat_l Lq) in Bn1; [|exact HLq0]. assert (Lq * (2 * fedB al L Lu D D D t n) + Lqu * D <= (Lq * (2 * C1) + Lqu) * D) as Hc' by lra. apply (Rmult_le_compat_l al) in Hc'; [|exact Ha]. lra. }
  rewrite Ea in G7, G8, Qb. clearbody C1 Cq C2 D. split; [|split; [|split; [|split; [|split]]]].
  - intros n i Hn Hi. pose proof (G1 n i Hn Hi). pose proof (Bn n Hn). lra.
  - intros n j i Hn Hj Hi. pose proof (Bn (n + 1)%nat ltac:(lia)) as Bn1. split; [pose proof (G2 n j i Hn Hj Hi); lra|]. pose proof (G3 n j i Hn Hj Hi) as G. apply (Rmult_le_compat_l L) in Bn1; [|exact HL0]. lra.
  - intros pp i v Epp Hi Hv. destruct (covered t v (ivals t)) as (n & Hn & Hvn); [lra|]. pose proof (G6 lam pp Hlam Epp n i v Hn Hi Hvn) as G. pose proof (Bn (n + 1)%nat ltac:(lia)) as Bn1. pose proof (step_pos t n HA Hn) as Hh. specialize (Hst n Hn). assert (HsD : step t n * D <= 1 * D) by (apply Rmult_le_compat_r; lra).
    assert (lam * (2 * fedB al L Lu D D D t (n + 1) + step t n * D) <= lam * ((2 * C1 + 1) * D)) by (apply Rmult_le_compat_l; [exact Hl0|]; lra). lra.
  - intros n j i Hn Hj Hi. pose proof (G4 Lz Lzu HLz n j i Hn Hj Hi) as G. pose proof (Bn (n + 1)%nat ltac:(lia)) as Bn1. apply (Rmult_le_compat_l Lz) in Bn1; [|exact HLz0]. lra.
  - intros n i Hn Hi. pose proof (G7 n i Hn Hi). pose proof (Qb n Hn). lra.
  - intros n j i Hn Hj Hi. pose proof (G8 n j i Hn Hj Hi). pose proof (Qb (n + 1)%nat ltac:(lia)). lra.
Qed.
Theorem rate_integrator : f_ndae f = (f_nx f + f_nz f)%nat -> exists C dl0, 0 <= C /\ 0 < dl0 /\ forall xd xs zs us pv qs qd, SolvesDae f [a; b] xd xs zs us pv g -> (forall i, (i < f_nx f)%nat -> Follows a b (xs i) (xd i) /\ LipOn a b c (xd i)) -> (forall i, (i < f_nu f)%nat -> LipOn a b c (us i)) ->
  (forall i, (i < f_nq f)%nat -> Follows a b (qs i) (qd i) /\ LipOn a b c (qd i)) -> (forall i v, (i < f_nq f)%nat -> a < v <= b -> qd i v = f_quad f (dae_at xd xs zs us pv g v) i) ->
  forall t dl u p rf nan x0 z0 out pp, 0 <= dl <= dl0 -> FineGrid t a b dl -> TakenFrom f t u p us pv -> Shaped u (f_nu f) (ivals t) -> Shaped p (f_np f) 1 -> RootFinder rf ->
  integrate_ rf nan cspts f t order method g true x0 z0 u p = Ok (out, pp) -> (forall i, (i < f_nx f)%nat -> Rabs (x0 i - xs i a) <= dl) ->
  (forall n i, (n < ivals t)%nat -> (i < f_nx f)%nat -> Rabs (at_m (io_xf out) i n - xs i (node t (n + 1))) <= C * dl) /\
  (forall n j i, (n < ivals t)%nat -> (j < order)%nat -> (i < f_nx f)%nat -> Rabs (at_m (io_X out) i (n * order + j) - xs i (node (io_tc out) (n * order + j))) <= C * dl) /\
  (forall n j i, (n < ivals t)%nat -> (j < order)%nat -> (i < f_nz f)%nat -> Rabs (at_m (io_Z out) i (n * order + j) - zs i (node (io_tc out) (n * order + j))) <= C * dl) /\
  (forall i, (i < f_nq f)%nat -> Rabs (io_qf out i - (qs i b - qs i a)) <= C * dl) /\
  (forall i v, (i < f_nx f)%nat -> a < v <= b -> Rabs (ppval pp "left" i v - xs i v) <= C * dl).
Proof.
  intros Hsq. destruct rate_scheme as (C & dl0 & HC0 & Hd0 & B). exists C, dl0. split; [exact HC0|]. split; [exact Hd0|]. intros xd xs zs us pv qs qd HSol Hx Hus Hq HQd t dl u p rf nan x0 z0 out pp Hdl HG HTf Hu Hp Hrf.
  pose proof HG as (HA & HL & Ea & Eb & _). unfold integrate_. destruct (integrator_ rf nan cspts f t order method g x0 z0 u p) as [out'|] eqn:E; [|discriminate]. cbn [rbind negb].
  destruct (integrator_outputs cspts f t order method tau g HP HL HD HT Hsq rf nan x0 z0 u p Hu Hp out' Hrf E) as (s & A & b' & HV & Es & HR & HC & X0 & _ & Hxf & HX & _ & Htc & Hqf). rewrite Es. cbn [rbind]. destruct (piecewise_X s (io_x out') (io_K out')) as [pp'|] eqn:Epp; [|discriminate]. cbn [rbind]. intros [= -> ->] E0.
  destruct (scheme_all cspts f t order method tau g false _ _ _ _ _ HP HL HD HT HV A b' HR) as (s1 & e & E1 & Ee & Hz & _). rewrite Es in E1. injection E1 as <-. apply Hz in HC.
  destruct (B xd xs zs us pv qs qd HSol Hx Hus Hq HQd t dl u p false _ _ _ s e Hdl HG HTf HV Es Ee HC) as (G1 & G2 & G3 & G4 & G5 & _); [intros i Hi; rewrite X0 by exact Hi; exact (E0 i Hi)|].
  split; [intros n i Hn Hi; rewrite Hxf; apply G1; [lia|exact Hi]|]. rewrite HX. split; [intros n j i Hn Hj Hi; rewrite Htc; apply G2; assumption|]. split; [intros n j i Hn Hj Hi; rewrite Htc; apply G4; assumption|]. split.
  - intros i Hi. rewrite Hqf, <- Eb. apply G5; [lia|exact Hi].
  - intros i v Hi Hv. now apply G3.
Qed.
End Rate.
