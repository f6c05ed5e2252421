(** First-order convergence on refined grids independent of stiffness (C117). *)
From Coq Require Import Reals Lra.
From Coquelicot Require Import Coquelicot.
From Verif Require Import PyBase IndexModel DMModel DMProofs StructModel StructSpec PowerModel EntryModel StructsModel IneqModel DaeModel StructsSpec StructsThms11 NumModel NumInst NumSpec PolynomialModel PiecewiseModel PdqModel SchemeModel
  PolySpec PiecewiseSpec PdqSpec SchemeSpec PolyMath PolynomialBase PolynomialThms PolynomialThms2 PiecewiseThms PdqThms PdqThms2 SchemeThms SchemeThms2 SchemeThms3 SchemeThms4 SchemeThms5 OrderSpec OrderMath OrderThms ConvSpec ConvThms GridSpec GridThms ErrSpec ErrThms SuperSpec SuperThms StiffThms MonoSpec MonoThms MonoThms2 MonoThms3 MonoThms4 DissSpec DissThms DissThms2 DissThms3 DissThms4 DissErrThms SensSpec SensThms SensThms2 Sens2Spec SensThms3 RefineSpec RefineThms RefineThms2 RefineThms3 StiffRefThms.
Open Scope R_scope.

(** The rates [nu], [Lu], [Lz], [Lzu], [Lq], [Lqu], [c] and the length [T] of the interval determine the constant, whatever the DAE. *)
Section Rate.
Context (tau : list R) (m : nat) (S_ : nat -> nat -> R) (Hd : NoDup tau) (H1 : (1 <= length tau)%nat) (HG : GaussRadau tau) (HS : PosDef m S_).
Context (nu Lu Lz Lzu Lq Lqu c T : R) (Hnu : 0 <= nu) (HLu : 0 <= Lu) (HLz0 : 0 <= Lz) (HLzu0 : 0 <= Lzu) (HLq0 : 0 <= Lq) (HLqu0 : 0 <= Lqu) (Hc : 0 <= c) (HT0 : 0 <= T).
Theorem stiff_rate : exists C, 0 <= C /\ forall cspts f order method g a b L G H, Points cspts order method tau -> DaeOk f -> TdpOk f g -> f_nx f = m -> a < b <= a + T -> OneSided f S_ nu -> Resolvable f G H -> LipDae f L -> LipInput f Lu -> LipZin f Lz Lzu -> LipQin f Lq Lqu ->
  forall xd xs zs us pv qs qd, SolvesDae f [a; b] xd xs zs us pv g -> (forall i, (i < m)%nat -> Follows a b (xs i) (xd i) /\ LipOn a b c (xd i)) -> (forall i, (i < f_nu f)%nat -> LipOn a b c (us i)) ->
  (forall i, (i < f_nq f)%nat -> Follows a b (qs i) (qd i) /\ LipOn a b c (qd i)) -> (forall i v, (i < f_nq f)%nat -> a < v <= b -> qd i v = f_quad f (dae_at xd xs zs us pv g v) i) ->
  forall t dl u p rep x K Z s e, 0 <= dl -> dl * nu <= 1 / 8 -> FineGrid t a b dl -> TakenFrom f t u p us pv -> VarsOk f (ivals t) order rep x K Z u p -> scheme_ cspts f t order method g rep x K Z u p = Ok s -> veccat_master (sc_eq s) = Ok e -> AllZero e -> (forall i, (i < m)%nat -> Rabs (at_m x i 0 - xs i a) <= dl) ->
  (forall n i, (n <= ivals t)%nat -> (i < m)%nat -> Rabs (at_m x i n - xs i (node t n)) <= C * dl) /\
  (forall n j i, (n < ivals t)%nat -> (j < order)%nat -> (i < m)%nat -> Rabs (at_m (sc_X s) i (n * order + j) - xs i (node (sc_tc s) (n * order + j))) <= C * dl) /\
  (forall pp i v, piecewise_X s x K = Ok pp -> (i < m)%nat -> a < v <= b -> Rabs (ppval pp "left" i v - xs i v) <= C * dl) /\
  (forall n j i, (n < ivals t)%nat -> (j < order)%nat -> (i < f_nz f)%nat -> Rabs (at_m Z i (n * order + j) - zs i (node (sc_tc s) (n * order + j))) <= C * dl) /\
  (forall n i, (n <= ivals t)%nat -> (i < f_nq f)%nat -> Rabs (at_m (sc_q s) i n - (qs i (node t n) - qs i a)) <= C * dl) /\
  (forall n j i, (n < ivals t)%nat -> (j < order)%nat -> (i < f_nq f)%nat -> Rabs (at_m (sc_Q s) i (n * order + j) - (qs i (node (sc_tc s) (n * order + j)) - qs i a)) <= C * dl).
Proof.
  destruct (stiff_fed tau m S_ Hd H1 HG HS) as (C0 & al & lam & HC0 & Ha & Hl0 & B). set (Sn := sqrt (Sum m (fun i => Sum m (fun j => Rabs (S_ i j))))). assert (HSn : 0 <= Sn) by apply sqrt_pos.
  set (C1 := C0 * (exp (C0 * nu * T) * (Sn + T * (C0 * (Lu + 1))))). assert (HC1 : 0 <= C1) by (apply Rmult_le_pos; [exact HC0|]; apply Rmult_le_pos; [left; apply exp_pos|]; apply Rplus_le_le_0_compat; [exact HSn|]; apply Rmult_le_pos; [exact HT0|]; apply Rmult_le_pos; lra).
  set (Cq := al * (Lq * C1 + Lqu) + (1 + al)). set (C2 := C1 + (lam * (C1 + T) + T) + (Lz * C1 + Lzu) + T * Cq).
  assert (Q2 : 0 <= lam * (C1 + T)) by (apply Rmult_le_pos; lra). assert (Q3 : 0 <= Lz * C1) by (apply Rmult_le_pos; lra). assert (Q4 : 0 <= Lq * C1) by (apply Rmult_le_pos; lra). assert (Q5 : 0 <= al * (Lq * C1 + Lqu)) by (apply Rmult_le_pos; lra). assert (Q6 : 0 <= Cq) by (unfold Cq; lra). assert (Q7 : 0 <= T * Cq) by (apply Rmult_le_pos; lra).
  exists (C2 * (1 + c)). split; [apply Rmult_le_pos; unfold C2; lra|]. intros cspts f order method g a b L G H HP HDa HT Em [Hab HbT] HO HRes Lip HLi HLz HLq xd xs zs us pv qs qd HSol Hx Hus Hq HQd t dl u p rep x K Z s e Hdl0 Hdln HFg HTf HV Es Ee Hz E0.
  set (D := (1 + c) * dl). replace (C2 * (1 + c) * dl) with (C2 * D) by (unfold D; ring). assert (Hcd : 0 <= c * dl) by now apply Rmult_le_pos. assert (HdD : dl <= D) by (unfold D; lra). assert (HcD : c * dl <= D) by (unfold D; lra). assert (HD0 : 0 <= D) by lra.
  assert (LD : forall h v w, LipOn a b c h -> a <= v <= b -> a <= w <= b -> Rabs (v - w) <= dl -> Rabs (h v - h w) <= D) by (intros h v w Hh Hv Hw Hvw; specialize (Hh v w Hv Hw); apply (Rmult_le_compat_l c) in Hvw; [|exact Hc]; lra).
  assert (Ho : (1 <= order)%nat) by (destruct HP as (_ & _ & _ & H'); exact H'). pose proof HFg as (HA & HL & Ea & Eb & Hst).
  assert (HMs : MildSteps t nu) by (split; [exact Hnu|]; intros n Hn; specialize (Hst n Hn); apply (Rmult_le_compat_r nu) in Hst; [lra|exact Hnu]).
  assert (HSt : SolvesDae f t xd xs zs us pv g) by (intros v r Hv Hr; apply HSol; [unfold node; simpl; lra|exact Hr]).
  assert (HF : NearFed f t D g g u p us pv) by (apply (fine_fed t a b _ HFg); [exact HD0|intros i v z Hi; apply LD; now apply Hus|exact HTf]).
  assert (HCl : forall i, (i < m)%nat -> Close t order D (xs i) (xd i)) by (intros i Hi; apply (fine_close t a b _ HFg); [exact Ho|apply (Hx i Hi)|intros v z; apply LD; apply (Hx i Hi)]).
  assert (HQc : forall i, (i < f_nq f)%nat -> Close t order D (qs i) (qd i)) by (intros i Hi; apply (fine_close t a b _ HFg); [exact Ho|apply (Hq i Hi)|intros v z; apply LD; apply (Hq i Hi)]).
  destruct (B cspts f t order method nu L G H Lu D D g g xd xs zs us pv u p HP HL HDa HT Em HA HO HMs HRes Lip HLu HD0 HD0 HLi HSt HF HCl rep x K Z s e HV Es Ee Hz) as (_ & G1 & G2 & G4 & G5 & G6).
  assert (EE : err m S_ x xs t 0%nat <= Sn * D) by (apply norm_sup; [now apply posdef_psd|exact HD0|]; intros i Hi; rewrite Ea; specialize (E0 i Hi); lra). assert (HE0 : 0 <= err m S_ x xs t 0%nat) by apply norm_pos. set (ee := err m S_ x xs t 0%nat) in *.
  assert (Bn : forall n, (n <= ivals t)%nat -> C0 * stiffF C0 nu Lu D D ee t n <= C1 * D).
  { intros n Hn. pose proof (carry_tpos t HA n Hn) as Ht. pose proof (fine_in t a b _ HFg n Hn) as I. rewrite Ea in *. assert (HnT : node t n - a <= T) by lra. unfold C1. rewrite !Rmult_assoc. apply Rmult_le_compat_l; [exact HC0|]. assert (HC2 : 0 <= C0 * ((Lu + 1) * D)) by (apply Rmult_le_pos; [exact HC0|apply Rmult_le_pos; lra]).
    replace (Lu * D + D) with ((Lu + 1) * D) by ring. apply Rmult_le_compat; [left; apply exp_pos|apply Rplus_le_le_0_compat; [exact HE0|now apply Rmult_le_pos]|apply exp_le; rewrite <- !Rmult_assoc; apply Rmult_le_compat_l; [now apply Rmult_le_pos|exact HnT]|].
    replace ((Sn + T * (C0 * (Lu + 1))) * D) with (Sn * D + T * (C0 * ((Lu + 1) * D))) by ring. apply Rplus_le_compat; [exact EE|]. apply Rmult_le_compat_r; [exact HC2|exact HnT]. }
  destruct (G5 Lq Lqu D qs qd HLq0 HLqu0 HD0 HLq HQc) as [G7 G8]; [intros i v Hi Hv; apply HQd; [exact Hi|lra]|].
  assert (T1 : 0 <= C1 * D) by (apply Rmult_le_pos; lra). assert (T3 : 0 <= lam * (C1 + T) * D) by (apply Rmult_le_pos; lra). assert (T4 : 0 <= T * D) by (apply Rmult_le_pos; lra).
  assert (T5 : 0 <= (Lz * C1 + Lzu) * D) by (apply Rmult_le_pos; lra). assert (T6 : 0 <= T * Cq * D) by (apply Rmult_le_pos; lra).
  assert (EC : C2 * D = C1 * D + (lam * (C1 + T) * D + T * D) + (Lz * C1 + Lzu) * D + T * Cq * D) by (unfold C2; ring).
  assert (Qb : forall n, (n <= ivals t)%nat -> (node t n - node t 0) * (al * (Lq * (C0 * stiffF C0 nu Lu D D ee t n) + Lqu * D) + (1 + al) * D) <= T * Cq * D).
  { intros n Hn. pose proof (fine_in t a b _ HFg n Hn) as I. pose proof (carry_tpos t HA n Hn) as Ht. pose proof (Bn n Hn) as Bn1. replace (T * Cq * D) with (T * (Cq * D)) by ring. apply Rle_trans with ((node t n - node t 0) * (Cq * D)); [|apply Rmult_le_compat_r; [apply Rmult_le_pos; lra|lra]]. apply Rmult_le_compat_l; [exact Ht|]. unfold Cq.
    apply (Rmult_le_compat_l Lq) in Bn1; [|exact HLq0]. assert (Lq * (C0 * stiffF C0 nu Lu D D ee t n) + Lqu * D <= (Lq * C1 + Lqu) * D) as Hc' by lra. apply (Rmult_le_compat_l al) in Hc'; [|exact Ha]. lra. }
  rewrite Ea in G7, G8, Qb. clearbody C1 Cq C2 D ee. split; [|split; [|split; [|split; [|split]]]].
  - intros n i Hn Hi. pose proof (G1 n i Hn Hi). pose proof (Bn n Hn). lra.
  - intros n j i Hn Hj Hi. pose proof (Bn (n + 1)%nat ltac:(lia)) as Bn1. pose proof (G2 n j i Hn Hj Hi). lra.
  - intros pp i v Epp Hi Hv. destruct (covered t v (ivals t)) as (n & Hn & Hvn); [lra|]. pose proof (G6 pp Epp n i v Hn Hi Hvn) as G'. pose proof (Bn (n + 1)%nat ltac:(lia)) as Bn1. pose proof (step_pos t n HA Hn) as Hh. pose proof (fine_in t a b _ HFg n ltac:(lia)) as I1. pose proof (fine_in t a b _ HFg (n + 1)%nat ltac:(lia)) as I2. assert (HsD : step t n * D <= T * D) by (apply Rmult_le_compat_r; [exact HD0|unfold step; lra]).
    assert (lam * (C0 * stiffF C0 nu Lu D D ee t (n + 1) + step t n * D) <= lam * ((C1 + T) * D)) by (apply Rmult_le_compat_l; [exact Hl0|]; lra). lra.
  - intros n j i Hn Hj Hi. pose proof (G4 Lz Lzu HLz n j i Hn Hj Hi) as G'. pose proof (Bn (n + 1)%nat ltac:(lia)) as Bn1. apply (Rmult_le_compat_l Lz) in Bn1; [|exact HLz0]. lra.
  - intros n i Hn Hi. pose proof (G7 n i Hn Hi). pose proof (Qb n Hn). lra.
  - intros n j i Hn Hj Hi. pose proof (G8 n j i Hn Hj Hi). pose proof (Qb (n + 1)%nat ltac:(lia)). lra.
Qed.
Theorem stiff_rate_integrator : exists C, 0 <= C /\ forall cspts f order method g a b L G H, Points cspts order method tau -> DaeOk f -> TdpOk f g -> f_nx f = m -> f_ndae f = (f_nx f + f_nz f)%nat -> a < b <= a + T -> OneSided f S_ nu -> Resolvable f G H -> LipDae f L -> LipInput f Lu -> LipZin f Lz Lzu -> LipQin f Lq Lqu ->
  forall xd xs zs us pv qs qd, SolvesDae f [a; b] xd xs zs us pv g -> (forall i, (i < m)%nat -> Follows a b (xs i) (xd i) /\ LipOn a b c (xd i)) -> (forall i, (i < f_nu f)%nat -> LipOn a b c (us i)) ->
  (forall i, (i < f_nq f)%nat -> Follows a b (qs i) (qd i) /\ LipOn a b c (qd i)) -> (forall i v, (i < f_nq f)%nat -> a < v <= b -> qd i v = f_quad f (dae_at xd xs zs us pv g v) i) ->
  forall t dl u p rf nan x0 z0 out pp, 0 <= dl -> dl * nu <= 1 / 8 -> FineGrid t a b dl -> TakenFrom f t u p us pv -> Shaped u (f_nu f) (ivals t) -> Shaped p (f_np f) 1 -> RootFinder rf ->
  integrate_ rf nan cspts f t order method g true x0 z0 u p = Ok (out, pp) -> (forall i, (i < m)%nat -> Rabs (x0 i - xs i a) <= dl) ->
  (forall n i, (n < ivals t)%nat -> (i < m)%nat -> Rabs (at_m (io_xf out) i n - xs i (node t (n + 1))) <= C * dl) /\
  (forall n j i, (n < ivals t)%nat -> (j < order)%nat -> (i < m)%nat -> Rabs (at_m (io_X out) i (n * order + j) - xs i (node (io_tc out) (n * order + j))) <= C * dl) /\
  (forall n j i, (n < ivals t)%nat -> (j < order)%nat -> (i < f_nz f)%nat -> Rabs (at_m (io_Z out) i (n * order + j) - zs i (node (io_tc out) (n * order + j))) <= C * dl) /\
  (forall i, (i < f_nq f)%nat -> Rabs (io_qf out i - (qs i b - qs i a)) <= C * dl) /\
  (forall i v, (i < m)%nat -> a < v <= b -> Rabs (ppval pp "left" i v - xs i v) <= C * dl).
Proof.
  destruct stiff_rate as (C & HC0 & B). exists C. split; [exact HC0|]. intros cspts f order method g a b L G H HP HDa HT Em Hsq Hab HO HRes Lip HLi HLz HLq xd xs zs us pv qs qd HSol Hx Hus Hq HQd t dl u p rf nan x0 z0 out pp Hdl Hdn HFg HTf Hu Hp Hrf.
  pose proof HFg as (HA & HL & Ea & Eb & _). unfold integrate_. destruct (integrator_ rf nan cspts f t order method g x0 z0 u p) as [out'|] eqn:E; [|discriminate]. cbn [rbind negb].
  destruct (integrator_outputs cspts f t order method tau g HP HL HDa HT Hsq rf nan x0 z0 u p Hu Hp out' Hrf E) as (s & A & b' & HV & Es & HR & HC & X0 & _ & Hxf & HX & _ & Htc & Hqf). rewrite Es. cbn [rbind]. destruct (piecewise_X s (io_x out') (io_K out')) as [pp'|] eqn:Epp; [|discriminate]. cbn [rbind]. intros [= -> ->] E0.
  destruct (scheme_all cspts f t order method tau g false _ _ _ _ _ HP HL HDa HT HV A b' HR) as (s1 & e & E1 & Ee & Hz & _). rewrite Es in E1. injection E1 as <-. apply Hz in HC.
  destruct (B cspts f order method g a b L G H HP HDa HT Em Hab HO HRes Lip HLi HLz HLq xd xs zs us pv qs qd HSol Hx Hus Hq HQd t dl u p false _ _ _ s e Hdl Hdn HFg HTf HV Es Ee HC) as (G1 & G2 & G3 & G4 & G5 & _); [intros i Hi; rewrite X0 by lia; exact (E0 i Hi)|].
  split; [intros n i Hn Hi; rewrite Hxf; apply G1; [lia|exact Hi]|]. rewrite HX. split; [intros n j i Hn Hj Hi; rewrite Htc; apply G2; assumption|]. split; [intros n j i Hn Hj Hi; rewrite Htc; apply G4; assumption|]. split.
  - intros i Hi. rewrite Hqf, <- Eb by exact Hi. apply G5; [lia|exact Hi].
  - intros i v Hi Hv. now apply G3.
Qed.
End Rate.
