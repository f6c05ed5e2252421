(** Dissipative dynamics: schemes and integrators (C108). *)
From Coq Require Import Reals Lra.
From Coquelicot Require Import Coquelicot.
From Verif Require Import PyBase IndexModel DMModel DMProofs StructModel StructSpec PowerModel EntryModel StructsModel IneqModel DaeModel StructsSpec StructsThms11 NumModel NumInst NumSpec PolynomialModel PiecewiseModel PdqModel SchemeModel
  PolySpec PiecewiseSpec PdqSpec SchemeSpec PolyMath PolynomialBase PolynomialThms PolynomialThms2 PiecewiseThms PdqThms PdqThms2 SchemeThms SchemeThms2 SchemeThms3 SchemeThms4 SchemeThms5 OrderSpec OrderMath OrderThms ConvSpec ConvThms GridSpec GridThms StiffThms MonoSpec MonoThms MonoThms2 MonoThms3.
Open Scope R_scope.

Lemma rk_exists tau : NoDup tau -> exists A b, RungeKutta tau A b.
Proof. intros Hd. destruct (butcher_exact tau Hd) as (tb & _ & _ & _ & _ & _ & H). exists (at_m (tb_A tb)), (node (tb_b tb)). exact H. Qed.

Section Scheme.
Context (cspts : nat -> string -> res (list R)) (f : daefun R) (t : list R) (order : nat) (method : string) (tau : list R) (g : option (R -> mat R)) (rep : bool).
Context (HP : Points cspts order method tau) (HL : (2 <= length t)%nat) (HD : DaeOk f) (HT : TdpOk f g) (HA : Asc t).
Context (S_ : nat -> nat -> R) (nu : R) (HS : PosDef (f_nx f) S_) (HO : OneSided f S_ nu) (HM : Moderate t tau nu).
Notation N := (ivals t).
Notation sch x K Z u p := (scheme_ cspts f t order method g rep x K Z u p).

Theorem mono_exists G H L u p (x0 : nat -> R) : Resolvable f G H -> LipDae f L -> Shaped u (f_nu f) N -> Shaped p (f_np f) (if rep then N * order else 1)%nat ->
  (rep = true -> forall i k l, (i < f_np f)%nat -> (k < N * order)%nat -> (l < N * order)%nat -> at_m p i k = at_m p i l) ->
  exists x K Z s e, VarsOk f N order rep x K Z u p /\ (forall i, (i < f_nx f)%nat -> at_m x i 0 = x0 i) /\ sch x K Z u p = Ok s /\ veccat_master (sc_eq s) = Ok e /\ AllZero e.
Proof.
  intros HG Lip Hu Hp Hrep. pose proof HP as (_ & Hd & Hlen & H1). destruct (rk_exists tau Hd) as (A & b & HR).
  apply (steps_solve cspts f t order method tau g rep HP HL HD HT A b G H u p x0 HR HG Hu Hp Hrep). intros X n Hn.
  destruct (moderate_coercive t tau nu A b Hd ltac:(lia) HR HM) as (Hz & al & d & Hco & Hst). pose proof (step_pos t n HA Hn) as Hh.
  set (ar := fun j (v : nat -> R) => DArgs (fun _ => 0) v (fun _ => 0) (fun i => at_m u i n) (fun i => at_m p i (if rep then n * order + j else 0)%nat) (stage_t t tau n j) (tdp_at g (stage_t t tau n j))).
  destruct (step_solvable tau A b order (f_nx f) S_ al nu L (step t n) d X (fun j v => G (ar j v)) Hlen Hd Hz HR HS Hco Hh (Hst n Hn)) as (k & Hk).
  - intros j v w Hj. exact (HO _ _ (HG (ar j v)) (HG (ar j w)) ltac:(repeat split; intros; reflexivity)).
  - intros j v w e Hj Hv. exact (Lip _ _ (HG (ar j v)) (HG (ar j w)) ltac:(repeat split; intros; reflexivity) e Hv).
  - exists k. exact Hk.
Qed.

Section Two.
Context (x K Z u p x' K' Z' : mat R) (HV : VarsOk f N order rep x K Z u p) (HV' : VarsOk f N order rep x' K' Z' u p) (s s' : scheme R) (e e' : list R).
Context (Es : sch x K Z u p = Ok s) (Ee : veccat_master (sc_eq s) = Ok e) (Hz : AllZero e) (Es' : sch x' K' Z' u p = Ok s') (Ee' : veccat_master (sc_eq s') = Ok e') (Hz' : AllZero e') (E0 : forall i, (i < f_nx f)%nat -> at_m x i 0 = at_m x' i 0).
Theorem mono_scheme_unique :
  (forall n i, (n <= N)%nat -> (i < f_nx f)%nat -> at_m x i n = at_m x' i n) /\ (forall n j i, (n < N)%nat -> (j < order)%nat -> (i < f_nx f)%nat -> at_m K i (n * order + j) = at_m K' i (n * order + j)) /\
  (forall n j i, (n < N)%nat -> (j < order)%nat -> (i < f_nx f)%nat -> at_m (sc_X s) i (n * order + j) = at_m (sc_X s') i (n * order + j)) /\
  (DeterminesZ f -> (forall n j i, (n < N)%nat -> (j < order)%nat -> (i < f_nz f)%nat -> at_m Z i (n * order + j) = at_m Z' i (n * order + j)) /\ (forall n i, (n <= N)%nat -> (i < f_nq f)%nat -> at_m (sc_q s) i n = at_m (sc_q s') i n) /\
     (forall n j i, (n < N)%nat -> (j < order)%nat -> (i < f_nq f)%nat -> at_m (sc_Q s) i (n * order + j) = at_m (sc_Q s') i (n * order + j))).
Proof.
  pose proof HP as (_ & Hd & Hlen & H1). destruct (rk_exists tau Hd) as (A & b & HR).
  destruct (scheme_all cspts f t order method tau g rep x K Z u p HP HL HD HT HV A b HR) as (s1 & e1 & E1 & Ee1 & Hz1 & HX & _ & _ & Q0 & Qn & QQ). rewrite Es in E1. injection E1 as <-. rewrite Ee in Ee1. injection Ee1 as <-. apply Hz1 in Hz as HC.
  destruct (scheme_all cspts f t order method tau g rep x' K' Z' u p HP HL HD HT HV' A b HR) as (s1 & e1 & E1 & Ee1 & Hz2 & HX' & _ & _ & Q0' & Qn' & QQ'). rewrite Es' in E1. injection E1 as <-. rewrite Ee' in Ee1. injection Ee1 as <-. apply Hz2 in Hz' as HC'.
  destruct (mono_unique f t tau order rep g x K Z x' K' Z' u p A b Hlen H1 Hd HA HR HC HC' S_ nu HS HO HM E0) as [G1 G2].
  split; [exact G1|]. split; [intros n j i Hn Hj Hi; now apply G2|]. split; [intros n j i Hn Hj Hi; rewrite HX, HX' by assumption; now apply G2|]. intros HZ.
  pose proof (mono_unique_z f t tau order rep g x K Z x' K' Z' u p A b Hlen H1 Hd HA HR HC HC' S_ nu HS HO HM HZ E0) as SA.
  assert (FQ : forall n j i, (n < N)%nat -> (j < order)%nat -> f_quad f (stage t tau order A rep g x K Z u p n j) i = f_quad f (stage t tau order A rep g x' K' Z' u p n j) i) by (intros n j i Hn Hj; destruct HD as (_ & D2 & _); apply D2; now apply SA).
  split; [intros n j i Hn Hj Hi; destruct (SA n j Hn Hj) as (_ & _ & SZ & _); now apply SZ|].
  assert (Gq : forall n, (n <= N)%nat -> forall i, (i < f_nq f)%nat -> at_m (sc_q s) i n = at_m (sc_q s') i n).
  { induction n as [|n IH]; intros Hn i Hi; [rewrite Q0, Q0' by exact Hi; reflexivity|]. replace (S n) with (n + 1)%nat by lia. rewrite Qn, Qn' by (assumption || lia). rewrite (IH ltac:(lia) i Hi). do 2 f_equal. apply Sum_ext. intros l Hl. f_equal. apply FQ; [lia|exact Hl]. }
  split; [intros n i Hn Hi; now apply Gq|]. intros n j i Hn Hj Hi. rewrite QQ, QQ' by assumption. rewrite (Gq n ltac:(lia) i Hi). do 2 f_equal. apply Sum_ext. intros l Hl. f_equal. now apply FQ.
Qed.
End Two.
End Scheme.

Section Integrator.
Context (cspts : nat -> string -> res (list R)) (f : daefun R) (t : list R) (order : nat) (method : string) (tau : list R) (g : option (R -> mat R)) (u p : mat R).
Context (HP : Points cspts order method tau) (HL : (2 <= length t)%nat) (HD : DaeOk f) (HT : TdpOk f g) (HA : Asc t) (Hsq : f_ndae f = (f_nx f + f_nz f)%nat) (Hu : Shaped u (f_nu f) (ivals t)) (Hp : Shaped p (f_np f) 1).
Context (S_ : nat -> nat -> R) (nu : R) (HS : PosDef (f_nx f) S_) (HO : OneSided f S_ nu) (HM : Moderate t tau nu).
Notation N := (ivals t).
Theorem mono_integrator_unique x0 rf nan z0 out rf' nan' z0' out' : RootFinder rf -> RootFinder rf' -> integrator_ rf nan cspts f t order method g x0 z0 u p = Ok out -> integrator_ rf' nan' cspts f t order method g x0 z0' u p = Ok out' ->
  (forall n i, (n < N)%nat -> (i < f_nx f)%nat -> at_m (io_xf out) i n = at_m (io_xf out') i n) /\ (forall n j i, (n < N)%nat -> (j < order)%nat -> (i < f_nx f)%nat -> at_m (io_X out) i (n * order + j) = at_m (io_X out') i (n * order + j)) /\
  (DeterminesZ f -> (forall n j i, (n < N)%nat -> (j < order)%nat -> (i < f_nz f)%nat -> at_m (io_Z out) i (n * order + j) = at_m (io_Z out') i (n * order + j)) /\ (forall i, (i < f_nq f)%nat -> io_qf out i = io_qf out' i)).
Proof.
  intros Hrf Hrf' E E'. destruct (integrator_outputs cspts f t order method tau g HP HL HD HT Hsq rf nan x0 z0 u p Hu Hp out Hrf E) as (s & A & b & HV & Es & HR & HC & X0 & _ & Hxf & HX & _ & _ & Hqf). destruct (integrator_outputs cspts f t order method tau g HP HL HD HT Hsq rf' nan' x0 z0' u p Hu Hp out' Hrf' E') as (s' & A' & b' & HV' & Es' & HR' & HC' & X0' & _ & Hxf' & HX' & _ & _ & Hqf').
  destruct (scheme_all cspts f t order method tau g false _ _ _ _ _ HP HL HD HT HV A b HR) as (s1 & e & E2 & Ee & Hz & _). rewrite Es in E2. injection E2 as <-. apply Hz in HC.
  destruct (scheme_all cspts f t order method tau g false _ _ _ _ _ HP HL HD HT HV' A' b' HR') as (s1 & e' & E2 & Ee' & Hz' & _). rewrite Es' in E2. injection E2 as <-. apply Hz' in HC'.
  destruct (mono_scheme_unique cspts f t order method tau g false HP HL HD HT HA S_ nu HS HO HM _ _ _ u p _ _ _ HV HV' s s' e e' Es Ee HC Es' Ee' HC') as (U1 & _ & U3 & U4); [intros i Hi; now rewrite X0, X0'|].
  split; [intros n i Hn Hi; rewrite Hxf, Hxf'; apply U1; [lia|exact Hi]|]. split; [intros n j i Hn Hj Hi; rewrite HX, HX'; now apply U3|]. intros HZ. destruct (U4 HZ) as (V1 & V2 & _). split; [exact V1|]. intros i Hi. rewrite Hqf, Hqf'. now apply V2.
Qed.
End Integrator.
