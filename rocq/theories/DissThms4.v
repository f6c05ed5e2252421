(** Errors that do not depend on stiffness: schemes and integrators (C109). *)
From Coq Require Import Reals Lra.
From Coquelicot Require Import Coquelicot.
From Verif Require Import PyBase IndexModel DMModel DMProofs StructModel StructSpec PowerModel EntryModel StructsModel IneqModel DaeModel StructsSpec StructsThms11 NumModel NumInst NumSpec PolynomialModel PiecewiseModel PdqModel SchemeModel
  PolySpec PiecewiseSpec PdqSpec SchemeSpec PolyMath PolynomialBase PolynomialThms PolynomialThms2 PiecewiseThms PdqThms PdqThms2 SchemeThms SchemeThms2 SchemeThms3 SchemeThms4 SchemeThms5 OrderSpec OrderMath OrderThms ConvSpec ConvThms GridSpec GridThms SuperSpec SuperThms StiffThms MonoSpec MonoThms MonoThms2 MonoThms3 MonoThms4 DissSpec DissThms DissThms2 DissThms3.
Open Scope R_scope.

(** [err m S x xs t n]: the norm of the error at grid time [n] *)
Notation err m S x xs t n := (norm m S (fun i => at_m x i n - xs i (node t n))).
Theorem stiff_error tau m S_ : NoDup tau -> (1 <= length tau)%nat -> GaussRadau tau -> PosDef m S_ -> exists C, 0 <= C /\
  forall cspts f t order method g nu L G H D xd xs zs us pv u p, Points cspts order method tau -> (2 <= length t)%nat -> DaeOk f -> TdpOk f g -> f_nx f = m -> Asc t -> OneSided f S_ nu -> MildSteps t nu -> Resolvable f G H -> LipDae f L -> 0 <= D ->
  SolvesDae f t xd xs zs us pv g -> FedBy f t u p us pv -> (forall i, (i < m)%nat -> Close t order D (xs i) (xd i)) ->
  (forall rep x K Z s e, VarsOk f (ivals t) order rep x K Z u p -> scheme_ cspts f t order method g rep x K Z u p = Ok s -> veccat_master (sc_eq s) = Ok e -> AllZero e ->
     (forall n, (n <= ivals t)%nat -> err m S_ x xs t n <= exp (C * nu * (node t n - node t 0)) * (err m S_ x xs t 0%nat + (node t n - node t 0) * (C * D))) /\
     (forall n j i, (n < ivals t)%nat -> (j < order)%nat -> (i < m)%nat -> Rabs (at_m (sc_X s) i (n * order + j) - xs i (node (sc_tc s) (n * order + j))) <=
        C * (exp (C * nu * (node t n - node t 0)) * (err m S_ x xs t 0%nat + (node t (n + 1) - node t 0) * (C * D))))) /\
  (forall rf nan x0 z0 out, f_ndae f = (f_nx f + f_nz f)%nat -> Shaped u (f_nu f) (ivals t) -> Shaped p (f_np f) 1 -> RootFinder rf -> integrator_ rf nan cspts f t order method g x0 z0 u p = Ok out -> (forall i, (i < m)%nat -> xs i (node t 0) = x0 i) ->
     (forall n, (n < ivals t)%nat -> norm m S_ (fun i => at_m (io_xf out) i n - xs i (node t (n + 1))) <= exp (C * nu * (node t (n + 1) - node t 0)) * ((node t (n + 1) - node t 0) * (C * D))) /\
     (forall n j i, (n < ivals t)%nat -> (j < order)%nat -> (i < m)%nat -> Rabs (at_m (io_X out) i (n * order + j) - xs i (node (io_tc out) (n * order + j))) <=
        C * (exp (C * nu * (node t n - node t 0)) * ((node t (n + 1) - node t 0) * (C * D))))).
Proof.
  intros Hd H1 HG HS. destruct (rk_exists tau Hd) as (A & b & HR). destruct (grid_const tau A b (length tau) m S_ eq_refl H1 Hd HR HS HG) as (C & HC & B). exists C. split; [exact HC|].
  intros cspts f t order method g nu L G H D xd xs zs us pv u p HP HL HDa HT Em HA HO HMs HRes Lip HD HSol HF HCl. pose proof HP as (_ & _ & HM & _). rewrite <- HM in HCl.
  assert (Sch : forall rep x K Z s e, VarsOk f (ivals t) order rep x K Z u p -> scheme_ cspts f t order method g rep x K Z u p = Ok s -> veccat_master (sc_eq s) = Ok e -> AllZero e ->
     (forall n, (n <= ivals t)%nat -> err m S_ x xs t n <= exp (C * nu * (node t n - node t 0)) * (err m S_ x xs t 0%nat + (node t n - node t 0) * (C * D))) /\
     (forall n j i, (n < ivals t)%nat -> (j < order)%nat -> (i < m)%nat -> Rabs (at_m (sc_X s) i (n * order + j) - xs i (node (sc_tc s) (n * order + j))) <=
        C * (exp (C * nu * (node t n - node t 0)) * (err m S_ x xs t 0%nat + (node t (n + 1) - node t 0) * (C * D))))).
  { intros rep x K Z s e HV Es Ee Hz. destruct (scheme_all cspts f t order method tau g rep x K Z u p HP HL HDa HT HV A b HR) as (s1 & e1 & E1 & Ee1 & Hz1 & HX & _ & Htc & _). rewrite Es in E1. injection E1 as <-. rewrite Ee in Ee1. injection Ee1 as <-. apply Hz1 in Hz as HC0. rewrite <- HM in HC0.
    destruct (B f t rep g x K Z u p nu L G H D xd xs zs us pv Em HA HC0 HO HMs HRes Lip HD HSol HF HCl) as [B1 B2]. split; [exact B1|]. intros n j i Hn Hj Hi. rewrite HX, Htc by (assumption || lia). rewrite <- HM in *. now apply B2. }
  split; [exact Sch|]. intros rf nan x0 z0 out Hsq Hu Hp Hrf E E0. destruct (integrator_outputs cspts f t order method tau g HP HL HDa HT Hsq rf nan x0 z0 u p Hu Hp out Hrf E) as (s & A' & b' & HV & Es & HR' & HC' & X0 & _ & Hxf & HX & _ & Htc & _).
  destruct (scheme_all cspts f t order method tau g false _ _ _ _ _ HP HL HDa HT HV A' b' HR') as (s1 & e & E1 & Ee & Hz & _). rewrite Es in E1. injection E1 as <-. apply Hz in HC'. destruct (Sch _ _ _ _ _ _ HV Es Ee HC') as [B1 B2].
  assert (EZ : err m S_ (io_x out) xs t 0%nat = 0). { apply Rle_antisym; [|apply norm_pos]. eapply Rle_trans; [apply (norm_sup m S_ _ 0 (posdef_psd _ _ HS) (Rle_refl 0))|rewrite Rmult_0_r; lra]. intros i Hi. rewrite X0 by lia. rewrite E0 by exact Hi. rewrite Rminus_eq_0, Rabs_R0. lra. }
  rewrite EZ in B1, B2. split.
  - intros n Hn. specialize (B1 (n + 1)%nat ltac:(lia)). rewrite Rplus_0_l in B1. eapply Rle_trans; [|exact B1]. apply Req_le, norm_ext. intros i Hi. now rewrite Hxf.
  - intros n j i Hn Hj Hi. specialize (B2 n j i Hn Hj Hi). rewrite Rplus_0_l in B2. rewrite HX, Htc. exact B2.
Qed.
(** [D] for smooth solutions *)
Theorem close_smooth t m B H w d : Asc t -> 0 <= B -> (forall n, (n < ivals t)%nat -> step t n <= H) -> (1 <= m)%nat -> Smooth t m B d ->
  (forall n s, (n < ivals t)%nat -> node t n <= s <= node t (n + 1) -> is_RInt d (node t n) s (w s - w (node t n))) -> Close t m (B * H ^ m / INR (fact m)) w d.
Proof. intros HA HB HH Hm HS HI n Hn. split; [intros s Hs; now apply HI|exact (smooth_near t m B H d HA HB HH Hm HS n Hn)]. Qed.
