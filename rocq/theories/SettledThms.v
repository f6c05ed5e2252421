(** Integrators whose equations determine the solution: parts of the grid, changes of variables and running backwards, for all outputs (C110). *)
From Coq Require Import Reals Lra Lia List.
From Coquelicot Require Import Coquelicot.
From Verif Require Import PyBase IndexModel DMModel StructModel StructsModel IneqModel DaeModel NumModel NumInst PolynomialModel PiecewiseModel PdqModel SchemeModel
  PolySpec PdqSpec SchemeSpec PolyMath PolynomialBase PolynomialThms2 PiecewiseThms PdqThms SchemeThms SchemeThms2 SchemeThms3 SchemeThms4 OrderSpec OrderMath OrderThms ConvSpec ConvThms GridSpec GridThms RevSpec RevThms RevThms2
  MonoSpec MonoThms MonoThms2 MonoThms4 SettledSpec.
Import ListNotations.
Open Scope R_scope.

Lemma settled_part f t tau a b : Settled f t tau -> (a <= b < length t)%nat -> Settled f (part t a b) tau.
Proof.
  intros [(al & L & H1 & H2 & H3)|(S_ & nu & H1 & H2 & H3)] H; [left|right].
  - exists al, L. split; [exact H1|]. split; [now apply part_short|exact H3].
  - exists S_, nu. split; [exact H1|]. split; [exact H2|].
    assert (G : forall n, (n < ivals (part t a b))%nat -> step (part t a b) n = step t (a + n) /\ (a + n < ivals t)%nat) by (rewrite part_ivals by exact H; intros n Hn; split; [now apply part_step|unfold ivals; lia]).
    destruct H3 as [(O & M)|(O & I & M)]; [left|right]; (split; [exact O|]); [|split; [exact I|]]; intros n Hn; destruct (G n Hn) as [-> Hn']; now apply M.
Qed.

Section Unique.
Context (cspts : nat -> string -> res (list R)) (f : daefun R) (t : list R) (order : nat) (method : string) (tau : list R) (g : option (R -> mat R)) (rep : bool).
Context (HP : Points cspts order method tau) (HL : (2 <= length t)%nat) (HD : DaeOk f) (HT : TdpOk f g) (HA : Asc t) (HS : Settled f t tau).
Context (x K Z u p x' K' Z' : mat R) (HV : VarsOk f (ivals t) order rep x K Z u p) (HV' : VarsOk f (ivals t) order rep x' K' Z' u p) (s s' : scheme R) (e e' : list R).
Notation N := (ivals t).
Notation sch x K Z u p := (scheme_ cspts f t order method g rep x K Z u p).
Context (Es : sch x K Z u p = Ok s) (Ee : veccat_master (sc_eq s) = Ok e) (Hz : AllZero e) (Es' : sch x' K' Z' u p = Ok s') (Ee' : veccat_master (sc_eq s') = Ok e') (Hz' : AllZero e') (E0 : forall i, (i < f_nx f)%nat -> at_m x i 0 = at_m x' i 0).
Theorem settled_unique : sc_tc s = sc_tc s' /\
  (forall n i, (n <= N)%nat -> (i < f_nx f)%nat -> at_m x i n = at_m x' i n) /\ (forall i m, (i < f_nx f)%nat -> (m < N * order)%nat -> at_m K i m = at_m K' i m) /\
  (forall i m, (i < f_nx f)%nat -> (m < N * order)%nat -> at_m (sc_X s) i m = at_m (sc_X s') i m) /\
  (DeterminesZ f -> (forall i m, (i < f_nz f)%nat -> (m < N * order)%nat -> at_m Z i m = at_m Z' i m) /\ (forall n i, (n <= N)%nat -> (i < f_nq f)%nat -> at_m (sc_q s) i n = at_m (sc_q s') i n) /\
     (forall i m, (i < f_nq f)%nat -> (m < N * order)%nat -> at_m (sc_Q s) i m = at_m (sc_Q s') i m)).
Proof.
  pose proof HP as (_ & Hd & Hlen & H1). destruct (rk_exists tau Hd) as (A & b & HR).
  destruct (scheme_all cspts f t order method tau g rep x K Z u p HP HL HD HT HV A b HR) as (s1 & e1 & E1 & Ee1 & Hz1 & HX & Lt & Ht & Q0 & Qn & QQ). rewrite Es in E1. injection E1 as <-. rewrite Ee in Ee1. injection Ee1 as <-. apply Hz1 in Hz as HC.
  destruct (scheme_all cspts f t order method tau g rep x' K' Z' u p HP HL HD HT HV' A b HR) as (s1 & e1 & E1 & Ee1 & Hz2 & HX' & Lt' & Ht' & Q0' & Qn' & QQ'). rewrite Es' in E1. injection E1 as <-. rewrite Ee' in Ee1. injection Ee1 as <-. apply Hz2 in Hz' as HC'.
  assert (G : (forall n i, (n <= N)%nat -> (i < f_nx f)%nat -> at_m x i n = at_m x' i n) /\ (forall n j i, (n < N)%nat -> (j < order)%nat -> (i < f_nx f)%nat -> at_m K i (n * order + j) = at_m K' i (n * order + j))).
  { destruct HS as [(al & L & Hal & Hss & Lip)|(S_ & nu & HSp & HO & HM)].
    - destruct (solution_unique cspts f t order method tau g rep HP HL HD HT HA al L Hal Hss Lip x K Z u p x' K' Z' HV HV' s s' e e' Es Ee Hz Es' Ee' Hz' E0) as (U1 & U2 & _). now split.
    - destruct (mono_scheme_unique cspts f t order method tau g rep HP HL HD HT HA S_ nu HSp HO HM x K Z u p x' K' Z' HV HV' s s' e e' Es Ee Hz Es' Ee' Hz' E0) as (U1 & U2 & _). now split. }
  destruct G as [G1 G2].
  assert (GX : forall n j i, (n < N)%nat -> (j < order)%nat -> (i < f_nx f)%nat -> stage_x t order A x K n j i = stage_x t order A x' K' n j i).
  { intros n j i Hn Hj Hi. unfold stage_x. rewrite (G1 n i) by (assumption || lia). do 2 f_equal. apply Sum_ext. intros l Hl. now rewrite G2. }
  split; [|split; [exact G1|split; [|split]]].
  - apply (nth_ext _ _ 0 0); [congruence|]. intros m Hm. rewrite Lt in Hm. destruct (col_split m _ _ Hm) as (n & j & -> & Hn & Hj). change (node (sc_tc s) (n * order + j) = node (sc_tc s') (n * order + j)). now rewrite Ht, Ht'.
  - intros i m Hi Hm. destruct (col_split m _ _ Hm) as (n & j & -> & Hn & Hj). now apply G2.
  - intros i m Hi Hm. destruct (col_split m _ _ Hm) as (n & j & -> & Hn & Hj). rewrite HX, HX' by assumption. now apply GX.
  - intros HZ.
    assert (SA : forall n j, (n < N)%nat -> (j < order)%nat -> SameArgs f (stage t tau order A rep g x K Z u p n j) (stage t tau order A rep g x' K' Z' u p n j)).
    { intros n j Hn Hj. destruct (stage_fed f t tau order A b rep g x K Z u p HC n j Hn Hj) as [S1 _]. destruct (stage_fed f t tau order A b rep g x' K' Z' u p HC' n j Hn Hj) as [S2 _].
      repeat split; try (intros; cbn; auto; reflexivity). refine (HZ _ _ S1 S2 ltac:(repeat split; intros; reflexivity) _ _); intros i Hi; cbn; auto. }
    assert (FQ : forall n j i, (n < N)%nat -> (j < order)%nat -> f_quad f (stage t tau order A rep g x K Z u p n j) i = f_quad f (stage t tau order A rep g x' K' Z' u p n j) i) by (intros n j i Hn Hj; destruct HD as (_ & D2 & _); apply D2; now apply SA).
    split; [intros i m Hi Hm; destruct (col_split m _ _ Hm) as (n & j & -> & Hn & Hj); destruct (SA n j Hn Hj) as (_ & _ & SZ & _); now apply SZ|].
    assert (Gq : forall n, (n <= N)%nat -> forall i, (i < f_nq f)%nat -> at_m (sc_q s) i n = at_m (sc_q s') i n).
    { induction n as [|n IH]; intros Hn i Hi; [rewrite Q0, Q0' by exact Hi; reflexivity|]. replace (S n) with (n + 1)%nat by lia. rewrite Qn, Qn' by (assumption || lia). rewrite (IH ltac:(lia) i Hi). do 2 f_equal. apply Sum_ext. intros l Hl. f_equal. apply FQ; [lia|exact Hl]. }
    split; [intros n i Hn Hi; now apply Gq|]. intros i m Hi Hm. destruct (col_split m _ _ Hm) as (n & j & -> & Hn & Hj). rewrite QQ, QQ' by assumption. rewrite (Gq n ltac:(lia) i Hi). do 2 f_equal. apply Sum_ext. intros l Hl. f_equal. now apply FQ.
Qed.
End Unique.

(** What an integrator's outputs are, by its scheme *)
Lemma integrator_zero cspts f t order method tau g rf nan x0 z0 u p out : Points cspts order method tau -> (2 <= length t)%nat -> DaeOk f -> TdpOk f g -> f_ndae f = (f_nx f + f_nz f)%nat -> Shaped u (f_nu f) (ivals t) -> Shaped p (f_np f) 1 -> RootFinder rf ->
  integrator_ rf nan cspts f t order method g x0 z0 u p = Ok out -> exists s e, VarsOk f (ivals t) order false (io_x out) (io_K out) (io_Z out) u p /\ scheme_ cspts f t order method g false (io_x out) (io_K out) (io_Z out) u p = Ok s /\ veccat_master (sc_eq s) = Ok e /\ AllZero e /\
  (forall i, (i < f_nx f)%nat -> at_m (io_x out) i 0 = x0 i) /\ (forall i n, at_m (io_xf out) i n = at_m (io_x out) i (n + 1)) /\ io_X out = sc_X s /\ io_Q out = sc_Q s /\ io_tc out = sc_tc s /\ (forall i, io_qf out i = at_m (sc_q s) i (ivals t)).
Proof.
  intros HP HL HD HT Hsq Hu Hp Hrf E.
  destruct (integrator_outputs cspts f t order method tau g HP HL HD HT Hsq rf nan x0 z0 u p Hu Hp out Hrf E) as (s & A & w & HV & Es & HR & HE & X0 & _ & Hxf & HX & HQ & Htc & Hqf).
  destruct (scheme_all cspts f t order method tau g false _ _ _ _ _ HP HL HD HT HV A w HR) as (s1 & e & E1 & Ee & Hz & _). rewrite Es in E1. injection E1 as <-. apply Hz in HE. exists s, e. tauto.
Qed.

Section Split.
Context (cspts : nat -> string -> res (list R)) (f : daefun R) (t : list R) (order : nat) (method : string) (tau : list R) (g : option (R -> mat R)).
Context (HP : Points cspts order method tau) (HD : DaeOk f) (HT : TdpOk f g) (Hsq : f_ndae f = (f_nx f + f_nz f)%nat) (HA : Asc t) (HS : Settled f t tau).
Context (x0 : nat -> R) (u p : mat R) (Hu : Shaped u (f_nu f) (ivals t)) (Hp : Shaped p (f_np f) 1).
Notation N := (ivals t).
Notation integ rf nan t x0 z0 u := (integrator_ rf nan cspts f t order method g x0 z0 u p).
Theorem settled_split k rf nan z0 out rf1 nan1 z1 out1 rf2 nan2 z2 out2 : (0 < k < N)%nat -> RootFinder rf -> RootFinder rf1 -> RootFinder rf2 ->
  integ rf nan t x0 z0 u = Ok out -> integ rf1 nan1 (part t 0 k) x0 z1 (mcols u 0 k) = Ok out1 -> integ rf2 nan2 (part t k N) (fun i => at_m (io_xf out1) i (k - 1)) z2 (mcols u k N) = Ok out2 ->
  io_tc out = io_tc out1 ++ io_tc out2 /\
  (forall i n, (i < f_nx f)%nat -> (n < k)%nat -> at_m (io_xf out) i n = at_m (io_xf out1) i n) /\
  (forall i n, (i < f_nx f)%nat -> (n < N - k)%nat -> at_m (io_xf out) i (k + n) = at_m (io_xf out2) i n) /\
  (forall i c, (i < f_nx f)%nat -> (c < k * order)%nat -> at_m (io_X out) i c = at_m (io_X out1) i c) /\
  (forall i c, (i < f_nx f)%nat -> (c < (N - k) * order)%nat -> at_m (io_X out) i (k * order + c) = at_m (io_X out2) i c) /\
  (DeterminesZ f ->
    (forall i c, (i < f_nz f)%nat -> (c < k * order)%nat -> at_m (io_Z out) i c = at_m (io_Z out1) i c) /\
    (forall i c, (i < f_nz f)%nat -> (c < (N - k) * order)%nat -> at_m (io_Z out) i (k * order + c) = at_m (io_Z out2) i c) /\
    (forall i c, (i < f_nq f)%nat -> (c < k * order)%nat -> at_m (io_Q out) i c = at_m (io_Q out1) i c) /\
    (forall i c, (i < f_nq f)%nat -> (c < (N - k) * order)%nat -> at_m (io_Q out) i (k * order + c) = io_qf out1 i + at_m (io_Q out2) i c) /\
    (forall i, (i < f_nq f)%nat -> io_qf out i = io_qf out1 i + io_qf out2 i)).
Proof.
  intros Hk Hrf Hrf1 Hrf2 E E1 E2. assert (Ln : length t = (N + 1)%nat) by (unfold ivals in *; lia). assert (HL : (2 <= length t)%nat) by lia.
  assert (P1 : (0 <= k < length t)%nat) by lia. assert (P2 : (k <= N < length t)%nat) by lia.
  assert (I1 : ivals (part t 0 k) = k) by (rewrite part_ivals by exact P1; lia). assert (I2 : ivals (part t k N) = (N - k)%nat) by (now rewrite part_ivals by exact P2).
  assert (L1 : (2 <= length (part t 0 k))%nat) by (rewrite part_len by exact P1; lia). assert (L2 : (2 <= length (part t k N))%nat) by (rewrite part_len by exact P2; lia).
  assert (U1 : Shaped (mcols u 0 k) (f_nu f) (ivals (part t 0 k))) by (destruct Hu; rewrite I1; split; cbn; [assumption|lia]). assert (U2 : Shaped (mcols u k N) (f_nu f) (ivals (part t k N))) by (destruct Hu; rewrite I2; split; cbn; [assumption|lia]).
  destruct (integrator_zero cspts f t order method tau g rf nan x0 z0 u p out HP HL HD HT Hsq Hu Hp Hrf E) as (s & e & HV & Es & Ee & Hz & X0 & Hxf & HX & HQ & Htc & Hqf).
  destruct (integrator_zero cspts f _ order method tau g rf1 nan1 x0 z1 _ p out1 HP L1 HD HT Hsq U1 Hp Hrf1 E1) as (r1 & d1 & HV1 & Er1 & Ed1 & Hz1 & X1 & Hxf1 & HX1 & HQ1 & Htc1 & Hqf1).
  destruct (integrator_zero cspts f _ order method tau g rf2 nan2 _ z2 _ p out2 HP L2 HD HT Hsq U2 Hp Hrf2 E2) as (r2 & d2 & HV2 & Er2 & Ed2 & Hz2 & X2 & Hxf2 & HX2 & HQ2 & Htc2 & Hqf2).
  destruct (split_scheme cspts f t order method tau g false (io_x out) (io_K out) (io_Z out) u p HP HD HT HV k Hk) as (s' & s1 & s2 & e' & e1 & e2 & Es' & Es1 & Es2 & Ee' & Ee1 & Ee2 & HZ & T & A1 & A2 & B1 & B2 & D1 & D2).
  rewrite Es in Es'. injection Es' as <-. rewrite Ee in Ee'. injection Ee' as <-. apply HZ in Hz as (Z1 & Z2 & _).
  assert (W1 : VarsOk f (ivals (part t 0 k)) order false (mcols (io_x out) 0 (S k)) (mcols (io_K out) (0 * order) (k * order)) (mcols (io_Z out) (0 * order) (k * order)) (mcols u 0 k) (ppart false order p 0 k)).
  { rewrite I1. destruct HV as ([Y1 Y2] & [K1 K2] & [V1 V2] & [W1 W2] & [Q1 Q2]). repeat split; cbn; try assumption; lia. }
  assert (W2 : VarsOk f (ivals (part t k N)) order false (mcols (io_x out) k (S N)) (mcols (io_K out) (k * order) (N * order)) (mcols (io_Z out) (k * order) (N * order)) (mcols u k N) (ppart false order p k N)).
  { rewrite I2. destruct HV as ([Y1 Y2] & [K1 K2] & [V1 V2] & [W3 W4] & [Q1 Q2]). repeat split; cbn [mcols ppart nr nc]; rewrite ?Nat.mul_sub_distr_r; try assumption; lia. }
  destruct (settled_unique cspts f (part t 0 k) order method tau g false HP L1 HD HT (part_asc t 0 k HA P1) (settled_part f t tau 0 k HS P1) _ _ _ _ _ _ _ _ W1 HV1 s1 r1 e1 d1 Es1 Ee1 Z1 Er1 Ed1 Hz1) as (F0 & F1 & _ & F3 & F4).
  { intros i Hi. cbn. now rewrite X0, X1. }
  rewrite I1 in *. assert (X3 : forall i, (i < f_nx f)%nat -> at_m (mcols (io_x out) k (S N)) i 0 = at_m (io_x out2) i 0).
  { intros i Hi. rewrite X2 by exact Hi. rewrite Hxf1, <- F1 by (assumption || lia). cbn. f_equal. lia. }
  destruct (settled_unique cspts f (part t k N) order method tau g false HP L2 HD HT (part_asc t k N HA P2) (settled_part f t tau k N HS P2) _ _ _ _ _ _ _ _ W2 HV2 s2 r2 e2 d2 Es2 Ee2 Z2 Er2 Ed2 Hz2 X3) as (G0 & G1 & _ & G3 & G4).
  rewrite I2 in *. rewrite Htc, Htc1, Htc2, HX, HX1, HX2, HQ, HQ1, HQ2. split; [congruence|]. split; [|split; [|split; [|split]]].
  - intros i n Hi Hn. rewrite Hxf, Hxf1, <- F1 by (assumption || lia). reflexivity.
  - intros i n Hi Hn. rewrite Hxf, Hxf2, <- G1 by (assumption || lia). cbn. f_equal. lia.
  - intros i c Hi Hc. rewrite A1, F3 by assumption. reflexivity.
  - intros i c Hi Hc. rewrite A2, G3 by assumption. reflexivity.
  - intros HDz. destruct (F4 HDz) as (F5 & F6 & F7). destruct (G4 HDz) as (G5 & G6 & G7). split; [|split; [|split; [|split]]].
    + intros i c Hi Hc. rewrite <- F5 by assumption. reflexivity.
    + intros i c Hi Hc. rewrite <- G5 by assumption. reflexivity.
    + intros i c Hi Hc. rewrite D1, F7 by assumption. reflexivity.
    + intros i c Hi Hc. rewrite D2, G7, Hqf1, F6 by (assumption || lia). reflexivity.
    + intros i Hi. rewrite Hqf, Hqf1, Hqf2. replace N with (k + (N - k))%nat at 1 by lia. rewrite B2, G6, F6 by (assumption || lia). reflexivity.
Qed.
End Split.

Section Move.
Context (cspts : nat -> string -> res (list R)) (f g : daefun R) (t : list R) (order : nat) (method : string) (tau : list R) (gf gg : option (R -> mat R)) (u p : mat R).
Context (HP : Points cspts order method tau) (HL : (2 <= length t)%nat) (HDf : DaeOk f) (HDg : DaeOk g) (HTf : TdpOk f gf) (HTg : TdpOk g gg).
Context (Hqf : f_ndae f = (f_nx f + f_nz f)%nat) (Hqg : f_ndae g = (f_nx g + f_nz g)%nat) (HA : Asc t).
Context (S : nat -> nat -> R) (d : nat -> R) (kap c : R) (Hk : 0 < kap) (HC : Carries f g S d kap c).
Context (Htd : forall s i, (i < f_ntdp f)%nat -> tdp_at gf (c + kap * s) i = tdp_at gg s i).
Context (HS : Settled f (clock kap c t) tau) (y0 : nat -> R) (Hu : Shaped u (f_nu g) (ivals t)) (Hp : Shaped p (f_np g) 1).
Notation N := (ivals t).
Theorem settled_move rf nan z0 out rf' nan' z0' out' : RootFinder rf -> RootFinder rf' -> integrator_ rf nan cspts g t order method gg y0 z0 u p = Ok out ->
  integrator_ rf' nan' cspts f (clock kap c t) order method gf (fun i => Sum (f_nx g) (fun k => S i k * y0 k) + d i) z0' u p = Ok out' ->
  io_tc out' = clock kap c (io_tc out) /\
  (forall i n, (i < f_nx f)%nat -> (n < N)%nat -> at_m (io_xf out') i n = Sum (f_nx g) (fun k => S i k * at_m (io_xf out) k n) + d i) /\
  (forall i m, (i < f_nx f)%nat -> (m < N * order)%nat -> at_m (io_X out') i m = Sum (f_nx g) (fun k => S i k * at_m (io_X out) k m) + d i) /\
  (DeterminesZ f -> (forall i m, (i < f_nz f)%nat -> (m < N * order)%nat -> at_m (io_Z out') i m = at_m (io_Z out) i m) /\ (forall i m, (i < f_nq f)%nat -> (m < N * order)%nat -> at_m (io_Q out') i m = at_m (io_Q out) i m) /\
     (forall i, (i < f_nq f)%nat -> io_qf out' i = io_qf out i)).
Proof.
  intros Hrf Hrf' E E'. pose proof HC as (Ez & Eu & Ep & _). assert (HL' : (2 <= length (clock kap c t))%nat) by (unfold clock; now rewrite map_length).
  assert (Hu' : Shaped u (f_nu f) (ivals (clock kap c t))) by (rewrite clock_ivals, Eu; exact Hu). assert (Hp' : Shaped p (f_np f) 1) by (rewrite Ep; exact Hp).
  destruct (integrator_zero cspts g t order method tau gg rf nan y0 z0 u p out HP HL HDg HTg Hqg Hu Hp Hrf E) as (s & e & HV & Es & Ee & HE & X0 & Hxf & HX & HQ & Htc & Hf).
  destruct (integrator_zero cspts f _ order method tau gf rf' nan' _ z0' u p out' HP HL' HDf HTf Hqf Hu' Hp' Hrf' E') as (s' & e' & HV' & Es' & Ee' & HE' & X0' & Hxf' & HX' & HQ' & Htc' & Hf').
  destruct (move_scheme cspts f g t order method tau gf gg false _ _ _ _ _ HP HL HDf HDg HTf HTg HV S d kap c ltac:(lra) HC Htd s e Es Ee HE) as (s2 & e2 & E2 & Ee2 & HE2 & T2 & X2 & q2 & Q2).
  assert (HV2 : VarsOk f (ivals (clock kap c t)) order false (moved (f_nx f) (f_nx g) S d (io_x out)) (slopes (f_nx f) (f_nx g) S kap (io_K out)) (io_Z out) u p).
  { rewrite clock_ivals. destruct HV as ([Y1 Y2] & [K1 K2] & [Z1 Z2] & [U1 U2] & [P1 P2]). repeat split; cbn; congruence. }
  destruct (settled_unique cspts f (clock kap c t) order method tau gf false HP HL' HDf HTf (clock_asc kap c t Hk HA) HS _ _ _ u p _ _ _ HV' HV2 s' s2 e' e2 Es' Ee' HE' E2 Ee2 HE2) as (U0 & U1 & _ & U3 & U4).
  { intros i Hi. rewrite X0' by exact Hi. cbn. f_equal. apply Sum_ext. intros k Hk'. now rewrite X0. }
  rewrite clock_ivals in *. rewrite Htc, Htc', HX, HX', HQ, HQ'. split; [congruence|]. split; [|split].
  - intros i n Hi Hn. rewrite Hxf', U1 by (assumption || lia). cbn. f_equal. apply Sum_ext. intros k Hk'. now rewrite Hxf.
  - intros i m Hi Hm. rewrite U3 by assumption. now apply X2.
  - intros HDz. destruct (U4 HDz) as (V1 & V2 & V3). split; [exact V1|]. split; [intros i m Hi Hm; rewrite V3 by assumption; now apply Q2|]. intros i Hi. rewrite Hf, Hf', V2 by (assumption || lia). now apply q2.
Qed.
End Move.

Section Back.
Context (cspts : nat -> string -> res (list R)) (f f' : daefun R) (t : list R) (order : nat) (method : string) (tau : list R) (gf gf' : option (R -> mat R)) (u p u' : mat R).
Context (HP : Points cspts order method tau) (HSy : Symmetric tau) (HL : (2 <= length t)%nat) (HD : DaeOk f) (HD' : DaeOk f') (HT : TdpOk f gf) (HT' : TdpOk f' gf').
Context (Hq : f_ndae f = (f_nx f + f_nz f)%nat) (Hq' : f_ndae f' = (f_nx f' + f_nz f')%nat) (HA : Asc t).
Context (kap c : R) (Hk : kap < 0) (HC : Retimed f f' kap c) (Htd : forall s i, (i < f_ntdp f)%nat -> tdp_at gf' (c + kap * s) i = tdp_at gf s i).
Notation N := (ivals t).
Notation t' := (clock kap c (rev t)).
Context (HS : Settled f' t' tau) (x0 : nat -> R) (Hu : Shaped u (f_nu f) N) (Hu' : Shaped u' (f_nu f) N) (Hp : Shaped p (f_np f) 1) (Bu : Back (f_nu f) N 1 u u').
Theorem settled_back rf nan z0 out rf' nan' z0' out' : RootFinder rf -> RootFinder rf' -> integrator_ rf nan cspts f t order method gf x0 z0 u p = Ok out ->
  integrator_ rf' nan' cspts f' t' order method gf' (fun i => at_m (io_xf out) i (N - 1)) z0' u' p = Ok out' ->
  io_tc out' = clock kap c (rev (io_tc out)) /\ Back (f_nx f) (N * order) 1 (io_X out) (io_X out') /\
  (forall i n, (i < f_nx f)%nat -> (n + 1 < N)%nat -> at_m (io_xf out') i n = at_m (io_xf out) i (N - 2 - n)) /\ (forall i, (i < f_nx f)%nat -> at_m (io_xf out') i (N - 1) = x0 i) /\
  (DeterminesZ f' -> Back (f_nz f) (N * order) 1 (io_Z out) (io_Z out') /\ (forall i m, (i < f_nq f)%nat -> (m < N * order)%nat -> at_m (io_Q out') i m = at_m (io_Q out) i (N * order - 1 - m) - io_qf out i) /\
     (forall i, (i < f_nq f)%nat -> io_qf out' i = - io_qf out i)).
Proof.
  intros Hrf Hrf' E E'. assert (HN : (1 <= N)%nat) by (unfold ivals; lia). pose proof HC as ((Ex & Ez & Eu & Ep & _ & Eq) & _). assert (HL' : (2 <= length t')%nat) by (unfold clock; now rewrite map_length, rev_length).
  assert (Hu2 : Shaped u' (f_nu f') (ivals t')) by (rewrite back_ivals, Eu; exact Hu'). assert (Hp2 : Shaped p (f_np f') 1) by (rewrite Ep; exact Hp).
  destruct (integrator_zero cspts f t order method tau gf rf nan x0 z0 u p out HP HL HD HT Hq Hu Hp Hrf E) as (s & e & HV & Es & Ee & HE & X0 & Hxf & HX & HQ & Htc & Hf).
  destruct (integrator_zero cspts f' t' order method tau gf' rf' nan' _ z0' u' p out' HP HL' HD' HT' Hq' Hu2 Hp2 Hrf' E') as (s' & e' & HV' & Es' & Ee' & HE' & X0' & Hxf' & HX' & HQ' & Htc' & Hf').
  pose proof HV as ([Y1 Y2] & [K1 K2] & [Z1 Z2] & [U1 U2] & [P1 P2]).
  assert (B : forall k r c m, Shaped m r c -> Back r c k m (back k m)) by (intros k r c0 m [R1 R2] i j Hi Hj; cbn; now rewrite R2).
  assert (HV2 : VarsOk f' N order false (back 1 (io_x out)) (back kap (io_K out)) (back 1 (io_Z out)) u' p). { destruct Hu' as [V1 V2]. repeat split; cbn; congruence. }
  destruct (reverse_scheme cspts f f' t order method tau gf gf' false (io_x out) (io_K out) (io_Z out) u p (back 1 (io_x out)) (back kap (io_K out)) (back 1 (io_Z out)) u' p HP HSy HL HD HD' HT HT' kap c ltac:(lra) HC Htd) with (s := s) (e := e) as (s2 & e2 & E2 & Ee2 & HE2 & T2 & X2 & q2 & Q2); try assumption.
  { apply B. now split. } { apply B. now split. } { apply B. now split. } { intros i j Hi Hj. assert (j = 0%nat) as -> by lia. cbn. field. }
  assert (HV3 := HV2). rewrite <- (back_ivals t kap c) in HV3.
  destruct (settled_unique cspts f' t' order method tau gf' false HP HL' HD' HT' (back_asc f f' t HL Hq Hq' HA kap c Hk) HS _ _ _ u' p _ _ _ HV' HV3 s' s2 e' e2 Es' Ee' HE' E2 Ee2 HE2) as (W0 & W1 & _ & W3 & W4).
  { intros i Hi. rewrite X0' by exact Hi. rewrite Hxf. cbn. rewrite Y2. replace (N - 1 + 1)%nat with (N + 1 - 1 - 0)%nat by lia. field. }
  rewrite back_ivals in *. rewrite Ex in W1, W3. rewrite Ez, Eq in W4. rewrite Htc, Htc', HX, HX', HQ, HQ'. split; [congruence|]. split; [|split; [|split]].
  - intros i m Hi Hm. rewrite <- (X2 i m Hi Hm). now apply W3.
  - intros i n Hi Hn. rewrite !Hxf', Hxf, W1 by (assumption || lia). cbn. rewrite Y2. replace (N + 1 - 1 - (n + 1))%nat with (N - 2 - n + 1)%nat by lia. field.
  - intros i Hi. rewrite Hxf', W1 by (assumption || lia). cbn. rewrite Y2. replace (N + 1 - 1 - (N - 1 + 1))%nat with 0%nat by lia. rewrite X0 by exact Hi. field.
  - intros HDz. destruct (W4 HDz) as (V1 & V2 & V3). split; [intros i m Hi Hm; rewrite V1 by assumption; cbn; now rewrite Z2|]. split.
    + intros i m Hi Hm. rewrite V3, Q2 by assumption. now rewrite Hf.
    + intros i Hi. rewrite Hf', Hf, V2, q2 by (assumption || lia). rewrite Nat.sub_diag.
      destruct (tbl_ok cspts order method tau HP) as (_ & _ & _ & _ & _ & HR). destruct (scheme_all cspts f t order method tau gf false _ _ _ _ _ HP HL HD HT HV _ _ HR) as (s3 & _ & E3 & _ & _ & _ & _ & _ & q0 & _). rewrite Es in E3. injection E3 as <-. rewrite q0 by exact Hi. ring.
Qed.
End Back.
