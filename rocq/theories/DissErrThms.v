(** Errors of algebraic states and quadratures that do not depend on stiffness (C112). *)
From Coq Require Import Reals Lra.
From Coquelicot Require Import Coquelicot.
From Verif Require Import PyBase IndexModel DMModel DMProofs StructModel StructSpec PowerModel EntryModel StructsModel IneqModel DaeModel StructsSpec StructsThms11 NumModel NumInst NumSpec PolynomialModel PiecewiseModel PdqModel SchemeModel
  PolySpec PiecewiseSpec PdqSpec SchemeSpec PolyMath PolynomialBase PolynomialThms PolynomialThms2 PiecewiseThms PdqThms PdqThms2 SchemeThms SchemeThms2 SchemeThms3 SchemeThms4 SchemeThms5 OrderSpec OrderMath OrderThms ConvSpec ConvThms GridSpec GridThms ErrSpec ErrThms SuperSpec SuperThms StiffThms MonoSpec MonoThms MonoThms2 MonoThms3 MonoThms4 DissSpec DissThms DissThms2 DissThms3 DissThms4.
Open Scope R_scope.

Lemma exp_le a b : a <= b -> exp a <= exp b.
Proof. intros [H| ->]; [left; now apply exp_increasing|lra]. Qed.

(** ** From the errors of the states at the collocation points to those of the other results *)
Section Carry.
Context (cspts : nat -> string -> res (list R)) (f : daefun R) (t : list R) (order : nat) (method : string) (tau : list R) (g : option (R -> mat R)) (rep : bool).
Context (HP : Points cspts order method tau) (HL : (2 <= length t)%nat) (HD : DaeOk f) (HT : TdpOk f g) (HA : Asc t).
Context (x K Z u p : mat R) (HV : VarsOk f (ivals t) order rep x K Z u p) (s : scheme R) (e : list R) (Es : scheme_ cspts f t order method g rep x K Z u p = Ok s) (Ee : veccat_master (sc_eq s) = Ok e) (Hz : AllZero e) (HU : InUnit tau).
Context (xd xs zs us : nat -> R -> R) (pv : nat -> R) (HS : SolvesDae f t xd xs zs us pv g) (HF : FedBy f t u p us pv).
Notation N := (ivals t).
(** [B n]: the bound of the errors in the intervals before grid time [n] *)
Context (B : nat -> R) (B0 : forall n, (n <= N)%nat -> 0 <= B n) (Bm : forall n, (n < N)%nat -> B n <= B (n + 1)%nat).
Context (HB : forall n j i, (n < N)%nat -> (j < order)%nat -> (i < f_nx f)%nat -> Rabs (at_m (sc_X s) i (n * order + j) - xs i (node (sc_tc s) (n * order + j))) <= B (n + 1)%nat).

Lemma carry_tpos n : (n <= N)%nat -> 0 <= node t n - node t 0.
Proof. clear - HA. intros Hn. destruct n as [|n]; [lra|]. assert (H : (0 < S n < length t)%nat) by (unfold ivals in Hn; lia). specialize (HA 0%nat (S n) H). lra. Qed.
Lemma carry_all A b : RungeKutta tau A b -> CollocationEqs f t tau order A b rep g x K Z u p /\
  (forall n j i, (n < N)%nat -> (j < order)%nat -> (i < f_nx f)%nat -> Rabs (stage_x t order A x K n j i - xs i (stage_t t tau n j)) <= B (n + 1)%nat) /\
  (forall n j, (n < N)%nat -> (j < order)%nat -> node (sc_tc s) (n * order + j) = stage_t t tau n j) /\
  (forall n j, (n < N)%nat -> (j < order)%nat -> let a := stage t tau order A rep g x K Z u p n j in let c := dae_at xd xs zs us pv g (stage_t t tau n j) in Solves f a /\ Solves f c /\ SameInput f a c).
Proof.
  intros HR. pose proof HP as (_ & Hd & HM & H1). destruct (scheme_all cspts f t order method tau g rep x K Z u p HP HL HD HT HV A b HR) as (s1 & e1 & E1 & Ee1 & Hz1 & HX & _ & Htc & _). rewrite Es in E1. injection E1 as <-. rewrite Ee in Ee1. injection Ee1 as <-. pose proof (proj1 Hz1 Hz) as HC.
  split; [exact HC|]. split; [|split; [exact Htc|]].
  - intros n j i Hn Hj Hi. specialize (HB n j i Hn Hj Hi). now rewrite HX, Htc in HB by assumption.
  - intros n j Hn Hj. cbv zeta. destruct HF as [F1 F2]. pose proof (stage_in t tau n j HA HU Hn ltac:(lia)) as Hin. pose proof (bounds_in t n HA Hn). destruct (stage_fed f t tau order A b rep g x K Z u p HC n j Hn Hj) as [S1 (n' & _ & _ & P2)].
    split; [exact S1|]. split; [intros r Hr; apply HS; [lra|exact Hr]|].
    split; [intros i Hi; cbn; symmetry; now apply F1|]. split; [intros i Hi; rewrite P2 by exact Hi; cbn; now rewrite F2|]. split; [reflexivity|intros; reflexivity].
Qed.

Theorem carry_algebraic Lz : LipZ f Lz -> forall n j i, (n < N)%nat -> (j < order)%nat -> (i < f_nz f)%nat -> Rabs (at_m Z i (n * order + j) - zs i (node (sc_tc s) (n * order + j))) <= Lz * B (n + 1)%nat.
Proof.
  intros HLz n j i Hn Hj Hi. pose proof HP as (_ & Hd & _). destruct (rk_exists tau Hd) as (A & b & HR). destruct (carry_all A b HR) as (_ & B2 & Ht & B3). rewrite Ht by assumption. destruct (B3 n j Hn Hj) as (S1 & S2 & S3).
  apply (HLz _ _ S1 S2 S3 (B (n + 1)%nat)); [|exact Hi]. intros k Hk. now apply B2.
Qed.

Theorem carry_quadrature al Lq Dq qs qd : CoefBound tau al -> 0 <= Lq -> 0 <= Dq -> LipQ f Lq -> (forall i, (i < f_nq f)%nat -> Close t order Dq (qs i) (qd i)) ->
  (forall i v, (i < f_nq f)%nat -> node t 0 < v <= node t N -> qd i v = f_quad f (dae_at xd xs zs us pv g v) i) ->
  (forall n i, (n <= N)%nat -> (i < f_nq f)%nat -> Rabs (at_m (sc_q s) i n - (qs i (node t n) - qs i (node t 0))) <= (node t n - node t 0) * (al * (Lq * B n) + (1 + al) * Dq)) /\
  (forall n j i, (n < N)%nat -> (j < order)%nat -> (i < f_nq f)%nat ->
     Rabs (at_m (sc_Q s) i (n * order + j) - (qs i (node (sc_tc s) (n * order + j)) - qs i (node t 0))) <= (node t (n + 1) - node t 0) * (al * (Lq * B (n + 1)%nat) + (1 + al) * Dq)).
Proof.
  intros Hal HLq0 HDq0 HLq HQc HQd. pose proof HP as (_ & Hd & HM & H1). assert (Ha : 0 <= al) by (apply (alpha_pos tau al); [lia|exact Hal]). destruct (rk_exists tau Hd) as (A & b & HR). destruct (carry_all A b HR) as (HC & B2 & Ht & B3).
  destruct (coef_bound tau al A b Hd Hal HR) as [BA Bb]. rewrite HM in BA, Bb.
  destruct (scheme_all cspts f t order method tau g rep x K Z u p HP HL HD HT HV A b HR) as (s' & _ & Es' & _ & _ & _ & _ & _ & Hq0 & Hqn & HQ). rewrite Es in Es'. injection Es' as <-.
  set (qr n l i := f_quad f (stage t tau order A rep g x K Z u p n l) i) in *.
  assert (Hr : forall n l i, (n < N)%nat -> (l < order)%nat -> (i < f_nq f)%nat -> Rabs (qr n l i - qd i (stage_t t tau n l)) <= Lq * B (n + 1)%nat).
  { intros n l i Hn Hl Hi. destruct (B3 n l Hn Hl) as (S1 & S2 & S3). pose proof (stage_in t tau n l HA HU Hn ltac:(lia)) as Hin. pose proof (bounds_in t n HA Hn). rewrite HQd by (assumption || lra). apply (HLq _ _ S1 S2 S3 (B (n + 1)%nat)); [|exact Hi]. intros k Hk. now apply B2. }
  assert (St : forall w n i v, (n < N)%nat -> (i < f_nq f)%nat -> Sum order (fun l => Rabs (w l)) <= al ->
    Rabs (qs i (node t n) + step t n * Sum order (fun l => w l * qd i (stage_t t tau n l)) - qs i v) <= step t n * ((1 + al) * Dq) ->
    forall q, Rabs (q - (qs i (node t n) - qs i (node t 0))) <= (node t n - node t 0) * (al * (Lq * B n) + (1 + al) * Dq) ->
    Rabs (q + step t n * Sum order (fun l => w l * qr n l i) - (qs i v - qs i (node t 0))) <= (node t (n + 1) - node t 0) * (al * (Lq * B (n + 1)%nat) + (1 + al) * Dq)).
  { intros w n i v Hn Hi Hw Hdf q Hq. pose proof (step_pos t n HA Hn) as Hh.
    assert (S1 : Rabs (Sum order (fun l => w l * (qr n l i - qd i (stage_t t tau n l)))) <= al * (Lq * B (n + 1)%nat)) by (apply sum_abs_le; [exact Hw|apply Rmult_le_pos; [exact HLq0|apply (B0 (n + 1)%nat); lia]|intros l Hl; now apply Hr]).
    rewrite (Sum_ext order _ (fun l => w l * qr n l i - w l * qd i (stage_t t tau n l))), Sum_minus in S1 by (intros; ring). set (P := Sum order (fun l => w l * qr n l i)) in *. set (Q := Sum order (fun l => w l * qd i (stage_t t tau n l))) in *.
    replace (q + step t n * P - (qs i v - qs i (node t 0))) with ((q - (qs i (node t n) - qs i (node t 0))) + (step t n * (P - Q) + (qs i (node t n) + step t n * Q - qs i v))) by ring.
    eapply Rle_trans; [apply Rabs_triang|]. eapply Rle_trans; [apply Rplus_le_compat; [exact Hq|apply Rle_trans with (step t n * (al * (Lq * B (n + 1)%nat)) + step t n * ((1 + al) * Dq)); [|apply Rle_refl]]|].
    - eapply Rle_trans; [apply Rabs_triang|]. apply Rplus_le_compat; [|exact Hdf]. rewrite Rabs_mult, (Rabs_pos_eq (step t n)) by lra. apply Rmult_le_compat_l; [lra|exact S1].
    - pose proof (Bm n Hn) as Hm. pose proof (carry_tpos n ltac:(lia)) as Htp. assert (Hc : 0 <= al * Lq) by (now apply Rmult_le_pos). assert (Ew : node t (n + 1) - node t 0 = (node t n - node t 0) + step t n) by (unfold step; ring).
      set (En1 := B (n + 1)%nat) in *. set (En := B n) in *. rewrite Ew. assert (0 <= (node t n - node t 0) * (al * Lq * (En1 - En))) by (apply Rmult_le_pos; [exact Htp|apply Rmult_le_pos; [exact Hc|lra]]). nra. }
  assert (G : forall n i, (n <= N)%nat -> (i < f_nq f)%nat -> Rabs (at_m (sc_q s) i n - (qs i (node t n) - qs i (node t 0))) <= (node t n - node t 0) * (al * (Lq * B n) + (1 + al) * Dq)).
  { induction n as [|n IH]; intros i Hn Hi; [rewrite Hq0 by exact Hi; rewrite !Rminus_eq_0, Rabs_R0, Rmult_0_l; lra|]. replace (S n) with (n + 1)%nat by lia. rewrite Hqn by (assumption || lia). apply St; [lia|exact Hi|exact Bb| |apply IH; [lia|exact Hi]]. exact (proj2 (defect t tau order al Dq A b (qs i) (qd i) n HA HU HM HDq0 HR BA Bb (HQc i Hi) ltac:(lia))). }
  split; [exact G|]. intros n j i Hn Hj Hi. rewrite HQ, Ht by assumption. apply St; [exact Hn|exact Hi|now apply BA| |apply G; [lia|exact Hi]]. exact (proj1 (defect t tau order al Dq A b (qs i) (qd i) n HA HU HM HDq0 HR BA Bb (HQc i Hi) Hn) j Hj).
Qed.
(** The polynomial pieces: polynomials of degree [order] fixed by their values at the start of the interval and the collocation points *)
Theorem carry_dense lam D pp : Lebesgue (0 :: tau) lam -> 0 <= D -> (forall n i, (n < N)%nat -> (i < f_nx f)%nat -> Rabs (at_m x i n - xs i (node t n)) <= B (n + 1)%nat) -> (forall i, (i < f_nx f)%nat -> Close t order D (xs i) (xd i)) ->
  piecewise_X s x K = Ok pp -> forall n i v, (n < N)%nat -> (i < f_nx f)%nat -> node t n < v <= node t (n + 1) -> Rabs (ppval pp "left" i v - xs i v) <= lam * (B (n + 1)%nat + step t n * D) + step t n * D.
Proof.
  intros Hlam HD0 Bx HCl Epp n i v Hn Hi Hv. pose proof HP as (_ & Hd & HM & H1).
  destruct (solution_trajectory cspts f t order method tau g rep x K Z u p HP HL HD HT HV HA HU s e Es Ee Hz) as (pp' & dp' & Epp' & _ & Hpp & Ht & HFp & _). rewrite Epp in Epp'. injection Epp' as <-.
  destruct (HFp n i Hn Hi) as (F & PF & LF & F0 & _ & FS). assert (Hb : forall k, bound pp k = node t k) by (intros; unfold bound; now rewrite Ht). assert (Ni : nint pp = N) by (unfold nint; now rewrite Ht).
  assert (Bl : Belongs pp false v n) by (split; [lia|]; rewrite !Hb; split; right; lra). rewrite (ppval_spec pp (f_nx f) "left" i v n F Hpp (or_introl eq_refl) Bl PF).
  destruct (HCl i Hi n Hn) as (HI & P & LP & HPn). pose proof (step_pos t n HA Hn) as Hh. destruct (PolyLt_int order P LP) as (Q & LQ & _ & DQ). assert (Eh : node t (n + 1) = node t n + step t n) by (unfold step; ring).
  set (W w := Q w - Q (node t n) + xs i (node t n)).
  assert (HW : forall w, node t n <= w <= node t (n + 1) -> Rabs (xs i w - W w) <= step t n * D).
  { intros w Hw. pose proof (is_RInt_poly order P Q (node t n) w LP DQ) as I1. pose proof (HI w Hw) as I2. pose proof (int_lin _ _ 1 (-1) _ _ _ _ I2 I1) as I3. apply (int_bound _ _ _ D) in I3; [|lra| |exact HD0]. 2:{ intros z Hz'. replace (1 * xd i z + -1 * P z) with (xd i z - P z) by ring. apply HPn. lra. }
    unfold W. replace (xs i w - (Q w - Q (node t n) + xs i (node t n))) with (1 * (xs i w - xs i (node t n)) + -1 * (Q w - Q (node t n))) by ring. eapply Rle_trans; [exact I3|]. apply Rmult_le_compat_r; [exact HD0|lra]. }
  assert (LW : PolyLt (S order) W). { destruct (PolyLt_minus (S order) _ _ LQ (PolyLt_const order (Q (node t n) - xs i (node t n)))) as (c & Lc & Hc). exists c. split; [exact Lc|]. intros w. rewrite <- Hc. unfold W. ring. }
  set (q z := F (step t n * z + node t n) - W (step t n * z + node t n)). assert (Lq : PolyLt (length (0 :: tau)) q) by (cbn [length]; rewrite HM; exact (PolyLt_minus (S order) _ _ (PolyLt_comp (S order) F (step t n) (node t n) LF) (PolyLt_comp (S order) W (step t n) (node t n) LW))).
  assert (HhD : 0 <= step t n * D) by (apply Rmult_le_pos; lra).
  assert (Hq : forall l, (l < length (0%R :: tau))%nat -> Rabs (q (node (0 :: tau) l)) <= B (n + 1)%nat + step t n * D).
  { intros [|l] Hl; cbn [length] in Hl; unfold q.
    - change (node (0 :: tau) 0) with 0. rewrite Rmult_0_r, Rplus_0_l, F0. unfold W. replace (at_m x i n - (Q (node t n) - Q (node t n) + xs i (node t n))) with (at_m x i n - xs i (node t n)) by ring. pose proof (Bx n i Hn Hi). lra.
    - change (node (0 :: tau) (S l)) with (node tau l). assert (Hl' : (l < order)%nat) by lia. replace (step t n * node tau l + node t n) with (stage_t t tau n l) by (unfold stage_t; ring). destruct (FS l Hl') as [FX _]. rewrite FX.
      pose proof (stage_in t tau n l HA HU Hn ltac:(lia)) as Hin. pose proof (HW (stage_t t tau n l) ltac:(lra)) as G1. pose proof (HB n l i Hn Hl' Hi) as G2. destruct (rk_exists tau Hd) as (A & b & HR). destruct (scheme_all cspts f t order method tau g rep x K Z u p HP HL HD HT HV A b HR) as (s1 & e1 & E1 & _ & _ & _ & _ & Htc & _). rewrite Es in E1. injection E1 as <-. rewrite Htc in G2 by assumption.
      replace (at_m (sc_X s) i (n * order + l) - W (stage_t t tau n l)) with ((at_m (sc_X s) i (n * order + l) - xs i (stage_t t tau n l)) + (xs i (stage_t t tau n l) - W (stage_t t tau n l))) by ring. eapply Rle_trans; [apply Rabs_triang|]. lra. }
  pose proof (Hlam q _ Lq Hq ((v - node t n) / step t n)) as G3. unfold q in G3. replace (step t n * ((v - node t n) / step t n) + node t n) with v in G3 by (field; lra).
  assert (G4 : 0 <= (v - node t n) / step t n <= 1) by (split; apply Rmult_le_reg_r with (step t n); try exact Hh; unfold Rdiv; rewrite Rmult_assoc, Rinv_l by lra; lra). specialize (G3 G4).
  pose proof (HW v ltac:(lra)) as G5. rewrite Rabs_minus_sym in G5. replace (F v - xs i v) with ((F v - W v) + (W v - xs i v)) by ring. eapply Rle_trans; [apply Rabs_triang|]. lra.
Qed.
End Carry.

(** ** The bound of [stiff_error], for the intervals before grid time [n], from the initial error [d] *)
Notation stiffB C nu D d t n := (C * (exp (C * nu * (node t n - node t 0)) * (d + (node t n - node t 0) * (C * D)))).

Theorem stiff_outputs tau m S_ : NoDup tau -> (1 <= length tau)%nat -> GaussRadau tau -> PosDef m S_ -> exists C al, 0 <= C /\ 0 <= al /\
  forall cspts f t order method g nu L G H D xd xs zs us pv u p, Points cspts order method tau -> (2 <= length t)%nat -> DaeOk f -> TdpOk f g -> f_nx f = m -> Asc t -> OneSided f S_ nu -> MildSteps t nu -> Resolvable f G H -> LipDae f L -> 0 <= D ->
  SolvesDae f t xd xs zs us pv g -> FedBy f t u p us pv -> (forall i, (i < m)%nat -> Close t order D (xs i) (xd i)) ->
  forall Lz Lq Dq qs qd, LipZ f Lz -> 0 <= Lq -> 0 <= Dq -> LipQ f Lq -> (forall i, (i < f_nq f)%nat -> Close t order Dq (qs i) (qd i)) ->
  (forall i v, (i < f_nq f)%nat -> node t 0 < v <= node t (ivals t) -> qd i v = f_quad f (dae_at xd xs zs us pv g v) i) ->
  (forall rep x K Z s e, VarsOk f (ivals t) order rep x K Z u p -> scheme_ cspts f t order method g rep x K Z u p = Ok s -> veccat_master (sc_eq s) = Ok e -> AllZero e ->
     (forall n j i, (n < ivals t)%nat -> (j < order)%nat -> (i < f_nz f)%nat -> Rabs (at_m Z i (n * order + j) - zs i (node (sc_tc s) (n * order + j))) <= Lz * stiffB C nu D (err m S_ x xs t 0%nat) t (n + 1)%nat) /\
     (forall n i, (n <= ivals t)%nat -> (i < f_nq f)%nat -> Rabs (at_m (sc_q s) i n - (qs i (node t n) - qs i (node t 0))) <= (node t n - node t 0) * (al * (Lq * stiffB C nu D (err m S_ x xs t 0%nat) t n) + (1 + al) * Dq)) /\
     (forall n j i, (n < ivals t)%nat -> (j < order)%nat -> (i < f_nq f)%nat -> Rabs (at_m (sc_Q s) i (n * order + j) - (qs i (node (sc_tc s) (n * order + j)) - qs i (node t 0))) <=
        (node t (n + 1) - node t 0) * (al * (Lq * stiffB C nu D (err m S_ x xs t 0%nat) t (n + 1)%nat) + (1 + al) * Dq))) /\
  (forall rf nan x0 z0 out, f_ndae f = (f_nx f + f_nz f)%nat -> Shaped u (f_nu f) (ivals t) -> Shaped p (f_np f) 1 -> RootFinder rf -> integrator_ rf nan cspts f t order method g x0 z0 u p = Ok out -> (forall i, (i < m)%nat -> xs i (node t 0) = x0 i) ->
     (forall n j i, (n < ivals t)%nat -> (j < order)%nat -> (i < f_nz f)%nat -> Rabs (at_m (io_Z out) i (n * order + j) - zs i (node (io_tc out) (n * order + j))) <= Lz * stiffB C nu D 0 t (n + 1)%nat) /\
     (forall i, (i < f_nq f)%nat -> Rabs (io_qf out i - (qs i (node t (ivals t)) - qs i (node t 0))) <= (node t (ivals t) - node t 0) * (al * (Lq * stiffB C nu D 0 t (ivals t)) + (1 + al) * Dq))).
Proof.
  intros Hd H1 HG HS. destruct (stiff_error tau m S_ Hd H1 HG HS) as (C & HC & B). destruct (constants_exist tau Hd ltac:(intros ->; simpl in H1; lia)) as (al & lam & Hal & _). exists C, al. assert (Ha : 0 <= al) by (apply (alpha_pos tau al); [lia|exact Hal]). split; [exact HC|]. split; [exact Ha|].
  intros cspts f t order method g nu L G H D xd xs zs us pv u p HP HL HDa HT Em HA HO HMs HRes Lip HD HSol HF HCl Lz Lq Dq qs qd HLz HLq0 HDq0 HLq HQc HQd.
  destruct (B cspts f t order method g nu L G H D xd xs zs us pv u p HP HL HDa HT Em HA HO HMs HRes Lip HD HSol HF HCl) as [B1 _]. clear B. pose proof (gr_inside tau HG) as HU.
  assert (Sch : forall rep x K Z s e, VarsOk f (ivals t) order rep x K Z u p -> scheme_ cspts f t order method g rep x K Z u p = Ok s -> veccat_master (sc_eq s) = Ok e -> AllZero e ->
     (forall n j i, (n < ivals t)%nat -> (j < order)%nat -> (i < f_nz f)%nat -> Rabs (at_m Z i (n * order + j) - zs i (node (sc_tc s) (n * order + j))) <= Lz * stiffB C nu D (err m S_ x xs t 0%nat) t (n + 1)%nat) /\
     (forall n i, (n <= ivals t)%nat -> (i < f_nq f)%nat -> Rabs (at_m (sc_q s) i n - (qs i (node t n) - qs i (node t 0))) <= (node t n - node t 0) * (al * (Lq * stiffB C nu D (err m S_ x xs t 0%nat) t n) + (1 + al) * Dq)) /\
     (forall n j i, (n < ivals t)%nat -> (j < order)%nat -> (i < f_nq f)%nat -> Rabs (at_m (sc_Q s) i (n * order + j) - (qs i (node (sc_tc s) (n * order + j)) - qs i (node t 0))) <=
        (node t (n + 1) - node t 0) * (al * (Lq * stiffB C nu D (err m S_ x xs t 0%nat) t (n + 1)%nat) + (1 + al) * Dq))).
  { intros rep x K Z s e HV Es Ee Hz. destruct (B1 rep x K Z s e HV Es Ee Hz) as [_ BX]. set (d := err m S_ x xs t 0%nat) in *. assert (Hd0 : 0 <= d) by apply norm_pos. pose proof (proj1 HMs) as Hnu.
    assert (HCn : 0 <= C * nu) by (now apply Rmult_le_pos). assert (HCD : 0 <= C * D) by (now apply Rmult_le_pos).
    assert (Q0 : forall n, (n <= ivals t)%nat -> 0 <= stiffB C nu D d t n).
    { intros n Hn. pose proof (carry_tpos t HA n Hn) as Ht. apply Rmult_le_pos; [exact HC|]. apply Rmult_le_pos; [left; apply exp_pos|]. apply Rplus_le_le_0_compat; [exact Hd0|now apply Rmult_le_pos]. }
    assert (Ex : forall n, (n < ivals t)%nat -> exp (C * nu * (node t n - node t 0)) <= exp (C * nu * (node t (n + 1) - node t 0))).
    { intros n Hn. pose proof (step_pos t n HA Hn) as Hh. unfold step in Hh. apply exp_le. apply Rmult_le_compat_l; [exact HCn|lra]. }
    assert (Qm : forall n, (n < ivals t)%nat -> stiffB C nu D d t n <= stiffB C nu D d t (n + 1)%nat).
    { intros n Hn. pose proof (carry_tpos t HA n ltac:(lia)) as Ht. pose proof (step_pos t n HA Hn) as Hh. unfold step in Hh. apply Rmult_le_compat_l; [exact HC|]. apply Rmult_le_compat; [left; apply exp_pos|apply Rplus_le_le_0_compat; [exact Hd0|now apply Rmult_le_pos]|now apply Ex|]. apply Rplus_le_compat_l, Rmult_le_compat_r; [exact HCD|lra]. }
    assert (HB : forall n j i, (n < ivals t)%nat -> (j < order)%nat -> (i < f_nx f)%nat -> Rabs (at_m (sc_X s) i (n * order + j) - xs i (node (sc_tc s) (n * order + j))) <= stiffB C nu D d t (n + 1)%nat).
    { intros n j i Hn Hj Hi. eapply Rle_trans; [apply BX; [exact Hn|exact Hj|lia]|]. apply Rmult_le_compat_l; [exact HC|]. pose proof (carry_tpos t HA (n + 1)%nat ltac:(lia)) as Ht. apply Rmult_le_compat_r; [apply Rplus_le_le_0_compat; [exact Hd0|now apply Rmult_le_pos]|now apply Ex]. }
    split; [exact (carry_algebraic cspts f t order method tau g rep HP HL HDa HT HA x K Z u p HV s e Es Ee Hz HU xd xs zs us pv HSol HF (fun n => stiffB C nu D d t n) HB Lz HLz)|].
    exact (carry_quadrature cspts f t order method tau g rep HP HL HDa HT HA x K Z u p HV s e Es Ee Hz HU xd xs zs us pv HSol HF (fun n => stiffB C nu D d t n) Q0 Qm HB al Lq Dq qs qd Hal HLq0 HDq0 HLq HQc HQd). }
  split; [exact Sch|]. intros rf nan x0 z0 out Hsq Hu Hp Hrf E E0. destruct (integrator_outputs cspts f t order method tau g HP HL HDa HT Hsq rf nan x0 z0 u p Hu Hp out Hrf E) as (s & A' & b' & HV & Es & HR' & HC' & X0 & _ & _ & _ & _ & Htc & Hqf).
  destruct (scheme_all cspts f t order method tau g false _ _ _ _ _ HP HL HDa HT HV A' b' HR') as (s1 & e & E1 & Ee & Hz & _). rewrite Es in E1. injection E1 as <-. apply Hz in HC'. destruct (Sch _ _ _ _ _ _ HV Es Ee HC') as (G1 & G2 & _).
  assert (EZ : err m S_ (io_x out) xs t 0%nat = 0). { apply Rle_antisym; [|apply norm_pos]. eapply Rle_trans; [apply (norm_sup m S_ _ 0 (posdef_psd _ _ HS) (Rle_refl 0))|rewrite Rmult_0_r; lra]. intros i Hi. rewrite X0 by lia. rewrite E0 by exact Hi. rewrite Rminus_eq_0, Rabs_R0. lra. }
  rewrite EZ in G1, G2. split; [rewrite Htc; exact G1|]. intros i Hi. rewrite Hqf by exact Hi. now apply G2.
Qed.

(** The trajectory between the grid points *)
Theorem stiff_dense tau m S_ : NoDup tau -> (1 <= length tau)%nat -> GaussRadau tau -> PosDef m S_ -> exists C c, 0 <= C /\ 0 <= c /\
  forall cspts f t order method g nu L G H D xd xs zs us pv u p, Points cspts order method tau -> (2 <= length t)%nat -> DaeOk f -> TdpOk f g -> f_nx f = m -> Asc t -> OneSided f S_ nu -> MildSteps t nu -> Resolvable f G H -> LipDae f L -> 0 <= D ->
  SolvesDae f t xd xs zs us pv g -> FedBy f t u p us pv -> (forall i, (i < m)%nat -> Close t order D (xs i) (xd i)) ->
  (forall rep x K Z s e pp, VarsOk f (ivals t) order rep x K Z u p -> scheme_ cspts f t order method g rep x K Z u p = Ok s -> veccat_master (sc_eq s) = Ok e -> AllZero e -> piecewise_X s x K = Ok pp ->
     forall n i v, (n < ivals t)%nat -> (i < m)%nat -> node t n < v <= node t (n + 1) -> Rabs (ppval pp "left" i v - xs i v) <=
       c * (exp (C * nu * (node t (n + 1) - node t 0)) * (err m S_ x xs t 0%nat + (node t (n + 1) - node t 0) * (C * D)) + step t n * D)) /\
  (forall rf nan x0 z0 out pp, f_ndae f = (f_nx f + f_nz f)%nat -> Shaped u (f_nu f) (ivals t) -> Shaped p (f_np f) 1 -> RootFinder rf -> integrate_ rf nan cspts f t order method g true x0 z0 u p = Ok (out, pp) -> (forall i, (i < m)%nat -> xs i (node t 0) = x0 i) ->
     forall n i v, (n < ivals t)%nat -> (i < m)%nat -> node t n < v <= node t (n + 1) -> Rabs (ppval pp "left" i v - xs i v) <=
       c * (exp (C * nu * (node t (n + 1) - node t 0)) * ((node t (n + 1) - node t 0) * (C * D)) + step t n * D)).
Proof.
  intros Hd H1 HG HS. destruct (stiff_error tau m S_ Hd H1 HG HS) as (C & HC & B). destruct (norm_each m S_ HS) as (c0 & Hc0 & Hc). destruct (rk_exists tau Hd) as (A & b & HR). pose proof (proj1 (gr_coercive tau A b (length tau) eq_refl H1 Hd HR HG)) as Hn0.
  destruct (constants_exist (0 :: tau) ltac:(constructor; assumption) ltac:(discriminate)) as (_ & lam & _ & Hl0 & Hlam). exists C, (lam * (C + c0) + lam + 1). assert (HCc : 0 <= lam * (C + c0)) by (apply Rmult_le_pos; lra). split; [exact HC|]. split; [lra|].
  intros cspts f t order method g nu L G H D xd xs zs us pv u p HP HL HDa HT Em HA HO HMs HRes Lip HD HSol HF HCl.
  destruct (B cspts f t order method g nu L G H D xd xs zs us pv u p HP HL HDa HT Em HA HO HMs HRes Lip HD HSol HF HCl) as [B1 _]. clear B. pose proof (gr_inside tau HG) as HU.
  assert (Sch : forall rep x K Z s e pp, VarsOk f (ivals t) order rep x K Z u p -> scheme_ cspts f t order method g rep x K Z u p = Ok s -> veccat_master (sc_eq s) = Ok e -> AllZero e -> piecewise_X s x K = Ok pp ->
     forall n i v, (n < ivals t)%nat -> (i < m)%nat -> node t n < v <= node t (n + 1) -> Rabs (ppval pp "left" i v - xs i v) <=
       (lam * (C + c0) + lam + 1) * (exp (C * nu * (node t (n + 1) - node t 0)) * (err m S_ x xs t 0%nat + (node t (n + 1) - node t 0) * (C * D)) + step t n * D)).
  { intros rep x K Z s e pp HV Es Ee Hz Epp n i v Hn Hi Hv. destruct (B1 rep x K Z s e HV Es Ee Hz) as [BN BX]. set (d := err m S_ x xs t 0%nat) in *. assert (Hd0 : 0 <= d) by apply norm_pos. pose proof (proj1 HMs) as Hnu.
    assert (HCn : 0 <= C * nu) by (now apply Rmult_le_pos). assert (HCD : 0 <= C * D) by (now apply Rmult_le_pos).
    set (Bd n := exp (C * nu * (node t n - node t 0)) * (d + (node t n - node t 0) * (C * D))).
    assert (Q0 : forall n, (n <= ivals t)%nat -> 0 <= Bd n). { intros k Hk. pose proof (carry_tpos t HA k Hk) as Ht. apply Rmult_le_pos; [left; apply exp_pos|]. apply Rplus_le_le_0_compat; [exact Hd0|now apply Rmult_le_pos]. }
    assert (Ex : forall n, (n < ivals t)%nat -> exp (C * nu * (node t n - node t 0)) <= exp (C * nu * (node t (n + 1) - node t 0))).
    { intros k Hk. pose proof (step_pos t k HA Hk) as Hh. unfold step in Hh. apply exp_le. apply Rmult_le_compat_l; [exact HCn|lra]. }
    assert (Qm : forall n, (n < ivals t)%nat -> Bd n <= Bd (n + 1)%nat).
    { intros k Hk. pose proof (carry_tpos t HA k ltac:(lia)) as Ht. pose proof (step_pos t k HA Hk) as Hh. unfold step in Hh. apply Rmult_le_compat; [left; apply exp_pos|apply Rplus_le_le_0_compat; [exact Hd0|now apply Rmult_le_pos]|now apply Ex|]. apply Rplus_le_compat_l, Rmult_le_compat_r; [exact HCD|lra]. }
    assert (HB : forall n j i, (n < ivals t)%nat -> (j < order)%nat -> (i < f_nx f)%nat -> Rabs (at_m (sc_X s) i (n * order + j) - xs i (node (sc_tc s) (n * order + j))) <= (C + c0) * Bd (n + 1)%nat).
    { intros k j l Hk Hj Hl. eapply Rle_trans; [apply BX; [exact Hk|exact Hj|lia]|]. pose proof (Q0 (k + 1)%nat ltac:(lia)) as Hp. apply Rle_trans with (C * Bd (k + 1)%nat); [|apply Rmult_le_compat_r; [exact Hp|lra]]. apply Rmult_le_compat_l; [exact HC|]. pose proof (carry_tpos t HA (k + 1)%nat ltac:(lia)) as Ht. apply Rmult_le_compat_r; [apply Rplus_le_le_0_compat; [exact Hd0|now apply Rmult_le_pos]|now apply Ex]. }
    assert (HBx : forall n i, (n < ivals t)%nat -> (i < f_nx f)%nat -> Rabs (at_m x i n - xs i (node t n)) <= (C + c0) * Bd (n + 1)%nat).
    { intros k l Hk Hl. eapply Rle_trans; [apply (Hc (fun i => at_m x i k - xs i (node t k)) l); lia|]. pose proof (Q0 (k + 1)%nat ltac:(lia)) as Hp. apply Rle_trans with (c0 * Bd (k + 1)%nat); [|apply Rmult_le_compat_r; [exact Hp|lra]]. apply Rmult_le_compat_l; [exact Hc0|]. eapply Rle_trans; [apply BN; lia|]. now apply Qm. }
    rewrite <- Em in HCl. eapply Rle_trans; [exact (carry_dense cspts f t order method tau g rep HP HL HDa HT HA x K Z u p HV s e Es Ee Hz HU xd xs (fun n => (C + c0) * Bd n) HB lam D pp Hlam HD HBx HCl Epp n i v Hn ltac:(lia) Hv)|].
    cbv beta. change (exp (C * nu * (node t (n + 1) - node t 0)) * (d + (node t (n + 1) - node t 0) * (C * D))) with (Bd (n + 1)%nat). pose proof (Q0 (n + 1)%nat ltac:(lia)) as Hp. assert (HhD : 0 <= step t n * D) by (pose proof (step_pos t n HA Hn); apply Rmult_le_pos; lra). set (Bn := Bd (n + 1)%nat) in *. set (hD := step t n * D) in *.
    assert (0 <= lam * Bn) by (now apply Rmult_le_pos). assert (0 <= lam * (C + c0) * hD) by (now apply Rmult_le_pos). replace (lam * ((C + c0) * Bn + hD) + hD) with (lam * (C + c0) * Bn + lam * hD + hD) by ring. replace ((lam * (C + c0) + lam + 1) * (Bn + hD)) with (lam * (C + c0) * Bn + lam * Bn + Bn + lam * (C + c0) * hD + lam * hD + hD) by ring. lra. }
  split; [exact Sch|]. intros rf nan x0 z0 out pp Hsq Hu Hp Hrf. unfold integrate_. destruct (integrator_ rf nan cspts f t order method g x0 z0 u p) as [out'|] eqn:E; [|discriminate]. cbn [rbind negb].
  destruct (integrator_outputs cspts f t order method tau g HP HL HDa HT Hsq rf nan x0 z0 u p Hu Hp out' Hrf E) as (s & A' & b' & HV & Es & HR' & HC' & X0 & _). rewrite Es. cbn [rbind]. destruct (piecewise_X s (io_x out') (io_K out')) as [pp'|] eqn:Epp; [|discriminate]. cbn [rbind]. intros [= -> ->] E0.
  destruct (scheme_all cspts f t order method tau g false _ _ _ _ _ HP HL HDa HT HV A' b' HR') as (s1 & e & E1 & Ee & Hz & _). rewrite Es in E1. injection E1 as <-. apply Hz in HC'. pose proof (Sch _ _ _ _ _ _ _ HV Es Ee HC' Epp) as G1.
  assert (EZ : err m S_ (io_x out) xs t 0%nat = 0). { apply Rle_antisym; [|apply norm_pos]. eapply Rle_trans; [apply (norm_sup m S_ _ 0 (posdef_psd _ _ HS) (Rle_refl 0))|rewrite Rmult_0_r; lra]. intros i Hi. rewrite X0 by lia. rewrite E0 by exact Hi. rewrite Rminus_eq_0, Rabs_R0. lra. }
  rewrite EZ in G1. intros n i v Hn Hi Hv. specialize (G1 n i v Hn Hi Hv). now rewrite Rplus_0_l in G1.
Qed.
