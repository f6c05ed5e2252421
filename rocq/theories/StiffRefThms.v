(** Stiffness-independent errors with inexact inputs, and first-order convergence on refined grids (C117). *)
From Coq Require Import Reals Lra.
From Coquelicot Require Import Coquelicot.
From Verif Require Import PyBase IndexModel DMModel DMProofs StructModel StructSpec PowerModel EntryModel StructsModel IneqModel DaeModel StructsSpec StructsThms11 NumModel NumInst NumSpec PolynomialModel PiecewiseModel PdqModel SchemeModel
  PolySpec PiecewiseSpec PdqSpec SchemeSpec PolyMath PolynomialBase PolynomialThms PolynomialThms2 PiecewiseThms PdqThms PdqThms2 SchemeThms SchemeThms2 SchemeThms3 SchemeThms4 SchemeThms5 OrderSpec OrderMath OrderThms ConvSpec ConvThms GridSpec GridThms ErrSpec ErrThms SuperSpec SuperThms StiffThms MonoSpec MonoThms MonoThms2 MonoThms3 MonoThms4 DissSpec DissThms DissThms2 DissThms3 DissThms4 DissErrThms SensSpec SensThms SensThms2 Sens2Spec SensThms3 RefineSpec RefineThms RefineThms2 RefineThms3.
Open Scope R_scope.

(** ** From the errors of the states at the collocation points to those of the other results, with near inputs *)
Section Near.
Context (cspts : nat -> string -> res (list R)) (f : daefun R) (t : list R) (order : nat) (method : string) (tau : list R) (g g' : option (R -> mat R)) (rep : bool).
Context (HP : Points cspts order method tau) (HL : (2 <= length t)%nat) (HD : DaeOk f) (HT : TdpOk f g) (HA : Asc t) (HU : InUnit tau).
Context (x K Z u p : mat R) (HV : VarsOk f (ivals t) order rep x K Z u p) (s : scheme R) (e : list R) (Es : scheme_ cspts f t order method g rep x K Z u p = Ok s) (Ee : veccat_master (sc_eq s) = Ok e) (Hz : AllZero e).
Context (d : R) (Hd0 : 0 <= d) (xd xs zs us : nat -> R -> R) (pv : nat -> R) (HSol : SolvesDae f t xd xs zs us pv g') (HF : NearFed f t d g g' u p us pv).
(** [B n]: the bound of the errors in the intervals before grid time [n] *)
Context (B : nat -> R) (B0 : forall n, (n <= ivals t)%nat -> 0 <= B n) (Bm : forall n, (n < ivals t)%nat -> B n <= B (n + 1)%nat).
Context (HB : forall n j i, (n < ivals t)%nat -> (j < order)%nat -> (i < f_nx f)%nat -> Rabs (at_m (sc_X s) i (n * order + j) - xs i (node (sc_tc s) (n * order + j))) <= B (n + 1)%nat).

Lemma near_stages A b : RungeKutta tau A b -> CollocationEqs f t tau order A b rep g x K Z u p -> forall n j, (n < ivals t)%nat -> (j < order)%nat ->
  Solves f (stage t tau order A rep g x K Z u p n j) /\ Solves f (dae_at xd xs zs us pv g' (stage_t t tau n j)) /\ NearInput f d (stage t tau order A rep g x K Z u p n j) (dae_at xd xs zs us pv g' (stage_t t tau n j)).
Proof.
  intros HR HC n j Hn Hj. pose proof HP as (_ & _ & HM & _). destruct HF as (F1 & F2 & F3). pose proof (stage_in t tau n j HA HU Hn ltac:(lia)) as Hin. pose proof (bounds_in t n HA Hn). destruct (stage_fed f t tau order A b rep g x K Z u p HC n j Hn Hj) as [S1 (n' & _ & _ & P2)].
  split; [exact S1|]. split; [intros r Hr; apply HSol; [lra|exact Hr]|]. split; [intros i Hi; cbn; now apply F1|]. split; [intros i Hi; rewrite P2 by exact Hi; cbn; now apply F2|]. split; [reflexivity|]. intros i Hi. cbn. apply F3; [exact Hi|lra].
Qed.
Lemma near_outputs al : CoefBound tau al ->
  (forall Lz Lzu, LipZin f Lz Lzu -> forall n j i, (n < ivals t)%nat -> (j < order)%nat -> (i < f_nz f)%nat -> Rabs (at_m Z i (n * order + j) - zs i (node (sc_tc s) (n * order + j))) <= Lz * B (n + 1)%nat + Lzu * d) /\
  (forall Lq Lqu Dq qs qd, 0 <= Lq -> 0 <= Lqu -> 0 <= Dq -> LipQin f Lq Lqu -> (forall i, (i < f_nq f)%nat -> Close t order Dq (qs i) (qd i)) -> (forall i v, (i < f_nq f)%nat -> node t 0 < v <= node t (ivals t) -> qd i v = f_quad f (dae_at xd xs zs us pv g' v) i) ->
     (forall n i, (n <= ivals t)%nat -> (i < f_nq f)%nat -> Rabs (at_m (sc_q s) i n - (qs i (node t n) - qs i (node t 0))) <= (node t n - node t 0) * (al * (Lq * B n + Lqu * d) + (1 + al) * Dq)) /\
     (forall n j i, (n < ivals t)%nat -> (j < order)%nat -> (i < f_nq f)%nat -> Rabs (at_m (sc_Q s) i (n * order + j) - (qs i (node (sc_tc s) (n * order + j)) - qs i (node t 0))) <= (node t (n + 1) - node t 0) * (al * (Lq * B (n + 1)%nat + Lqu * d) + (1 + al) * Dq))).
Proof.
  intros Hal. pose proof HP as (_ & Hd & HM & H1). destruct (rk_exists tau Hd) as (A & b & HR). destruct (coef_bound tau al A b Hd Hal HR) as [BA Bb]. rewrite HM in BA, Bb. assert (Ha : 0 <= al) by (apply (alpha_pos tau al); [lia|exact Hal]).
  destruct (scheme_all cspts f t order method tau g rep x K Z u p HP HL HD HT HV A b HR) as (s1 & e1 & E1 & Ee1 & Hz1 & HX & _ & Htc & Hq0 & Hqn & HQ). rewrite Es in E1. injection E1 as <-. rewrite Ee in Ee1. injection Ee1 as <-. apply Hz1 in Hz as HC.
  pose proof (near_stages A b HR HC) as Sc. set (st n j := stage t tau order A rep g x K Z u p n j) in *.
  assert (G2 : forall n j i, (n < ivals t)%nat -> (j < order)%nat -> (i < f_nx f)%nat -> Rabs (stage_x t order A x K n j i - xs i (stage_t t tau n j)) <= B (n + 1)%nat) by (intros n j i Hn Hj Hi; pose proof (HB n j i Hn Hj Hi) as Q; rewrite HX, Htc in Q by assumption; exact Q).
  split.
  - intros Lz Lzu HLz n j i Hn Hj Hi. rewrite Htc by assumption. destruct (Sc n j Hn Hj) as (S1 & S2 & NI). apply (HLz _ _ S1 S2 (B (n + 1)%nat) d); [|exact NI|exact Hi]. intros k Hk. now apply G2.
  - intros Lq Lqu Dq qs qd HLq0 HLqu0 HDq0 HLq HQc HQd. set (P n := Lq * B n + Lqu * d). assert (HLqd : 0 <= Lqu * d) by now apply Rmult_le_pos.
    assert (P0 : forall n, (n <= ivals t)%nat -> 0 <= P n) by (intros n Hn; apply Rplus_le_le_0_compat; [apply Rmult_le_pos; [exact HLq0|now apply B0]|exact HLqd]). assert (Pm : forall n, (n < ivals t)%nat -> P n <= P (n + 1)%nat) by (intros n Hn; apply Rplus_le_compat_r, Rmult_le_compat_l; [exact HLq0|now apply Bm]).
    set (qr n l i := f_quad f (st n l) i) in *.
    assert (Hr : forall n l i, (n < ivals t)%nat -> (l < order)%nat -> (i < f_nq f)%nat -> Rabs (qr n l i - qd i (stage_t t tau n l)) <= P (n + 1)%nat).
    { intros n l i Hn Hl Hi. destruct (Sc n l Hn Hl) as (S1 & S2 & S3). pose proof (stage_in t tau n l HA HU Hn ltac:(lia)) as Hin. pose proof (bounds_in t n HA Hn). rewrite HQd by (assumption || lra). apply (HLq _ _ S1 S2 (B (n + 1)%nat) d); [|exact S3|exact Hi]. intros k Hk. now apply G2. }
    assert (St : forall w n i v, (n < ivals t)%nat -> (i < f_nq f)%nat -> Sum order (fun l => Rabs (w l)) <= al ->
      Rabs (qs i (node t n) + step t n * Sum order (fun l => w l * qd i (stage_t t tau n l)) - qs i v) <= step t n * ((1 + al) * Dq) ->
      forall q, Rabs (q - (qs i (node t n) - qs i (node t 0))) <= (node t n - node t 0) * (al * P n + (1 + al) * Dq) ->
      Rabs (q + step t n * Sum order (fun l => w l * qr n l i) - (qs i v - qs i (node t 0))) <= (node t (n + 1) - node t 0) * (al * P (n + 1)%nat + (1 + al) * Dq)).
    { intros w n i v Hn Hi Hw Hdf q Hq. pose proof (step_pos t n HA Hn) as Hh.
      assert (S1 : Rabs (Sum order (fun l => w l * (qr n l i - qd i (stage_t t tau n l)))) <= al * P (n + 1)%nat) by (apply sum_abs_le; [exact Hw|apply P0; lia|intros l Hl; now apply Hr]).
      rewrite (Sum_ext order _ (fun l => w l * qr n l i - w l * qd i (stage_t t tau n l))), Sum_minus in S1 by (intros; ring). set (U := Sum order (fun l => w l * qr n l i)) in *. set (Q := Sum order (fun l => w l * qd i (stage_t t tau n l))) in *.
      replace (q + step t n * U - (qs i v - qs i (node t 0))) with ((q - (qs i (node t n) - qs i (node t 0))) + (step t n * (U - Q) + (qs i (node t n) + step t n * Q - qs i v))) by ring.
      eapply Rle_trans; [apply Rabs_triang|]. assert (S2 : Rabs (step t n * (U - Q) + (qs i (node t n) + step t n * Q - qs i v)) <= step t n * (al * P (n + 1)%nat) + step t n * ((1 + al) * Dq)).
      { eapply Rle_trans; [apply Rabs_triang|]. apply Rplus_le_compat; [|exact Hdf]. rewrite Rabs_mult, (Rabs_pos_eq (step t n)) by lra. apply Rmult_le_compat_l; [lra|exact S1]. }
      pose proof (carry_tpos t HA n ltac:(lia)) as Htp. assert (S3 : (node t n - node t 0) * (al * P n) <= (node t n - node t 0) * (al * P (n + 1)%nat)) by (apply Rmult_le_compat_l; [exact Htp|]; apply Rmult_le_compat_l; [exact Ha|now apply Pm]).
      replace (node t (n + 1) - node t 0) with ((node t n - node t 0) + step t n) by (unfold step; ring). lra. }
    assert (G : forall n i, (n <= ivals t)%nat -> (i < f_nq f)%nat -> Rabs (at_m (sc_q s) i n - (qs i (node t n) - qs i (node t 0))) <= (node t n - node t 0) * (al * P n + (1 + al) * Dq)).
    { induction n as [|n IH]; intros i Hn Hi; [rewrite Hq0 by exact Hi; rewrite !Rminus_eq_0, Rabs_R0, Rmult_0_l; lra|]. replace (S n) with (n + 1)%nat by lia. rewrite Hqn by (assumption || lia). apply St; [lia|exact Hi|exact Bb| |apply IH; [lia|exact Hi]]. exact (proj2 (defect t tau order al Dq A b (qs i) (qd i) n HA HU HM HDq0 HR BA Bb (HQc i Hi) ltac:(lia))). }
    split; [exact G|]. intros n j i Hn Hj Hi. rewrite HQ, Htc by assumption. apply St; [exact Hn|exact Hi|now apply BA| |apply G; [lia|exact Hi]]. exact (proj1 (defect t tau order al Dq A b (qs i) (qd i) n HA HU HM HDq0 HR BA Bb (HQc i Hi) Hn) j Hj).
Qed.
End Near.

(** The bound at grid time [n], from errors [e] of the initial state, [d] of the inputs and [D] of the best approximation of the solution's derivatives by polynomials *)
Notation stiffF C nu Lu d D e t n := (exp (C * nu * (node t n - node t 0)) * (e + (node t n - node t 0) * (C * (Lu * d + D)))).
Theorem stiff_fed tau m S_ : NoDup tau -> (1 <= length tau)%nat -> GaussRadau tau -> PosDef m S_ -> exists C al lam, 0 <= C /\ 0 <= al /\ 0 <= lam /\
  forall cspts f t order method nu L G H Lu d D g g' xd xs zs us pv u p, Points cspts order method tau -> (2 <= length t)%nat -> DaeOk f -> TdpOk f g -> f_nx f = m -> Asc t -> OneSided f S_ nu -> MildSteps t nu -> Resolvable f G H -> LipDae f L -> 0 <= Lu -> 0 <= d -> 0 <= D -> LipInput f Lu ->
  SolvesDae f t xd xs zs us pv g' -> NearFed f t d g g' u p us pv -> (forall i, (i < m)%nat -> Close t order D (xs i) (xd i)) ->
  forall rep x K Z s e, VarsOk f (ivals t) order rep x K Z u p -> scheme_ cspts f t order method g rep x K Z u p = Ok s -> veccat_master (sc_eq s) = Ok e -> AllZero e ->
  (forall n, (n <= ivals t)%nat -> err m S_ x xs t n <= stiffF C nu Lu d D (err m S_ x xs t 0%nat) t n) /\
  (forall n i, (n <= ivals t)%nat -> (i < m)%nat -> Rabs (at_m x i n - xs i (node t n)) <= C * stiffF C nu Lu d D (err m S_ x xs t 0%nat) t n) /\
  (forall n j i, (n < ivals t)%nat -> (j < order)%nat -> (i < m)%nat -> Rabs (at_m (sc_X s) i (n * order + j) - xs i (node (sc_tc s) (n * order + j))) <= C * stiffF C nu Lu d D (err m S_ x xs t 0%nat) t (n + 1)%nat) /\
  (forall Lz Lzu, LipZin f Lz Lzu -> forall n j i, (n < ivals t)%nat -> (j < order)%nat -> (i < f_nz f)%nat -> Rabs (at_m Z i (n * order + j) - zs i (node (sc_tc s) (n * order + j))) <= Lz * (C * stiffF C nu Lu d D (err m S_ x xs t 0%nat) t (n + 1)%nat) + Lzu * d) /\
  (forall Lq Lqu Dq qs qd, 0 <= Lq -> 0 <= Lqu -> 0 <= Dq -> LipQin f Lq Lqu -> (forall i, (i < f_nq f)%nat -> Close t order Dq (qs i) (qd i)) -> (forall i v, (i < f_nq f)%nat -> node t 0 < v <= node t (ivals t) -> qd i v = f_quad f (dae_at xd xs zs us pv g' v) i) ->
     (forall n i, (n <= ivals t)%nat -> (i < f_nq f)%nat -> Rabs (at_m (sc_q s) i n - (qs i (node t n) - qs i (node t 0))) <= (node t n - node t 0) * (al * (Lq * (C * stiffF C nu Lu d D (err m S_ x xs t 0%nat) t n) + Lqu * d) + (1 + al) * Dq)) /\
     (forall n j i, (n < ivals t)%nat -> (j < order)%nat -> (i < f_nq f)%nat -> Rabs (at_m (sc_Q s) i (n * order + j) - (qs i (node (sc_tc s) (n * order + j)) - qs i (node t 0))) <= (node t (n + 1) - node t 0) * (al * (Lq * (C * stiffF C nu Lu d D (err m S_ x xs t 0%nat) t (n + 1)%nat) + Lqu * d) + (1 + al) * Dq))) /\
  (forall pp, piecewise_X s x K = Ok pp -> forall n i v, (n < ivals t)%nat -> (i < m)%nat -> node t n < v <= node t (n + 1) -> Rabs (ppval pp "left" i v - xs i v) <= lam * (C * stiffF C nu Lu d D (err m S_ x xs t 0%nat) t (n + 1)%nat + step t n * D) + step t n * D).
Proof.
  intros Hd H1 HG HS. destruct (rk_exists tau Hd) as (A & b & HR). destruct (grid_near tau A b (length tau) m S_ eq_refl H1 Hd HR HS HG) as (C0 & HC0 & B). destruct (norm_each m S_ HS) as (Ci & HCi & Bi). pose proof (proj1 (gr_coercive tau A b (length tau) eq_refl H1 Hd HR HG)) as Hn0. pose proof (gr_inside tau HG) as HU.
  destruct (constants_exist tau Hd ltac:(intros ->; simpl in H1; lia)) as (al & _ & Hal & _). destruct (constants_exist (0 :: tau) ltac:(constructor; assumption) ltac:(discriminate)) as (_ & lam & _ & Hl0 & Hlam). assert (Ha : 0 <= al) by (apply (alpha_pos tau al); [lia|exact Hal]). destruct (coef_bound tau al A b Hd Hal HR) as [BA Bb].
  set (C := C0 * (1 + al) + Ci). assert (HCa : 0 <= C0 * al) by now apply Rmult_le_pos. assert (HC : 0 <= C) by (unfold C; lra). assert (HCC : C0 <= C) by (unfold C; lra). exists C, al, lam. split; [exact HC|]. split; [exact Ha|]. split; [exact Hl0|].
  intros cspts f t order method nu L G H Lu d D g g' xd xs zs us pv u p HP HL HDa HT Em HA HO HMs HRes Lip HLu Hd0 HD HLi HSol HF HCl rep x K Z s e HV Es Ee Hz. pose proof HP as (_ & _ & HM & _). rewrite HM in B, BA, Bb.
  destruct (scheme_all cspts f t order method tau g rep x K Z u p HP HL HDa HT HV A b HR) as (s1 & e1 & E1 & Ee1 & Hz1 & HX & _ & Htc & _). rewrite Es in E1. injection E1 as <-. rewrite Ee in Ee1. injection Ee1 as <-. apply Hz1 in Hz as HCo.
  pose proof (near_stages cspts f t order method tau g g' rep HP HL HA HU x K Z u p d xd xs zs us pv HSol HF A b HR HCo) as St. set (st n j := stage t tau order A rep g x K Z u p n j) in *. set (ct n j := dae_at xd xs zs us pv g' (stage_t t tau n j)) in *.
  set (r n j := DArgs (fun _ => 0) (a_x (ct n j)) (fun _ => 0) (a_u (st n j)) (a_p (st n j)) (a_t (st n j)) (a_tdp (st n j))).
  set (c n j := DArgs (G (r n j)) (a_x (ct n j)) (H (r n j)) (a_u (st n j)) (a_p (st n j)) (a_t (st n j)) (a_tdp (st n j))).
  assert (Sc : forall n j, Solves f (c n j)) by (intros n j; exact (HRes (r n j))).
  assert (HLd : 0 <= Lu * d) by now apply Rmult_le_pos. assert (HD1 : 0 <= (1 + al) * D) by (apply Rmult_le_pos; lra). assert (HD2 : 0 <= al * (Lu * d) + (1 + al) * D) by (apply Rplus_le_le_0_compat; [now apply Rmult_le_pos|exact HD1]).
  assert (Kd : forall n l i, (n < ivals t)%nat -> (l < order)%nat -> (i < m)%nat -> Rabs (a_xdot (c n l) i - xd i (stage_t t tau n l)) <= Lu * d).
  { intros n l i Hn Hl Hi. destruct (St n l Hn Hl) as (_ & S2 & NI). apply (HLi (c n l) (ct n l) (Sc n l) S2 (fun _ _ => eq_refl) d NI i). lia. }
  assert (W : forall w n i z, (n < ivals t)%nat -> (i < m)%nat -> Sum order (fun l => Rabs (w l)) <= al -> Rabs (xs i (node t n) + step t n * Sum order (fun l => w l * xd i (stage_t t tau n l)) - z) <= step t n * ((1 + al) * D) ->
    Rabs (xs i (node t n) + step t n * Sum order (fun l => w l * a_xdot (c n l) i) - z) <= step t n * (al * (Lu * d) + (1 + al) * D)).
  { intros w n i z Hn Hi Hw Hdf. pose proof (step_pos t n HA Hn) as Hh. replace (xs i (node t n) + step t n * Sum order (fun l => w l * a_xdot (c n l) i) - z) with (step t n * (Sum order (fun l => w l * a_xdot (c n l) i) - Sum order (fun l => w l * xd i (stage_t t tau n l))) + (xs i (node t n) + step t n * Sum order (fun l => w l * xd i (stage_t t tau n l)) - z)) by ring.
    eapply Rle_trans; [apply Rabs_triang|]. rewrite Rmult_plus_distr_l. apply Rplus_le_compat; [|exact Hdf]. rewrite <- Sum_minus, Rabs_mult, (Rabs_pos_eq (step t n)) by lra. apply Rmult_le_compat_l; [lra|]. rewrite (Sum_ext order _ (fun l => w l * (a_xdot (c n l) i - xd i (stage_t t tau n l)))) by (intros; ring). apply sum_abs_le; [exact Hw|exact HLd|]. intros l Hl. now apply Kd. }
  assert (Df := fun n i Hn Hi => defect t tau order al D A b (xs i) (xd i) n HA HU HM HD HR BA Bb (HCl i Hi) Hn).
  destruct (B f t rep g x K Z u p nu L G H (al * (Lu * d) + (1 + al) * D) (fun n i => xs i (node t n)) c Em HA HCo HO HMs HRes Lip HD2) as [G1 G2].
  { intros n j Hn Hj. split; [apply Sc|]. repeat split; intros; reflexivity. }
  { intros n i Hn Hi. destruct (Df n i Hn Hi) as [D1 D2]. split; [intros j Hj; apply W; [exact Hn|exact Hi|now apply BA|now apply D1]|apply W; [exact Hn|exact Hi|exact Bb|exact D2]]. }
  set (E0 := err m S_ x xs t 0%nat) in *. assert (HE0 : 0 <= E0) by apply norm_pos. pose proof (proj1 HMs) as Hnu.
  assert (Ex : forall T, 0 <= T -> exp (C0 * nu * T) <= exp (C * nu * T)) by (intros T HT'; apply exp_le; apply Rmult_le_compat_r; [exact HT'|]; apply Rmult_le_compat_r; [exact Hnu|exact HCC]).
  assert (HCD : 0 <= C * (Lu * d + D)) by (apply Rmult_le_pos; lra).
  assert (HCd : C0 * (al * (Lu * d) + (1 + al) * D) <= C * (Lu * d + D)). { apply Rle_trans with (C0 * (1 + al) * (Lu * d + D)); [|apply Rmult_le_compat_r; [lra|unfold C; lra]]. rewrite Rmult_assoc. apply Rmult_le_compat_l; [exact HC0|]. lra. }
  assert (Pr : forall T, 0 <= T -> E0 + T * (C0 * (al * (Lu * d) + (1 + al) * D)) <= E0 + T * (C * (Lu * d + D))) by (intros T HT'; apply Rplus_le_compat_l, Rmult_le_compat_l; [exact HT'|exact HCd]).
  assert (P0 : forall T, 0 <= T -> 0 <= E0 + T * (C0 * (al * (Lu * d) + (1 + al) * D))) by (intros T HT'; apply Rplus_le_le_0_compat; [exact HE0|]; apply Rmult_le_pos; [exact HT'|]; now apply Rmult_le_pos).
  assert (P1 : forall T, 0 <= T -> 0 <= E0 + T * (C * (Lu * d + D))) by (intros T HT'; apply Rplus_le_le_0_compat; [exact HE0|]; apply Rmult_le_pos; assumption).
  set (Bn n := stiffF C nu Lu d D E0 t n).
  assert (Q0 : forall n, (n <= ivals t)%nat -> 0 <= Bn n) by (intros n Hn; apply Rmult_le_pos; [left; apply exp_pos|apply P1; now apply carry_tpos]).
  assert (Qm : forall n, (n < ivals t)%nat -> Bn n <= Bn (n + 1)%nat).
  { intros n Hn. pose proof (carry_tpos t HA n ltac:(lia)) as Ht. pose proof (step_pos t n HA Hn) as Hh. unfold step in Hh. apply Rmult_le_compat; [left; apply exp_pos|now apply P1| |].
    - apply exp_le. apply Rmult_le_compat_l; [now apply Rmult_le_pos|lra].
    - apply Rplus_le_compat_l, Rmult_le_compat_r; [exact HCD|lra]. }
  assert (GN : forall n, (n <= ivals t)%nat -> err m S_ x xs t n <= Bn n) by (intros n Hn; pose proof (carry_tpos t HA n Hn) as Ht; eapply Rle_trans; [now apply G1|]; apply Rmult_le_compat; [left; apply exp_pos|now apply P0|now apply Ex|now apply Pr]).
  assert (GC : forall n i, (n <= ivals t)%nat -> (i < m)%nat -> Rabs (at_m x i n - xs i (node t n)) <= C * Bn n).
  { intros n i Hn Hi. eapply Rle_trans; [exact (Bi (fun i => at_m x i n - xs i (node t n)) i Hi)|]. apply Rmult_le_compat; [exact HCi|apply norm_pos|unfold C; lra|now apply GN]. }
  assert (GX : forall n j i, (n < ivals t)%nat -> (j < order)%nat -> (i < f_nx f)%nat -> Rabs (at_m (sc_X s) i (n * order + j) - xs i (node (sc_tc s) (n * order + j))) <= C * Bn (n + 1)%nat).
  { intros n j i Hn Hj Hi. rewrite HX, Htc by assumption. pose proof (carry_tpos t HA n ltac:(lia)) as Ht. pose proof (carry_tpos t HA (n + 1)%nat ltac:(lia)) as Ht1. pose proof (step_pos t n HA Hn) as Hh. unfold step in Hh. eapply Rle_trans; [exact (G2 n j i Hn Hj ltac:(lia))|].
    apply Rmult_le_compat; [exact HC0|apply Rmult_le_pos; [left; apply exp_pos|now apply P0]|exact HCC|]. apply Rmult_le_compat; [left; apply exp_pos|now apply P0| |now apply Pr]. eapply Rle_trans; [|apply Ex; exact Ht1]. apply exp_le. apply Rmult_le_compat_l; [now apply Rmult_le_pos|lra]. }
  assert (R0 : forall n, (n <= ivals t)%nat -> 0 <= C * Bn n) by (intros n Hn; apply Rmult_le_pos; [exact HC|now apply Q0]). assert (Rm : forall n, (n < ivals t)%nat -> C * Bn n <= C * Bn (n + 1)%nat) by (intros n Hn; apply Rmult_le_compat_l; [exact HC|now apply Qm]).
  destruct (near_outputs cspts f t order method tau g g' rep HP HL HDa HT HA HU x K Z u p HV s e Es Ee Hz d Hd0 xd xs zs us pv HSol HF (fun n => C * Bn n) R0 Rm GX al Hal) as [GZ GQ].
  split; [exact GN|]. split; [exact GC|]. split; [intros n j i Hn Hj Hi; apply GX; [exact Hn|exact Hj|lia]|]. split; [exact GZ|]. split; [exact GQ|].
  intros pp Epp n i v Hn Hi Hv. rewrite <- Em in HCl. refine (carry_dense cspts f t order method tau g rep HP HL HDa HT HA x K Z u p HV s e Es Ee Hz HU xd xs (fun n => C * Bn n) GX lam D pp Hlam HD _ HCl Epp n i v Hn ltac:(lia) Hv).
  intros k l Hk Hl. eapply Rle_trans; [apply GC; lia|now apply Rm].
Qed.
