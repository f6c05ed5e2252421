(** Dependence of collocation on its inputs: schemes and integrators (C113). *)
From Coq Require Import Reals Lra.
From Coquelicot Require Import Coquelicot.
From Verif Require Import PyBase IndexModel DMModel DMProofs StructModel StructSpec PowerModel EntryModel StructsModel IneqModel DaeModel StructsSpec StructsThms11 NumModel NumInst NumSpec PolynomialModel PiecewiseModel PdqModel SchemeModel
  PolySpec PiecewiseSpec PdqSpec SchemeSpec PolyMath PolynomialBase PolynomialThms PolynomialThms2 PiecewiseThms PdqThms PdqThms2 SchemeThms SchemeThms2 SchemeThms3 SchemeThms4 SchemeThms5 OrderSpec OrderMath OrderThms ConvSpec ConvThms GridSpec GridThms ErrSpec ErrThms SuperSpec SuperThms StiffThms MonoSpec MonoThms MonoThms2 MonoThms3 MonoThms4 DissSpec DissThms DissThms2 DissThms3 DissThms4 DissErrThms SensSpec SensThms.
Open Scope R_scope.

Section Two.
Context (tau : list R) (A : nat -> nat -> R) (b : nat -> R) (M m : nat) (S_ : nat -> nat -> R).
Context (HM : length tau = M) (H1 : (1 <= M)%nat) (Hd : NoDup tau) (HR : RungeKutta tau A b) (HS : PosDef m S_) (HG : GaussRadau tau).
Notation dst x y n := (norm m S_ (fun i => at_m x i n - at_m y i n)).

Lemma stages_near f t d rep g x K Z u p rep' g' x' K' Z' u' p' : Asc t -> CollocationEqs f t tau M A b rep g x K Z u p -> CollocationEqs f t tau M A b rep' g' x' K' Z' u' p' -> NearInputs f t d g g' u p u' p' ->
  forall n j, (n < ivals t)%nat -> (j < M)%nat -> Solves f (stage t tau M A rep g x K Z u p n j) /\ Solves f (stage t tau M A rep' g' x' K' Z' u' p' n j) /\ NearInput f d (stage t tau M A rep g x K Z u p n j) (stage t tau M A rep' g' x' K' Z' u' p' n j).
Proof.
  intros HA C1 C2 (N1 & N2 & N3) n j Hn Hj. destruct (stage_fed f t tau M A b rep g x K Z u p C1 n j Hn Hj) as [S1 (n1 & _ & _ & P1)]. destruct (stage_fed f t tau M A b rep' g' x' K' Z' u' p' C2 n j Hn Hj) as [S2 (n2 & _ & _ & P2)].
  split; [exact S1|]. split; [exact S2|]. pose proof (stage_in t tau n j HA (gr_inside tau HG) Hn ltac:(lia)) as Hin. pose proof (bounds_in t n HA Hn).
  split; [intros i Hi; now apply N1|]. split; [intros i Hi; rewrite P1, P2 by exact Hi; now apply N2|]. split; [reflexivity|]. intros i Hi. apply N3; [exact Hi|lra].
Qed.

Lemma sens_eqs : exists C, 0 <= C /\ forall f t nu L G H Lu d rep g x K Z u p rep' g' x' K' Z' u' p', f_nx f = m -> Asc t -> CollocationEqs f t tau M A b rep g x K Z u p -> CollocationEqs f t tau M A b rep' g' x' K' Z' u' p' ->
  OneSided f S_ nu -> MildSteps t nu -> Resolvable f G H -> LipDae f L -> 0 <= Lu -> 0 <= d -> LipInput f Lu -> NearInputs f t d g g' u p u' p' ->
  (forall n, (n <= ivals t)%nat -> dst x x' n <= exp (C * nu * (node t n - node t 0)) * (dst x x' 0%nat + (node t n - node t 0) * (C * (Lu * d)))) /\
  (forall n j i, (n < ivals t)%nat -> (j < M)%nat -> (i < m)%nat -> Rabs (stage_x t M A x K n j i - stage_x t M A x' K' n j i) <= C * (exp (C * nu * (node t (n + 1) - node t 0)) * (dst x x' 0%nat + (node t (n + 1) - node t 0) * (C * (Lu * d))))).
Proof.
  destruct (grid_near tau A b M m S_ HM H1 Hd HR HS HG) as (C0 & HC0 & B).
  set (ac := Sum M (fun j => Sum M (fun l => Rabs (A j l))) + Sum M (fun l => Rabs (b l))).
  assert (HA0 : 0 <= Sum M (fun j => Sum M (fun l => Rabs (A j l)))) by (apply sum_pos; intros; apply sum_pos; intros; apply Rabs_pos). assert (Hb0 : 0 <= Sum M (fun l => Rabs (b l))) by (apply sum_pos; intros; apply Rabs_pos).
  assert (Hac : 0 <= ac) by (unfold ac; lra). assert (BA : forall j, (j < M)%nat -> Sum M (fun l => Rabs (A j l)) <= ac). { intros j Hj. pose proof (sum_each M (fun j => Sum M (fun l => Rabs (A j l))) j ltac:(intros; apply sum_pos; intros; apply Rabs_pos) Hj) as B'. cbv beta in B'. unfold ac. lra. }
  assert (Bb : Sum M (fun l => Rabs (b l)) <= ac) by (unfold ac; lra). assert (HCa : 0 <= C0 * ac) by now apply Rmult_le_pos.
  exists (C0 * (1 + ac)). split; [apply Rmult_le_pos; lra|]. intros f t nu L G H Lu d rep g x K Z u p rep' g' x' K' Z' u' p' Em HA E1 E2 HO HMs HRes Lip HLu Hd0 HLi HN.
  set (st n j := stage t tau M A rep g x K Z u p n j). set (st' n j := stage t tau M A rep' g' x' K' Z' u' p' n j).
  set (r n j := DArgs (fun _ => 0) (a_x (st' n j)) (fun _ => 0) (a_u (st n j)) (a_p (st n j)) (a_t (st n j)) (a_tdp (st n j))).
  set (c n j := DArgs (G (r n j)) (a_x (st' n j)) (H (r n j)) (a_u (st n j)) (a_p (st n j)) (a_t (st n j)) (a_tdp (st n j))).
  assert (Sc : forall n j, Solves f (c n j)) by (intros n j; exact (HRes (r n j))).
  assert (HLd : 0 <= Lu * d) by now apply Rmult_le_pos. assert (HD : 0 <= ac * (Lu * d)) by now apply Rmult_le_pos.
  assert (Kd : forall n l i, (n < ivals t)%nat -> (l < M)%nat -> (i < m)%nat -> Rabs (a_xdot (c n l) i - at_m K' i (n * M + l)) <= Lu * d).
  { intros n l i Hn Hl Hi. destruct (stages_near f t d rep g x K Z u p rep' g' x' K' Z' u' p' HA E1 E2 HN n l Hn Hl) as (_ & S2 & NI). apply (HLi (c n l) (st' n l) (Sc n l) S2 (fun _ _ => eq_refl) d NI i). lia. }
  assert (W : forall w n i, (n < ivals t)%nat -> (i < m)%nat -> Sum M (fun l => Rabs (w l)) <= ac -> Rabs (at_m x' i n + step t n * Sum M (fun l => w l * a_xdot (c n l) i) - (at_m x' i n + step t n * Sum M (fun l => w l * at_m K' i (n * M + l)))) <= step t n * (ac * (Lu * d))).
  { intros w n i Hn Hi Hw. pose proof (step_pos t n HA Hn) as Hh. replace (at_m x' i n + step t n * Sum M (fun l => w l * a_xdot (c n l) i) - (at_m x' i n + step t n * Sum M (fun l => w l * at_m K' i (n * M + l)))) with (step t n * (Sum M (fun l => w l * a_xdot (c n l) i) - Sum M (fun l => w l * at_m K' i (n * M + l)))) by ring.
    rewrite <- Sum_minus, Rabs_mult, (Rabs_pos_eq (step t n)) by lra. apply Rmult_le_compat_l; [lra|]. rewrite (Sum_ext M _ (fun l => w l * (a_xdot (c n l) i - at_m K' i (n * M + l)))) by (intros; ring). apply sum_abs_le; [exact Hw|exact HLd|]. intros l Hl. now apply Kd. }
  destruct (B f t rep g x K Z u p nu L G H (ac * (Lu * d)) (fun n i => at_m x' i n) c Em HA E1 HO HMs HRes Lip HD) as [G1 G2].
  - intros n j Hn Hj. split; [apply Sc|]. repeat split; intros; reflexivity.
  - intros n i Hn Hi. split; [intros j Hj; exact (W (A j) n i Hn Hi (BA j Hj))|]. destruct E2 as (_ & C2 & _). rewrite <- (C2 n i Hn ltac:(lia)). exact (W b n i Hn Hi Bb).
  - set (E0 := dst x x' 0%nat) in *. assert (HE0 : 0 <= E0) by apply norm_pos. pose proof (proj1 HMs) as Hnu.
    assert (Ex : forall T, 0 <= T -> exp (C0 * nu * T) <= exp (C0 * (1 + ac) * nu * T)). { intros T HT. apply exp_le. apply Rmult_le_compat_r; [exact HT|]. apply Rmult_le_compat_r; [exact Hnu|]. lra. }
    assert (Pr : forall T, 0 <= T -> E0 + T * (C0 * (ac * (Lu * d))) <= E0 + T * (C0 * (1 + ac) * (Lu * d))). { intros T HT. apply Rplus_le_compat_l, Rmult_le_compat_l; [exact HT|]. rewrite <- Rmult_assoc. apply Rmult_le_compat_r; [exact HLd|lra]. }
    assert (P0 : forall T, 0 <= T -> 0 <= E0 + T * (C0 * (ac * (Lu * d)))) by (intros T HT; apply Rplus_le_le_0_compat; [exact HE0|repeat apply Rmult_le_pos; assumption]).
    split.
    + intros n Hn. pose proof (carry_tpos t HA n Hn) as Ht. eapply Rle_trans; [now apply G1|]. fold E0. apply Rmult_le_compat; [left; apply exp_pos|now apply P0|now apply Ex|now apply Pr].
    + intros n j i Hn Hj Hi. pose proof (carry_tpos t HA n ltac:(lia)) as Ht. pose proof (carry_tpos t HA (n + 1)%nat ltac:(lia)) as Ht1. pose proof (step_pos t n HA Hn) as Hh. unfold step in Hh. eapply Rle_trans; [exact (G2 n j i Hn Hj Hi)|]. fold E0.
      apply Rmult_le_compat; [exact HC0|apply Rmult_le_pos; [left; apply exp_pos|now apply P0]|lra|]. apply Rmult_le_compat; [left; apply exp_pos|now apply P0| |now apply Pr].
      eapply Rle_trans; [|apply Ex; exact Ht1]. apply exp_le. apply Rmult_le_compat_l; [now apply Rmult_le_pos|lra].
Qed.
End Two.

(** ** Schemes and integrators *)
Notation dst m S x y n := (norm m S (fun i => at_m x i n - at_m y i n)).
(** The bound up to grid time [n], from the difference [e] of the initial states *)
Notation sensB C nu D e t n := (exp (C * nu * (node t n - node t 0)) * (e + (node t n - node t 0) * (C * D))).
Theorem sens_scheme tau m S_ : NoDup tau -> (1 <= length tau)%nat -> GaussRadau tau -> PosDef m S_ -> exists C al, 0 <= C /\ 0 <= al /\
  forall cspts f t order method nu L G H Lu d g g' rep rep' x K Z u p s e x' K' Z' u' p' s' e', Points cspts order method tau -> (2 <= length t)%nat -> DaeOk f -> TdpOk f g -> TdpOk f g' -> f_nx f = m -> Asc t -> OneSided f S_ nu -> MildSteps t nu -> Resolvable f G H -> LipDae f L -> 0 <= Lu -> 0 <= d -> LipInput f Lu ->
  NearInputs f t d g g' u p u' p' -> VarsOk f (ivals t) order rep x K Z u p -> scheme_ cspts f t order method g rep x K Z u p = Ok s -> veccat_master (sc_eq s) = Ok e -> AllZero e ->
  VarsOk f (ivals t) order rep' x' K' Z' u' p' -> scheme_ cspts f t order method g' rep' x' K' Z' u' p' = Ok s' -> veccat_master (sc_eq s') = Ok e' -> AllZero e' ->
  (forall n, (n <= ivals t)%nat -> dst m S_ x x' n <= sensB C nu (Lu * d) (dst m S_ x x' 0) t n) /\
  (forall n j i, (n < ivals t)%nat -> (j < order)%nat -> (i < m)%nat -> Rabs (at_m (sc_X s) i (n * order + j) - at_m (sc_X s') i (n * order + j)) <= C * sensB C nu (Lu * d) (dst m S_ x x' 0) t (n + 1)) /\
  (forall Lz Lzu, LipZin f Lz Lzu -> forall n j i, (n < ivals t)%nat -> (j < order)%nat -> (i < f_nz f)%nat -> Rabs (at_m Z i (n * order + j) - at_m Z' i (n * order + j)) <= Lz * (C * sensB C nu (Lu * d) (dst m S_ x x' 0) t (n + 1)) + Lzu * d) /\
  (forall Lq Lqu, 0 <= Lq -> 0 <= Lqu -> LipQin f Lq Lqu ->
     (forall n i, (n <= ivals t)%nat -> (i < f_nq f)%nat -> Rabs (at_m (sc_q s) i n - at_m (sc_q s') i n) <= (node t n - node t 0) * (al * (Lq * (C * sensB C nu (Lu * d) (dst m S_ x x' 0) t n) + Lqu * d))) /\
     (forall n j i, (n < ivals t)%nat -> (j < order)%nat -> (i < f_nq f)%nat -> Rabs (at_m (sc_Q s) i (n * order + j) - at_m (sc_Q s') i (n * order + j)) <= (node t (n + 1) - node t 0) * (al * (Lq * (C * sensB C nu (Lu * d) (dst m S_ x x' 0) t (n + 1)) + Lqu * d)))).
Proof.
  intros Hd H1 HG HS. destruct (rk_exists tau Hd) as (A & b & HR). destruct (sens_eqs tau A b (length tau) m S_ eq_refl H1 Hd HR HS HG) as (C & HC & B). destruct (constants_exist tau Hd ltac:(intros ->; simpl in H1; lia)) as (al & lam & Hal & _). exists C, al. assert (Ha : 0 <= al) by (apply (alpha_pos tau al); [lia|exact Hal]). split; [exact HC|]. split; [exact Ha|].
  intros cspts f t order method nu L G H Lu d g g' rep rep' x K Z u p s e x' K' Z' u' p' s' e' HP HL HDa HT HT' Em HA HO HMs HRes Lip HLu Hd0 HLi HN HV Es Ee Hz HV' Es' Ee' Hz'. pose proof HP as (_ & _ & HM & _). rewrite HM in B.
  destruct (scheme_all cspts f t order method tau g rep x K Z u p HP HL HDa HT HV A b HR) as (s1 & e1 & E1 & Ee1 & Hz1 & HX & _ & _ & Hq0 & Hqn & HQ). rewrite Es in E1. injection E1 as <-. rewrite Ee in Ee1. injection Ee1 as <-. apply Hz1 in Hz as HC1.
  destruct (scheme_all cspts f t order method tau g' rep' x' K' Z' u' p' HP HL HDa HT' HV' A b HR) as (s1 & e1 & E1 & Ee1 & Hz2 & HX' & _ & _ & Hq0' & Hqn' & HQ'). rewrite Es' in E1. injection E1 as <-. rewrite Ee' in Ee1. injection Ee1 as <-. apply Hz2 in Hz' as HC2.
  destruct (B f t nu L G H Lu d rep g x K Z u p rep' g' x' K' Z' u' p' Em HA HC1 HC2 HO HMs HRes Lip HLu Hd0 HLi HN) as [G1 G2]. pose proof (stages_near tau A b order HM ltac:(lia) HG f t d rep g x K Z u p rep' g' x' K' Z' u' p' HA HC1 HC2 HN) as St.
  set (Bn n := C * sensB C nu (Lu * d) (dst m S_ x x' 0) t n). assert (HLd : 0 <= Lu * d) by now apply Rmult_le_pos. pose proof (proj1 HMs) as Hnu.
  assert (B0 : forall n, (n <= ivals t)%nat -> 0 <= Bn n). { intros n Hn. pose proof (carry_tpos t HA n Hn) as Ht. apply Rmult_le_pos; [exact HC|]. apply Rmult_le_pos; [left; apply exp_pos|]. apply Rplus_le_le_0_compat; [apply norm_pos|]. apply Rmult_le_pos; [exact Ht|now apply Rmult_le_pos]. }
  assert (Bm : forall n, (n < ivals t)%nat -> Bn n <= Bn (n + 1)%nat).
  { intros n Hn. pose proof (carry_tpos t HA n ltac:(lia)) as Ht. pose proof (step_pos t n HA Hn) as Hh. unfold step in Hh. assert (HCL : 0 <= C * (Lu * d)) by now apply Rmult_le_pos. apply Rmult_le_compat_l; [exact HC|]. apply Rmult_le_compat; [left; apply exp_pos|apply Rplus_le_le_0_compat; [apply norm_pos|now apply Rmult_le_pos]| |].
    - apply exp_le. apply Rmult_le_compat_l; [now apply Rmult_le_pos|lra].
    - apply Rplus_le_compat_l, Rmult_le_compat_r; [exact HCL|lra]. }
  split; [exact G1|]. split; [intros n j i Hn Hj Hi; rewrite HX, HX' by (assumption || lia); now apply G2|]. split.
  - intros Lz Lzu HLz n j i Hn Hj Hi. destruct (St n j Hn Hj) as (S1 & S2 & NI). apply (HLz _ _ S1 S2 (Bn (n + 1)%nat) d); [|exact NI|exact Hi]. intros k Hk. apply G2; [exact Hn|exact Hj|lia].
  - intros Lq Lqu HLq HLqu HLQ. destruct (coef_bound tau al A b Hd Hal HR) as [BA Bb]. rewrite HM in BA, Bb.
    set (qr n l i := f_quad f (stage t tau order A rep g x K Z u p n l) i) in *. set (qr' n l i := f_quad f (stage t tau order A rep' g' x' K' Z' u' p' n l) i) in *. set (P n := Lq * Bn n + Lqu * d).
    assert (HLqd : 0 <= Lqu * d) by now apply Rmult_le_pos. assert (P0 : forall n, (n <= ivals t)%nat -> 0 <= P n) by (intros n Hn; specialize (B0 n Hn); apply Rplus_le_le_0_compat; [now apply Rmult_le_pos|exact HLqd]).
    assert (Pm : forall n, (n < ivals t)%nat -> P n <= P (n + 1)%nat) by (intros n Hn; apply Rplus_le_compat_r, Rmult_le_compat_l; [exact HLq|now apply Bm]).
    assert (Hr : forall n l i, (n < ivals t)%nat -> (l < order)%nat -> (i < f_nq f)%nat -> Rabs (qr n l i - qr' n l i) <= P (n + 1)%nat).
    { intros n l i Hn Hl Hi. destruct (St n l Hn Hl) as (S1 & S2 & NI). apply (HLQ _ _ S1 S2 (Bn (n + 1)%nat) d); [|exact NI|exact Hi]. intros k Hk. apply G2; [exact Hn|exact Hl|lia]. }
    assert (Stp : forall w n i, (n < ivals t)%nat -> (i < f_nq f)%nat -> Sum order (fun l => Rabs (w l)) <= al -> forall q q', Rabs (q - q') <= (node t n - node t 0) * (al * P n) ->
      Rabs (q + step t n * Sum order (fun l => w l * qr n l i) - (q' + step t n * Sum order (fun l => w l * qr' n l i))) <= (node t (n + 1) - node t 0) * (al * P (n + 1)%nat)).
    { intros w n i Hn Hi Hw q q' Hq. pose proof (step_pos t n HA Hn) as Hh. replace (q + step t n * Sum order (fun l => w l * qr n l i) - (q' + step t n * Sum order (fun l => w l * qr' n l i))) with ((q - q') + step t n * (Sum order (fun l => w l * qr n l i) - Sum order (fun l => w l * qr' n l i))) by ring.
      eapply Rle_trans; [apply Rabs_triang|]. rewrite <- Sum_minus, Rabs_mult, (Rabs_pos_eq (step t n)) by lra. rewrite (Sum_ext order _ (fun l => w l * (qr n l i - qr' n l i))) by (intros; ring).
      assert (S1 : Rabs (Sum order (fun l => w l * (qr n l i - qr' n l i))) <= al * P (n + 1)%nat) by (apply sum_abs_le; [exact Hw|apply P0; lia|intros l Hl; now apply Hr]).
      apply (Rmult_le_compat_l (step t n)) in S1; [|lra]. pose proof (carry_tpos t HA n ltac:(lia)) as Ht. assert (S2 : (node t n - node t 0) * (al * P n) <= (node t n - node t 0) * (al * P (n + 1)%nat)) by (apply Rmult_le_compat_l; [exact Ht|]; apply Rmult_le_compat_l; [exact Ha|now apply Pm]).
      replace (node t (n + 1) - node t 0) with ((node t n - node t 0) + step t n) by (unfold step; ring). rewrite Rmult_plus_distr_r. lra. }
    assert (Gq : forall n i, (n <= ivals t)%nat -> (i < f_nq f)%nat -> Rabs (at_m (sc_q s) i n - at_m (sc_q s') i n) <= (node t n - node t 0) * (al * P n)).
    { induction n as [|n IH]; intros i Hn Hi; [rewrite Hq0, Hq0' by exact Hi; rewrite !Rminus_eq_0, Rabs_R0, Rmult_0_l; lra|]. replace (S n) with (n + 1)%nat by lia. rewrite Hqn, Hqn' by (assumption || lia). apply Stp; [lia|exact Hi|exact Bb|apply IH; [lia|exact Hi]]. }
    split; [exact Gq|]. intros n j i Hn Hj Hi. rewrite HQ, HQ' by assumption. apply Stp; [exact Hn|exact Hi|now apply BA|apply Gq; [lia|exact Hi]].
Qed.

Theorem sens_integrator tau m S_ : NoDup tau -> (1 <= length tau)%nat -> GaussRadau tau -> PosDef m S_ -> exists C al, 0 <= C /\ 0 <= al /\
  forall cspts f t order method nu L G H Lu d g g' rf rf' nan x0 z0 u p out x0' z0' u' p' out', Points cspts order method tau -> (2 <= length t)%nat -> DaeOk f -> TdpOk f g -> TdpOk f g' -> f_nx f = m -> Asc t -> OneSided f S_ nu -> MildSteps t nu -> Resolvable f G H -> LipDae f L -> 0 <= Lu -> 0 <= d -> LipInput f Lu ->
  NearInputs f t d g g' u p u' p' -> f_ndae f = (f_nx f + f_nz f)%nat -> Shaped u (f_nu f) (ivals t) -> Shaped p (f_np f) 1 -> Shaped u' (f_nu f) (ivals t) -> Shaped p' (f_np f) 1 -> RootFinder rf -> RootFinder rf' ->
  integrator_ rf nan cspts f t order method g x0 z0 u p = Ok out -> integrator_ rf' nan cspts f t order method g' x0' z0' u' p' = Ok out' ->
  (forall n, (n < ivals t)%nat -> dst m S_ (io_xf out) (io_xf out') n <= sensB C nu (Lu * d) (norm m S_ (fun i => x0 i - x0' i)) t (n + 1)) /\
  (forall n j i, (n < ivals t)%nat -> (j < order)%nat -> (i < m)%nat -> Rabs (at_m (io_X out) i (n * order + j) - at_m (io_X out') i (n * order + j)) <= C * sensB C nu (Lu * d) (norm m S_ (fun i => x0 i - x0' i)) t (n + 1)) /\
  (forall Lz Lzu, LipZin f Lz Lzu -> forall n j i, (n < ivals t)%nat -> (j < order)%nat -> (i < f_nz f)%nat -> Rabs (at_m (io_Z out) i (n * order + j) - at_m (io_Z out') i (n * order + j)) <= Lz * (C * sensB C nu (Lu * d) (norm m S_ (fun i => x0 i - x0' i)) t (n + 1)) + Lzu * d) /\
  (forall Lq Lqu, 0 <= Lq -> 0 <= Lqu -> LipQin f Lq Lqu -> forall i, (i < f_nq f)%nat -> Rabs (io_qf out i - io_qf out' i) <= (node t (ivals t) - node t 0) * (al * (Lq * (C * sensB C nu (Lu * d) (norm m S_ (fun i => x0 i - x0' i)) t (ivals t)) + Lqu * d))).
Proof.
  intros Hd H1 HG HS. destruct (sens_scheme tau m S_ Hd H1 HG HS) as (C & al & HC & Ha & B). exists C, al. split; [exact HC|]. split; [exact Ha|].
  intros cspts f t order method nu L G H Lu d g g' rf rf' nan x0 z0 u p out x0' z0' u' p' out' HP HL HDa HT HT' Em HA HO HMs HRes Lip HLu Hd0 HLi HN Hsq Hu Hp Hu' Hp' Hrf Hrf' E E'.
  destruct (integrator_outputs cspts f t order method tau g HP HL HDa HT Hsq rf nan x0 z0 u p Hu Hp out Hrf E) as (s & A & b & HV & Es & HR & HCo & X0 & _ & Hxf & HX & _ & _ & Hqf). destruct (scheme_all cspts f t order method tau g false _ _ _ _ _ HP HL HDa HT HV A b HR) as (s1 & e & E1 & Ee & Hz & _). rewrite Es in E1. injection E1 as <-. apply Hz in HCo.
  destruct (integrator_outputs cspts f t order method tau g' HP HL HDa HT' Hsq rf' nan x0' z0' u' p' Hu' Hp' out' Hrf' E') as (s' & A' & b' & HV' & Es' & HR' & HCo' & X0' & _ & Hxf' & HX' & _ & _ & Hqf'). destruct (scheme_all cspts f t order method tau g' false _ _ _ _ _ HP HL HDa HT' HV' A' b' HR') as (s1 & e' & E1 & Ee' & Hz' & _). rewrite Es' in E1. injection E1 as <-. apply Hz' in HCo'.
  destruct (B cspts f t order method nu L G H Lu d g g' false false _ _ _ _ _ s e _ _ _ _ _ s' e' HP HL HDa HT HT' Em HA HO HMs HRes Lip HLu Hd0 HLi HN HV Es Ee HCo HV' Es' Ee' HCo') as (G1 & G2 & G3 & G4).
  assert (EZ : dst m S_ (io_x out) (io_x out') 0 = norm m S_ (fun i => x0 i - x0' i)) by (apply norm_ext; intros i Hi; rewrite X0, X0' by lia; reflexivity). rewrite EZ in *.
  split; [|split; [rewrite HX, HX'; exact G2|split; [exact G3|]]].
  - intros n Hn. eapply Rle_trans; [|apply G1; lia]. apply Req_le, norm_ext. intros i Hi. now rewrite Hxf, Hxf'.
  - intros Lq Lqu HLq HLqu HLQ i Hi. destruct (G4 Lq Lqu HLq HLqu HLQ) as [G5 _]. rewrite Hqf, Hqf' by exact Hi. now apply G5.
Qed.
