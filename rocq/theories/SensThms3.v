(** Dependence of collocation on its inputs for short steps and any points (C114). *)
From Coq Require Import Reals Lra.
From Coquelicot Require Import Coquelicot.
From Verif Require Import PyBase IndexModel DMModel DMProofs StructModel StructSpec PowerModel EntryModel StructsModel IneqModel DaeModel StructsSpec StructsThms11 NumModel NumInst NumSpec PolynomialModel PiecewiseModel PdqModel SchemeModel
  PolySpec PiecewiseSpec PdqSpec SchemeSpec PolyMath PolynomialBase PolynomialThms PolynomialThms2 PiecewiseThms PdqThms PdqThms2 SchemeThms SchemeThms2 SchemeThms3 SchemeThms4 SchemeThms5 OrderSpec OrderMath OrderThms ConvSpec ConvThms GridSpec GridThms ErrSpec ErrThms SuperSpec SuperThms StiffThms MonoSpec MonoThms MonoThms2 MonoThms3 MonoThms4 DissSpec DissThms DissThms2 DissThms3 DissThms4 DissErrThms SensSpec SensThms SensThms2 Sens2Spec.
Open Scope R_scope.

Section Two.
Context (tau : list R) (A : nat -> nat -> R) (b : nat -> R) (M : nat) (al L Lu d : R) (f : daefun R) (t : list R).
Context (HM : length tau = M) (H1 : (1 <= M)%nat) (HU : InUnit tau) (HA : Asc t) (Bj : forall j, (j < M)%nat -> Sum M (fun l => Rabs (A j l)) <= al) (Bb : Sum M (fun l => Rabs (b l)) <= al) (Ha : 0 <= al).
Context (HS : ShortSteps t al L) (Lip : LipXin f L Lu) (HLu : 0 <= Lu) (Hd0 : 0 <= d).
Context (rep : bool) (g : option (R -> mat R)) (x K Z u p : mat R) (rep' : bool) (g' : option (R -> mat R)) (x' K' Z' u' p' : mat R).
Context (E1 : CollocationEqs f t tau M A b rep g x K Z u p) (E2 : CollocationEqs f t tau M A b rep' g' x' K' Z' u' p') (HN : NearInputs f t d g g' u p u' p').
Notation st n j := (stage t tau M A rep g x K Z u p n j).
Notation st' n j := (stage t tau M A rep' g' x' K' Z' u' p' n j).

Lemma both_near n j : (n < ivals t)%nat -> (j < M)%nat -> Solves f (st n j) /\ Solves f (st' n j) /\ NearInput f d (st n j) (st' n j).
Proof.
  intros Hn Hj. destruct HN as (N1 & N2 & N3). destruct (stage_fed f t tau M A b rep g x K Z u p E1 n j Hn Hj) as [S1 (n1 & _ & _ & P1)]. destruct (stage_fed f t tau M A b rep' g' x' K' Z' u' p' E2 n j Hn Hj) as [S2 (n2 & _ & _ & P2)].
  split; [exact S1|]. split; [exact S2|]. pose proof (stage_in t tau n j HA HU Hn ltac:(lia)) as Hin. pose proof (bounds_in t n HA Hn).
  split; [intros i Hi; now apply N1|]. split; [intros i Hi; rewrite P1, P2 by exact Hi; now apply N2|]. split; [reflexivity|]. intros i Hi. apply N3; [exact Hi|lra].
Qed.
Lemma both_diff n w i e m : (n < ivals t)%nat -> (i < f_nx f)%nat -> Sum M (fun l => Rabs (w l)) <= al -> Rabs (at_m x i n - at_m x' i n) <= e -> 0 <= m -> (forall j i, (j < M)%nat -> (i < f_nx f)%nat -> Rabs (a_x (st n j) i - a_x (st' n j) i) <= m) ->
  Rabs (at_m x i n + step t n * Sum M (fun l => w l * at_m K i (n * M + l)) - (at_m x' i n + step t n * Sum M (fun l => w l * at_m K' i (n * M + l)))) <= e + step t n * (al * (L * m + Lu * d)).
Proof.
  intros Hn Hi Hw He Hm0 Hm. pose proof (step_pos t n HA Hn) as Hh. replace (at_m x i n + step t n * Sum M (fun l => w l * at_m K i (n * M + l)) - (at_m x' i n + step t n * Sum M (fun l => w l * at_m K' i (n * M + l)))) with ((at_m x i n - at_m x' i n) + step t n * (Sum M (fun l => w l * at_m K i (n * M + l)) - Sum M (fun l => w l * at_m K' i (n * M + l)))) by ring.
  eapply Rle_trans; [apply Rabs_triang|]. apply Rplus_le_compat; [exact He|]. rewrite <- Sum_minus, Rabs_mult, (Rabs_pos_eq (step t n)) by lra. apply Rmult_le_compat_l; [lra|]. rewrite (Sum_ext M _ (fun l => w l * (at_m K i (n * M + l) - at_m K' i (n * M + l)))) by (intros; ring).
  apply sum_abs_le; [exact Hw|apply Rplus_le_le_0_compat; apply Rmult_le_pos; try assumption; apply HS|]. intros l Hl. destruct (both_near n l Hn Hl) as (S1 & S2 & NI). apply (Lip (st n l) (st' n l) S1 S2 m d); [|exact NI|exact Hi]. intros k Hk. now apply Hm.
Qed.
Lemma both_stages n e : (n < ivals t)%nat -> (forall i, (i < f_nx f)%nat -> Rabs (at_m x i n - at_m x' i n) <= e) -> forall j i, (j < M)%nat -> (i < f_nx f)%nat -> Rabs (a_x (st n j) i - a_x (st' n j) i) <= 2 * (e + step t n * (al * (Lu * d))).
Proof.
  intros Hn He j i Hj Hi. destruct (fin_max2 M (f_nx f) (fun j i => Rabs (a_x (st n j) i - a_x (st' n j) i)) H1 ltac:(lia)) as (k & l & Hk & Hl & Hmax). eapply Rle_trans; [now apply Hmax|]. set (m := Rabs (a_x (st n k) l - a_x (st' n k) l)) in *.
  assert (Hm0 : 0 <= m) by apply Rabs_pos. pose proof (both_diff n (A k) l e m Hn Hl (Bj k Hk) (He l Hl) Hm0 Hmax) as B. change (m <= e + step t n * (al * (L * m + Lu * d))) in B. destruct HS as [HL0 Hst]. specialize (Hst n Hn). apply (Rmult_le_compat_r m) in Hst; [|exact Hm0]. lra.
Qed.
Lemma both_grid e : (forall i, (i < f_nx f)%nat -> Rabs (at_m x i 0 - at_m x' i 0) <= e) -> forall n i, (n <= ivals t)%nat -> (i < f_nx f)%nat ->
  Rabs (at_m x i n - at_m x' i n) <= exp (2 * al * L * (node t n - node t 0)) * (e + (node t n - node t 0) * (al * (Lu * d))).
Proof.
  intros He. induction n as [|n IH]; intros i Hn Hi; [rewrite Rminus_eq_0, !Rmult_0_r, exp_0, Rmult_0_l, Rplus_0_r, Rmult_1_l; now apply He|]. replace (S n) with (n + 1)%nat by lia.
  set (k := node t n - node t 0) in *. pose proof (carry_tpos t HA n ltac:(lia)) as Hk. fold k in Hk. pose proof (step_pos t n HA ltac:(lia)) as Hh. replace (node t (n + 1) - node t 0) with (k + step t n) by (unfold k, step; ring). assert (He0 : 0 <= e) by (eapply Rle_trans; [apply Rabs_pos|exact (He i Hi)]). assert (HD : 0 <= al * (Lu * d)) by (apply Rmult_le_pos; [exact Ha|now apply Rmult_le_pos]).
  destruct E1 as (_ & X1 & _). destruct E2 as (_ & X2 & _). rewrite <- X1, <- X2 by (assumption || lia). set (en := exp (2 * al * L * k) * (e + k * (al * (Lu * d)))) in *. assert (Hen : forall i, (i < f_nx f)%nat -> Rabs (at_m x i n - at_m x' i n) <= en) by (intros; apply IH; [lia|assumption]).
  assert (HL0 : 0 <= L) by apply HS. assert (Hen0 : 0 <= en) by (eapply Rle_trans; [apply Rabs_pos|exact (Hen i Hi)]). assert (HhD : 0 <= step t n * (al * (Lu * d))) by (apply Rmult_le_pos; [lra|exact HD]).
  pose proof (both_diff n b i en (2 * (en + step t n * (al * (Lu * d)))) ltac:(lia) Hi Bb (Hen i Hi) ltac:(lra) (both_stages n en ltac:(lia) Hen)) as B. eapply Rle_trans; [exact B|]. eapply Rle_trans; [|apply (exp_step k e (al * (Lu * d)) (step t n) al L); [now apply Rmult_le_pos|lra|exact Hk|apply Rplus_le_le_0_compat; [exact He0|now apply Rmult_le_pos]|exact HD]]. fold en. apply Req_le. ring.
Qed.
End Two.

(** ** Algebraic states and quadratures *)
Section Carry.
Context (tau : list R) (A : nat -> nat -> R) (b : nat -> R) (M : nat) (al d : R) (f : daefun R) (t : list R) (Bn : nat -> R).
Context (HA : Asc t) (Bj : forall j, (j < M)%nat -> Sum M (fun l => Rabs (A j l)) <= al) (Bb : Sum M (fun l => Rabs (b l)) <= al) (Ha : 0 <= al) (Hd0 : 0 <= d).
Context (rep : bool) (g : option (R -> mat R)) (x K Z u p : mat R) (rep' : bool) (g' : option (R -> mat R)) (x' K' Z' u' p' : mat R).
Notation st n j := (stage t tau M A rep g x K Z u p n j).
Notation st' n j := (stage t tau M A rep' g' x' K' Z' u' p' n j).
Context (St : forall n j, (n < ivals t)%nat -> (j < M)%nat -> Solves f (st n j) /\ Solves f (st' n j) /\ NearInput f d (st n j) (st' n j)).
Context (B0 : forall n, (n <= ivals t)%nat -> 0 <= Bn n) (Bm : forall n, (n < ivals t)%nat -> Bn n <= Bn (n + 1)%nat).
Context (G : forall n j i, (n < ivals t)%nat -> (j < M)%nat -> (i < f_nx f)%nat -> Rabs (stage_x t M A x K n j i - stage_x t M A x' K' n j i) <= Bn (n + 1)%nat).

Lemma near_z Lz Lzu : LipZin f Lz Lzu -> forall n j i, (n < ivals t)%nat -> (j < M)%nat -> (i < f_nz f)%nat -> Rabs (at_m Z i (n * M + j) - at_m Z' i (n * M + j)) <= Lz * Bn (n + 1)%nat + Lzu * d.
Proof. intros HLz n j i Hn Hj Hi. destruct (St n j Hn Hj) as (S1 & S2 & NI). apply (HLz _ _ S1 S2 (Bn (n + 1)%nat) d); [|exact NI|exact Hi]. intros k Hk. now apply G. Qed.
Context (Lq Lqu : R) (HLq : 0 <= Lq) (HLqu : 0 <= Lqu) (HLQ : LipQin f Lq Lqu).
Let P n := Lq * Bn n + Lqu * d.
Lemma near_pos n : (n <= ivals t)%nat -> 0 <= P n.
Proof. intros Hn. apply Rplus_le_le_0_compat; apply Rmult_le_pos; try assumption. now apply B0. Qed.
Lemma near_step w n i q q' : (n < ivals t)%nat -> (i < f_nq f)%nat -> Sum M (fun l => Rabs (w l)) <= al -> Rabs (q - q') <= (node t n - node t 0) * (al * P n) ->
  Rabs (q + step t n * Sum M (fun l => w l * f_quad f (st n l) i) - (q' + step t n * Sum M (fun l => w l * f_quad f (st' n l) i))) <= (node t (n + 1) - node t 0) * (al * P (n + 1)%nat).
Proof.
  intros Hn Hi Hw Hq. pose proof (step_pos t n HA Hn) as Hh. replace (q + step t n * Sum M (fun l => w l * f_quad f (st n l) i) - (q' + step t n * Sum M (fun l => w l * f_quad f (st' n l) i))) with ((q - q') + step t n * (Sum M (fun l => w l * f_quad f (st n l) i) - Sum M (fun l => w l * f_quad f (st' n l) i))) by ring.
  eapply Rle_trans; [apply Rabs_triang|]. rewrite <- Sum_minus, Rabs_mult, (Rabs_pos_eq (step t n)) by lra. rewrite (Sum_ext M _ (fun l => w l * (f_quad f (st n l) i - f_quad f (st' n l) i))) by (intros; ring).
  assert (S1 : Rabs (Sum M (fun l => w l * (f_quad f (st n l) i - f_quad f (st' n l) i))) <= al * P (n + 1)%nat).
  { apply sum_abs_le; [exact Hw|apply near_pos; lia|]. intros l Hl. destruct (St n l Hn Hl) as (S1 & S2 & NI). apply (HLQ _ _ S1 S2 (Bn (n + 1)%nat) d); [|exact NI|exact Hi]. intros k Hk. now apply G. }
  assert (Pm : P n <= P (n + 1)%nat) by (apply Rplus_le_compat_r, Rmult_le_compat_l; [exact HLq|now apply Bm]).
  apply (Rmult_le_compat_l (step t n)) in S1; [|lra]. pose proof (carry_tpos t HA n ltac:(lia)) as Ht. assert (S2 : (node t n - node t 0) * (al * P n) <= (node t n - node t 0) * (al * P (n + 1)%nat)) by (apply Rmult_le_compat_l; [exact Ht|]; apply Rmult_le_compat_l; [exact Ha|exact Pm]).
  replace (node t (n + 1) - node t 0) with ((node t n - node t 0) + step t n) by (unfold step; ring). rewrite Rmult_plus_distr_r. lra.
Qed.
Lemma near_quad q q' Q Q' : (forall i, (i < f_nq f)%nat -> at_m q i 0 = 0) -> (forall i, (i < f_nq f)%nat -> at_m q' i 0 = 0) ->
  (forall i n, (i < f_nq f)%nat -> (n < ivals t)%nat -> at_m q i (n + 1) = at_m q i n + step t n * Sum M (fun l => b l * f_quad f (st n l) i)) -> (forall i n, (i < f_nq f)%nat -> (n < ivals t)%nat -> at_m q' i (n + 1) = at_m q' i n + step t n * Sum M (fun l => b l * f_quad f (st' n l) i)) ->
  (forall i n j, (i < f_nq f)%nat -> (n < ivals t)%nat -> (j < M)%nat -> at_m Q i (n * M + j) = at_m q i n + step t n * Sum M (fun l => A j l * f_quad f (st n l) i)) -> (forall i n j, (i < f_nq f)%nat -> (n < ivals t)%nat -> (j < M)%nat -> at_m Q' i (n * M + j) = at_m q' i n + step t n * Sum M (fun l => A j l * f_quad f (st' n l) i)) ->
  (forall n i, (n <= ivals t)%nat -> (i < f_nq f)%nat -> Rabs (at_m q i n - at_m q' i n) <= (node t n - node t 0) * (al * P n)) /\
  (forall n j i, (n < ivals t)%nat -> (j < M)%nat -> (i < f_nq f)%nat -> Rabs (at_m Q i (n * M + j) - at_m Q' i (n * M + j)) <= (node t (n + 1) - node t 0) * (al * P (n + 1)%nat)).
Proof.
  intros Hq0 Hq0' Hqn Hqn' HQ HQ'. assert (Gq : forall n i, (n <= ivals t)%nat -> (i < f_nq f)%nat -> Rabs (at_m q i n - at_m q' i n) <= (node t n - node t 0) * (al * P n)).
  { induction n as [|n IH]; intros i Hn Hi; [rewrite Hq0, Hq0' by exact Hi; rewrite !Rminus_eq_0, Rabs_R0, Rmult_0_l; lra|]. replace (S n) with (n + 1)%nat by lia. rewrite Hqn, Hqn' by (assumption || lia). apply near_step; [lia|exact Hi|exact Bb|apply IH; [lia|exact Hi]]. }
  split; [exact Gq|]. intros n j i Hn Hj Hi. rewrite HQ, HQ' by assumption. apply near_step; [exact Hn|exact Hi|now apply Bj|apply Gq; [lia|exact Hi]].
Qed.
End Carry.

(** ** Schemes and integrators *)
Notation shortB al L D e t n := (exp (2 * al * L * (node t n - node t 0)) * (e + (node t n - node t 0) * (al * D))).
Notation stageB al L D e t n := (2 * shortB al L D e t (n + 1)).
Section S1.
Context (cspts : nat -> string -> res (list R)) (f : daefun R) (t : list R) (order : nat) (method : string) (tau : list R) (g g' : option (R -> mat R)).
Context (HP : Points cspts order method tau) (HL : (2 <= length t)%nat) (HD : DaeOk f) (HT : TdpOk f g) (HT' : TdpOk f g') (HA : Asc t) (HU : InUnit tau).
Context (al L Lu d e0 : R) (Hal : CoefBound tau al) (HS : ShortSteps t al L) (Lip : LipXin f L Lu) (HLu : 0 <= Lu) (Hd0 : 0 <= d).

Theorem sens_short rep rep' x K Z u p s e x' K' Z' u' p' s' e' : NearInputs f t d g g' u p u' p' -> VarsOk f (ivals t) order rep x K Z u p -> scheme_ cspts f t order method g rep x K Z u p = Ok s -> veccat_master (sc_eq s) = Ok e -> AllZero e ->
  VarsOk f (ivals t) order rep' x' K' Z' u' p' -> scheme_ cspts f t order method g' rep' x' K' Z' u' p' = Ok s' -> veccat_master (sc_eq s') = Ok e' -> AllZero e' ->
  0 <= e0 -> (forall i, (i < f_nx f)%nat -> Rabs (at_m x i 0 - at_m x' i 0) <= e0) ->
  (forall n i, (n <= ivals t)%nat -> (i < f_nx f)%nat -> Rabs (at_m x i n - at_m x' i n) <= shortB al L (Lu * d) e0 t n) /\
  (forall n j i, (n < ivals t)%nat -> (j < order)%nat -> (i < f_nx f)%nat -> Rabs (at_m (sc_X s) i (n * order + j) - at_m (sc_X s') i (n * order + j)) <= stageB al L (Lu * d) e0 t n) /\
  (forall n j i, (n < ivals t)%nat -> (j < order)%nat -> (i < f_nx f)%nat -> Rabs (at_m K i (n * order + j) - at_m K' i (n * order + j)) <= L * stageB al L (Lu * d) e0 t n + Lu * d) /\
  (forall Lz Lzu, LipZin f Lz Lzu -> forall n j i, (n < ivals t)%nat -> (j < order)%nat -> (i < f_nz f)%nat -> Rabs (at_m Z i (n * order + j) - at_m Z' i (n * order + j)) <= Lz * stageB al L (Lu * d) e0 t n + Lzu * d) /\
  (forall Lq Lqu, 0 <= Lq -> 0 <= Lqu -> LipQin f Lq Lqu ->
     (forall n i, (n <= ivals t)%nat -> (i < f_nq f)%nat -> Rabs (at_m (sc_q s) i n - at_m (sc_q s') i n) <= (node t n - node t 0) * (al * (Lq * (2 * shortB al L (Lu * d) e0 t n) + Lqu * d))) /\
     (forall n j i, (n < ivals t)%nat -> (j < order)%nat -> (i < f_nq f)%nat -> Rabs (at_m (sc_Q s) i (n * order + j) - at_m (sc_Q s') i (n * order + j)) <= (node t (n + 1) - node t 0) * (al * (Lq * stageB al L (Lu * d) e0 t n + Lqu * d)))).
Proof.
  intros HN HV Es Ee Hz HV' Es' Ee' Hz' He0 He. pose proof HP as (_ & Hd & HM & H1). destruct (rk_exists tau Hd) as (A & b & HR). destruct (coef_bound tau al A b Hd Hal HR) as [BA Bb]. rewrite HM in BA, Bb. assert (Ha : 0 <= al) by (apply (alpha_pos tau al); [lia|exact Hal]).
  destruct (scheme_all cspts f t order method tau g rep x K Z u p HP HL HD HT HV A b HR) as (s1 & e1 & E1 & Ee1 & Hz1 & HX & _ & _ & Hq0 & Hqn & HQ). rewrite Es in E1. injection E1 as <-. rewrite Ee in Ee1. injection Ee1 as <-. apply Hz1 in Hz as HC1.
  destruct (scheme_all cspts f t order method tau g' rep' x' K' Z' u' p' HP HL HD HT' HV' A b HR) as (s1 & e1 & E1 & Ee1 & Hz2 & HX' & _ & _ & Hq0' & Hqn' & HQ'). rewrite Es' in E1. injection E1 as <-. rewrite Ee' in Ee1. injection Ee1 as <-. apply Hz2 in Hz' as HC2.
  pose proof (both_grid tau A b order al L Lu d f t HM H1 HU HA BA Bb Ha HS Lip HLu Hd0 rep g x K Z u p rep' g' x' K' Z' u' p' HC1 HC2 HN e0 He) as G1.
  pose proof (both_near tau A b order d f t HM H1 HU HA rep g x K Z u p rep' g' x' K' Z' u' p' HC1 HC2 HN) as St.
  assert (HLd : 0 <= al * (Lu * d)) by (apply Rmult_le_pos; [exact Ha|now apply Rmult_le_pos]). assert (HL0 : 0 <= L) by apply HS. assert (HaL : 0 <= 2 * al * L) by (apply Rmult_le_pos; [lra|exact HL0]).
  assert (B0 : forall n, (n <= ivals t)%nat -> 0 <= shortB al L (Lu * d) e0 t n). { intros n Hn. pose proof (carry_tpos t HA n Hn) as Ht. apply Rmult_le_pos; [left; apply exp_pos|]. apply Rplus_le_le_0_compat; [exact He0|now apply Rmult_le_pos]. }
  assert (Ex1 : forall v, 0 <= v -> 1 <= exp (2 * al * L * v)) by (intros v Hv; rewrite <- exp_0; apply exp_le; now apply Rmult_le_pos).
  assert (Grow : forall n, (n < ivals t)%nat -> shortB al L (Lu * d) e0 t n + step t n * (al * (Lu * d)) <= shortB al L (Lu * d) e0 t (n + 1)).
  { intros n Hn. pose proof (carry_tpos t HA n ltac:(lia)) as Ht. pose proof (carry_tpos t HA (n + 1)%nat ltac:(lia)) as Ht1. pose proof (step_pos t n HA Hn) as Hh.
    set (k := node t n - node t 0) in *. replace (node t (n + 1) - node t 0) with (k + step t n) in * by (unfold k, step; ring). set (E := exp (2 * al * L * k)). set (F := exp (2 * al * L * (k + step t n))). assert (HEF : E <= F) by (apply exp_le, Rmult_le_compat_l; [exact HaL|lra]). assert (HF : 1 <= F) by now apply Ex1.
    replace (F * (e0 + (k + step t n) * (al * (Lu * d)))) with (F * (e0 + k * (al * (Lu * d))) + F * (step t n * (al * (Lu * d)))) by ring. apply Rplus_le_compat; [apply Rmult_le_compat_r; [|exact HEF]; apply Rplus_le_le_0_compat; [exact He0|now apply Rmult_le_pos]|]. rewrite <- (Rmult_1_l (step t n * _)) at 1. apply Rmult_le_compat_r; [apply Rmult_le_pos; [lra|exact HLd]|exact HF]. }
  assert (Bm : forall n, (n < ivals t)%nat -> 2 * shortB al L (Lu * d) e0 t n <= 2 * shortB al L (Lu * d) e0 t (n + 1)) by (intros n Hn; specialize (Grow n Hn); pose proof (Rmult_le_pos (step t n) _ (Rlt_le _ _ (step_pos t n HA Hn)) HLd); lra).
  assert (B0' : forall n, (n <= ivals t)%nat -> 0 <= 2 * shortB al L (Lu * d) e0 t n) by (intros n Hn; specialize (B0 n Hn); lra).
  assert (G2 : forall n j i, (n < ivals t)%nat -> (j < order)%nat -> (i < f_nx f)%nat -> Rabs (stage_x t order A x K n j i - stage_x t order A x' K' n j i) <= 2 * shortB al L (Lu * d) e0 t (n + 1)).
  { intros n j i Hn Hj Hi. pose proof (both_stages tau A b order al L Lu d f t HM H1 HU HA BA HS Lip HLu Hd0 rep g x K Z u p rep' g' x' K' Z' u' p' HC1 HC2 HN n _ Hn (fun i Hi => G1 n i ltac:(lia) Hi) j i Hj Hi) as B. cbn [a_x stage] in B. specialize (Grow n Hn). lra. }
  split; [exact G1|]. split; [intros n j i Hn Hj Hi; rewrite HX, HX' by assumption; now apply G2|]. split.
  - intros n j i Hn Hj Hi. destruct (St n j Hn Hj) as (S1 & S2 & NI). apply (Lip _ _ S1 S2 (2 * shortB al L (Lu * d) e0 t (n + 1)) d); [|exact NI|exact Hi]. intros k Hk. now apply G2.
  - split; [intros Lz Lzu; exact (near_z tau A order d f t (fun n => 2 * shortB al L (Lu * d) e0 t n) rep g x K Z u p rep' g' x' K' Z' u' p' St G2 Lz Lzu)|].
    intros Lq Lqu HLq HLqu HLQ. exact (near_quad tau A b order al d f t (fun n => 2 * shortB al L (Lu * d) e0 t n) HA BA Bb Ha Hd0 rep g x K Z u p rep' g' x' K' Z' u' p' St B0' Bm G2 Lq Lqu HLq HLqu HLQ _ _ _ _ Hq0 Hq0' Hqn Hqn' HQ HQ').
Qed.

Theorem sens_short_integrator rf rf' nan x0 z0 u p out x0' z0' u' p' out' : NearInputs f t d g g' u p u' p' -> f_ndae f = (f_nx f + f_nz f)%nat -> Shaped u (f_nu f) (ivals t) -> Shaped p (f_np f) 1 -> Shaped u' (f_nu f) (ivals t) -> Shaped p' (f_np f) 1 -> RootFinder rf -> RootFinder rf' ->
  integrator_ rf nan cspts f t order method g x0 z0 u p = Ok out -> integrator_ rf' nan cspts f t order method g' x0' z0' u' p' = Ok out' -> 0 <= e0 -> (forall i, (i < f_nx f)%nat -> Rabs (x0 i - x0' i) <= e0) ->
  (forall n i, (n < ivals t)%nat -> (i < f_nx f)%nat -> Rabs (at_m (io_xf out) i n - at_m (io_xf out') i n) <= shortB al L (Lu * d) e0 t (n + 1)) /\
  (forall n j i, (n < ivals t)%nat -> (j < order)%nat -> (i < f_nx f)%nat -> Rabs (at_m (io_X out) i (n * order + j) - at_m (io_X out') i (n * order + j)) <= stageB al L (Lu * d) e0 t n) /\
  (forall Lz Lzu, LipZin f Lz Lzu -> forall n j i, (n < ivals t)%nat -> (j < order)%nat -> (i < f_nz f)%nat -> Rabs (at_m (io_Z out) i (n * order + j) - at_m (io_Z out') i (n * order + j)) <= Lz * stageB al L (Lu * d) e0 t n + Lzu * d) /\
  (forall Lq Lqu, 0 <= Lq -> 0 <= Lqu -> LipQin f Lq Lqu -> forall i, (i < f_nq f)%nat -> Rabs (io_qf out i - io_qf out' i) <= (node t (ivals t) - node t 0) * (al * (Lq * (2 * shortB al L (Lu * d) e0 t (ivals t)) + Lqu * d))).
Proof.
  intros HN Hsq Hu Hp Hu' Hp' Hrf Hrf' E E' He0 He.
  destruct (integrator_outputs cspts f t order method tau g HP HL HD HT Hsq rf nan x0 z0 u p Hu Hp out Hrf E) as (s & A & b & HV & Es & HR & HCo & X0 & _ & Hxf & HX & _ & _ & Hqf). destruct (scheme_all cspts f t order method tau g false _ _ _ _ _ HP HL HD HT HV A b HR) as (s1 & e & E1 & Ee & Hz & _). rewrite Es in E1. injection E1 as <-. apply Hz in HCo.
  destruct (integrator_outputs cspts f t order method tau g' HP HL HD HT' Hsq rf' nan x0' z0' u' p' Hu' Hp' out' Hrf' E') as (s' & A' & b' & HV' & Es' & HR' & HCo' & X0' & _ & Hxf' & HX' & _ & _ & Hqf'). destruct (scheme_all cspts f t order method tau g' false _ _ _ _ _ HP HL HD HT' HV' A' b' HR') as (s1 & e' & E1 & Ee' & Hz' & _). rewrite Es' in E1. injection E1 as <-. apply Hz' in HCo'.
  destruct (sens_short false false _ _ _ _ _ s e _ _ _ _ _ s' e' HN HV Es Ee HCo HV' Es' Ee' HCo' He0) as (G1 & G2 & _ & G3 & G4); [intros i Hi; rewrite X0, X0' by exact Hi; now apply He|].
  split; [|split; [rewrite HX, HX'; exact G2|split; [exact G3|]]].
  - intros n i Hn Hi. rewrite Hxf, Hxf' by assumption. apply G1; [lia|exact Hi].
  - intros Lq Lqu HLq HLqu HLQ i Hi. destruct (G4 Lq Lqu HLq HLqu HLQ) as [G5 _]. rewrite Hqf, Hqf' by exact Hi. now apply G5.
Qed.
End S1.
