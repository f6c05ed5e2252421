(** Errors with inexact inputs, and convergence on refined grids (C115). *)
From Coq Require Import Reals Lra.
From Coquelicot Require Import Coquelicot.
From Verif Require Import PyBase IndexModel DMModel DMProofs StructModel StructSpec PowerModel EntryModel StructsModel IneqModel DaeModel StructsSpec StructsThms11 NumModel NumInst NumSpec PolynomialModel PiecewiseModel PdqModel SchemeModel
  PolySpec PiecewiseSpec PdqSpec SchemeSpec PolyMath PolynomialBase PolynomialThms PolynomialThms2 PiecewiseThms PdqThms PdqThms2 SchemeThms SchemeThms2 SchemeThms3 SchemeThms4 SchemeThms5 OrderSpec OrderMath OrderThms ConvSpec ConvThms GridSpec GridThms ErrSpec ErrThms SuperSpec SuperThms StiffThms MonoSpec MonoThms MonoThms2 MonoThms3 MonoThms4 DissSpec DissThms DissThms2 DissThms3 DissThms4 DissErrThms SensSpec SensThms SensThms2 Sens2Spec SensThms3 RefineSpec.
Open Scope R_scope.

(** ** A scheme and a reference with near inputs *)
Section Ref.
Context (f : daefun R) (t tau : list R) (M : nat) (rep : bool) (g : option (R -> mat R)) (x K Z u p : mat R) (A : nat -> nat -> R) (b : nat -> R).
Context (H1 : (1 <= M)%nat) (HA : Asc t) (HC : CollocationEqs f t tau M A b rep g x K Z u p).
Context (al L Lu d : R) (Bj : forall j, (j < M)%nat -> Sum M (fun l => Rabs (A j l)) <= al) (Bb : Sum M (fun l => Rabs (b l)) <= al) (Ha : 0 <= al) (HS : ShortSteps t al L) (Lip : LipXin f L Lu) (HLu : 0 <= Lu) (Hd0 : 0 <= d).
Notation N := (ivals t).
Notation st n j := (stage t tau M A rep g x K Z u p n j).
Context (c : nat -> nat -> dargs R) (y : nat -> nat -> R) (e dl : R) (Hdl : 0 <= dl).
Context (Sc : forall n j, (n < N)%nat -> (j < M)%nat -> Solves f (st n j) /\ Solves f (c n j) /\ NearInput f d (st n j) (c n j)).
Context (Xc : forall n j i, (n < N)%nat -> (j < M)%nat -> (i < f_nx f)%nat -> Rabs (y n i + step t n * Sum M (fun l => A j l * a_xdot (c n l) i) - a_x (c n j) i) <= step t n * dl).
Context (Yc : forall n i, (n < N)%nat -> (i < f_nx f)%nat -> Rabs (y n i + step t n * Sum M (fun l => b l * a_xdot (c n l) i) - y (n + 1)%nat i) <= step t n * dl).
Context (E0 : forall i, (i < f_nx f)%nat -> Rabs (at_m x i 0 - y 0%nat i) <= e).
Let D' := al * (Lu * d) + dl.
Notation bd n := (exp (2 * al * L * (node t n - node t 0)) * (e + (node t n - node t 0) * D')).

Lemma ref_pos : 0 <= D'.
Proof. apply Rplus_le_le_0_compat; [apply Rmult_le_pos; [exact Ha|now apply Rmult_le_pos]|exact Hdl]. Qed.
Lemma ref_diff n w i en m z : (n < N)%nat -> (i < f_nx f)%nat -> Sum M (fun l => Rabs (w l)) <= al -> Rabs (at_m x i n - y n i) <= en -> 0 <= m -> (forall j i, (j < M)%nat -> (i < f_nx f)%nat -> Rabs (a_x (st n j) i - a_x (c n j) i) <= m) ->
  Rabs (y n i + step t n * Sum M (fun l => w l * a_xdot (c n l) i) - z) <= step t n * dl -> Rabs (at_m x i n + step t n * Sum M (fun l => w l * at_m K i (n * M + l)) - z) <= en + step t n * (al * (L * m) + D').
Proof.
  intros Hn Hi Hw He Hm0 Hm Hz. pose proof (step_pos t n HA Hn) as Hh.
  assert (S1 : Rabs (Sum M (fun l => w l * (at_m K i (n * M + l) - a_xdot (c n l) i))) <= al * (L * m + Lu * d)).
  { apply sum_abs_le; [exact Hw|apply Rplus_le_le_0_compat; apply Rmult_le_pos; try assumption; apply HS|]. intros l Hl. destruct (Sc n l Hn Hl) as (S1 & S2 & NI). apply (Lip (st n l) (c n l) S1 S2 m d); [|exact NI|exact Hi]. intros k Hk. now apply Hm. }
  rewrite (Sum_ext M _ (fun l => w l * at_m K i (n * M + l) - w l * a_xdot (c n l) i)), Sum_minus in S1 by (intros; ring). set (P := Sum M (fun l => w l * at_m K i (n * M + l))) in *. set (Q := Sum M (fun l => w l * a_xdot (c n l) i)) in *.
  replace (at_m x i n + step t n * P - z) with ((at_m x i n - y n i) + (step t n * (P - Q) + (y n i + step t n * Q - z))) by ring. eapply Rle_trans; [apply Rabs_triang|]. apply Rplus_le_compat; [exact He|]. eapply Rle_trans; [apply Rabs_triang|]. rewrite Rabs_mult, (Rabs_pos_eq (step t n)) by lra.
  apply (Rmult_le_compat_l (step t n)) in S1; [|lra]. unfold D'. lra.
Qed.
Lemma ref_stages n en : (n < N)%nat -> (forall i, (i < f_nx f)%nat -> Rabs (at_m x i n - y n i) <= en) -> forall j i, (j < M)%nat -> (i < f_nx f)%nat -> Rabs (a_x (st n j) i - a_x (c n j) i) <= 2 * (en + step t n * D').
Proof.
  intros Hn He j i Hj Hi. destruct (fin_max2 M (f_nx f) (fun j i => Rabs (a_x (st n j) i - a_x (c n j) i)) H1 ltac:(lia)) as (k & l & Hk & Hl & Hmax). eapply Rle_trans; [now apply Hmax|]. set (m := Rabs (a_x (st n k) l - a_x (c n k) l)) in *.
  assert (Hm0 : 0 <= m) by apply Rabs_pos. pose proof (ref_diff n (A k) l en m (a_x (c n k) l) Hn Hl (Bj k Hk) (He l Hl) Hm0 Hmax (Xc n k l Hn Hk Hl)) as B. change (m <= en + step t n * (al * (L * m) + D')) in B. destruct HS as [HL0 Hst]. specialize (Hst n Hn). apply (Rmult_le_compat_r m) in Hst; [|exact Hm0]. lra.
Qed.
Lemma ref_grid n i : (n <= N)%nat -> (i < f_nx f)%nat -> Rabs (at_m x i n - y n i) <= bd n.
Proof.
  revert i. induction n as [|n IH]; intros i Hn Hi; [rewrite Rminus_eq_0, !Rmult_0_r, exp_0, Rmult_0_l, Rplus_0_r, Rmult_1_l; now apply E0|]. replace (S n) with (n + 1)%nat by lia. pose proof ref_pos as HD.
  set (k := node t n - node t 0) in *. pose proof (carry_tpos t HA n ltac:(lia)) as Hk. fold k in Hk. pose proof (step_pos t n HA ltac:(lia)) as Hh. replace (node t (n + 1) - node t 0) with (k + step t n) by (unfold k, step; ring). assert (He0 : 0 <= e) by (eapply Rle_trans; [apply Rabs_pos|exact (E0 i Hi)]).
  destruct HC as (_ & X1 & _). rewrite <- X1 by (assumption || lia). set (en := exp (2 * al * L * k) * (e + k * D')) in *. assert (Hen : forall i, (i < f_nx f)%nat -> Rabs (at_m x i n - y n i) <= en) by (intros; apply IH; [lia|assumption]).
  assert (HL0 : 0 <= L) by apply HS. assert (Hen0 : 0 <= en) by (eapply Rle_trans; [apply Rabs_pos|exact (Hen i Hi)]). assert (HhD : 0 <= step t n * D') by (apply Rmult_le_pos; [lra|exact HD]).
  pose proof (ref_diff n b i en (2 * (en + step t n * D')) (y (n + 1)%nat i) ltac:(lia) Hi Bb (Hen i Hi) ltac:(lra) (ref_stages n en ltac:(lia) Hen) (Yc n i ltac:(lia) Hi)) as B. eapply Rle_trans; [exact B|]. eapply Rle_trans; [|apply (exp_step k e D' (step t n) al L); [now apply Rmult_le_pos|lra|exact Hk|apply Rplus_le_le_0_compat; [exact He0|now apply Rmult_le_pos]|exact HD]]. fold en. apply Req_le. ring.
Qed.
End Ref.

(** The bound at grid time [n] *)
Notation fedB al L Lu d D e t n := (exp (2 * al * L * (node t n - node t 0)) * (e + (node t n - node t 0) * (al * (Lu * d) + (1 + al) * D))).
(** ** Schemes and true solutions with near inputs *)
Section S1.
Context (cspts : nat -> string -> res (list R)) (f : daefun R) (t : list R) (order : nat) (method : string) (tau : list R) (g g' : option (R -> mat R)).
Context (HP : Points cspts order method tau) (HL : (2 <= length t)%nat) (HD : DaeOk f) (HT : TdpOk f g) (HA : Asc t) (HU : InUnit tau).
Context (al L Lu d D e0 : R) (Hal : CoefBound tau al) (HS : ShortSteps t al L) (Lip : LipXin f L Lu) (HLu : 0 <= Lu) (Hd0 : 0 <= d) (HD0 : 0 <= D) (He0 : 0 <= e0).
Context (xd xs zs us : nat -> R -> R) (pv : nat -> R) (u p : mat R) (HSol : SolvesDae f t xd xs zs us pv g') (HF : NearFed f t d g g' u p us pv) (HCl : forall i, (i < f_nx f)%nat -> Close t order D (xs i) (xd i)).
Notation bd n := (fedB al L Lu d D e0 t n).

Lemma fed_pos n : (n <= ivals t)%nat -> 0 <= al -> 0 <= bd n.
Proof. intros Hn Ha. pose proof (carry_tpos t HA n Hn) as Ht. apply Rmult_le_pos; [left; apply exp_pos|]. apply Rplus_le_le_0_compat; [exact He0|]. apply Rmult_le_pos; [exact Ht|]. apply Rplus_le_le_0_compat; [apply Rmult_le_pos; [exact Ha|now apply Rmult_le_pos]|apply Rmult_le_pos; lra]. Qed.
Lemma fed_grow n : (n < ivals t)%nat -> 0 <= al -> bd n + step t n * (al * (Lu * d) + (1 + al) * D) <= bd (n + 1)%nat.
Proof.
  intros Hn Ha. pose proof (carry_tpos t HA n ltac:(lia)) as Ht. pose proof (carry_tpos t HA (n + 1)%nat ltac:(lia)) as Ht1. pose proof (step_pos t n HA Hn) as Hh. assert (HDp : 0 <= al * (Lu * d) + (1 + al) * D) by (apply Rplus_le_le_0_compat; [apply Rmult_le_pos; [exact Ha|now apply Rmult_le_pos]|apply Rmult_le_pos; lra]). set (Dp := al * (Lu * d) + (1 + al) * D) in *.
  assert (HaL : 0 <= 2 * al * L) by (apply Rmult_le_pos; [lra|apply HS]).
  set (k := node t n - node t 0) in *. replace (node t (n + 1) - node t 0) with (k + step t n) in * by (unfold k, step; ring). set (E := exp (2 * al * L * k)). set (F := exp (2 * al * L * (k + step t n))). assert (HEF : E <= F) by (apply exp_le, Rmult_le_compat_l; [exact HaL|lra]). assert (HF1 : 1 <= F) by (unfold F; rewrite <- exp_0; apply exp_le; now apply Rmult_le_pos).
  replace (F * (e0 + (k + step t n) * Dp)) with (F * (e0 + k * Dp) + F * (step t n * Dp)) by ring. apply Rplus_le_compat; [apply Rmult_le_compat_r; [|exact HEF]; apply Rplus_le_le_0_compat; [exact He0|now apply Rmult_le_pos]|]. rewrite <- (Rmult_1_l (step t n * _)) at 1. apply Rmult_le_compat_r; [apply Rmult_le_pos; [lra|exact HDp]|exact HF1].
Qed.

Theorem fed_error rep x K Z s e : VarsOk f (ivals t) order rep x K Z u p -> scheme_ cspts f t order method g rep x K Z u p = Ok s -> veccat_master (sc_eq s) = Ok e -> AllZero e -> (forall i, (i < f_nx f)%nat -> Rabs (at_m x i 0 - xs i (node t 0)) <= e0) ->
  (forall n i, (n <= ivals t)%nat -> (i < f_nx f)%nat -> Rabs (at_m x i n - xs i (node t n)) <= bd n) /\
  (forall n j i, (n < ivals t)%nat -> (j < order)%nat -> (i < f_nx f)%nat -> Rabs (at_m (sc_X s) i (n * order + j) - xs i (node (sc_tc s) (n * order + j))) <= 2 * bd (n + 1)%nat) /\
  (forall n j i, (n < ivals t)%nat -> (j < order)%nat -> (i < f_nx f)%nat -> Rabs (at_m K i (n * order + j) - xd i (node (sc_tc s) (n * order + j))) <= L * (2 * bd (n + 1)%nat) + Lu * d) /\
  (forall Lz Lzu, LipZin f Lz Lzu -> forall n j i, (n < ivals t)%nat -> (j < order)%nat -> (i < f_nz f)%nat -> Rabs (at_m Z i (n * order + j) - zs i (node (sc_tc s) (n * order + j))) <= Lz * (2 * bd (n + 1)%nat) + Lzu * d) /\
  (forall Lq Lqu Dq qs qd, 0 <= Lq -> 0 <= Lqu -> 0 <= Dq -> LipQin f Lq Lqu -> (forall i, (i < f_nq f)%nat -> Close t order Dq (qs i) (qd i)) -> (forall i v, (i < f_nq f)%nat -> node t 0 < v <= node t (ivals t) -> qd i v = f_quad f (dae_at xd xs zs us pv g' v) i) ->
     (forall n i, (n <= ivals t)%nat -> (i < f_nq f)%nat -> Rabs (at_m (sc_q s) i n - (qs i (node t n) - qs i (node t 0))) <= (node t n - node t 0) * (al * (Lq * (2 * bd n) + Lqu * d) + (1 + al) * Dq)) /\
     (forall n j i, (n < ivals t)%nat -> (j < order)%nat -> (i < f_nq f)%nat -> Rabs (at_m (sc_Q s) i (n * order + j) - (qs i (node (sc_tc s) (n * order + j)) - qs i (node t 0))) <= (node t (n + 1) - node t 0) * (al * (Lq * (2 * bd (n + 1)%nat) + Lqu * d) + (1 + al) * Dq))) /\
  (forall lam pp, Lebesgue (0 :: tau) lam -> piecewise_X s x K = Ok pp -> forall n i v, (n < ivals t)%nat -> (i < f_nx f)%nat -> node t n < v <= node t (n + 1) -> Rabs (ppval pp "left" i v - xs i v) <= lam * (2 * bd (n + 1)%nat + step t n * D) + step t n * D).
Proof.
  intros HV Es Ee Hz E0. pose proof HP as (_ & Hd & HM & H1). destruct (rk_exists tau Hd) as (A & b & HR). destruct (coef_bound tau al A b Hd Hal HR) as [BA Bb]. rewrite HM in BA, Bb. assert (Ha : 0 <= al) by (apply (alpha_pos tau al); [lia|exact Hal]).
  destruct (scheme_all cspts f t order method tau g rep x K Z u p HP HL HD HT HV A b HR) as (s1 & e1 & E1 & Ee1 & Hz1 & HX & _ & Htc & Hq0 & Hqn & HQ). rewrite Es in E1. injection E1 as <-. rewrite Ee in Ee1. injection Ee1 as <-. apply Hz1 in Hz as HC.
  set (c n j := dae_at xd xs zs us pv g' (stage_t t tau n j)). set (st n j := stage t tau order A rep g x K Z u p n j).
  assert (Sc : forall n j, (n < ivals t)%nat -> (j < order)%nat -> Solves f (st n j) /\ Solves f (c n j) /\ NearInput f d (st n j) (c n j)).
  { intros n j Hn Hj. destruct HF as (F1 & F2 & F3). pose proof (stage_in t tau n j HA HU Hn ltac:(lia)) as Hin. pose proof (bounds_in t n HA Hn). destruct (stage_fed f t tau order A b rep g x K Z u p HC n j Hn Hj) as [S1 (n' & _ & _ & P2)].
    split; [exact S1|]. split; [intros r Hr; apply HSol; [lra|exact Hr]|]. split; [intros i Hi; cbn; now apply F1|]. split; [intros i Hi; unfold st; rewrite P2 by exact Hi; cbn; now apply F2|]. split; [reflexivity|]. intros i Hi. cbn. apply F3; [exact Hi|lra]. }
  assert (HD1 : 0 <= (1 + al) * D) by (apply Rmult_le_pos; lra).
  assert (Xc : forall n j i, (n < ivals t)%nat -> (j < order)%nat -> (i < f_nx f)%nat -> Rabs (xs i (node t n) + step t n * Sum order (fun l => A j l * a_xdot (c n l) i) - a_x (c n j) i) <= step t n * ((1 + al) * D)) by (intros n j i Hn Hj Hi; exact (proj1 (defect t tau order al D A b (xs i) (xd i) n HA HU HM HD0 HR BA Bb (HCl i Hi) Hn) j Hj)).
  assert (Yc : forall n i, (n < ivals t)%nat -> (i < f_nx f)%nat -> Rabs (xs i (node t n) + step t n * Sum order (fun l => b l * a_xdot (c n l) i) - xs i (node t (n + 1))) <= step t n * ((1 + al) * D)) by (intros n i Hn Hi; exact (proj2 (defect t tau order al D A b (xs i) (xd i) n HA HU HM HD0 HR BA Bb (HCl i Hi) Hn))).
  pose proof (ref_grid f t tau order rep g x K Z u p A b H1 HA HC al L Lu d BA Bb Ha HS Lip HLu Hd0 c (fun n i => xs i (node t n)) e0 ((1 + al) * D) HD1 Sc Xc Yc E0) as G1.
  assert (G2 : forall n j i, (n < ivals t)%nat -> (j < order)%nat -> (i < f_nx f)%nat -> Rabs (stage_x t order A x K n j i - xs i (stage_t t tau n j)) <= 2 * bd (n + 1)%nat).
  { intros n j i Hn Hj Hi. pose proof (ref_stages f t tau order rep g x K Z u p A H1 HA al L Lu d BA HS Lip HLu Hd0 c (fun n i => xs i (node t n)) ((1 + al) * D) Sc Xc n _ Hn (fun i Hi => G1 n i ltac:(lia) Hi) j i Hj Hi) as B. cbn [a_x st c dae_at stage] in B. pose proof (fed_grow n Hn Ha). eapply Rle_trans; [exact B|]. lra. }
  assert (B0 : forall n, (n <= ivals t)%nat -> 0 <= 2 * bd n) by (intros n Hn; pose proof (fed_pos n Hn Ha); lra).
  assert (HDp : 0 <= al * (Lu * d) + (1 + al) * D) by (apply Rplus_le_le_0_compat; [apply Rmult_le_pos; [exact Ha|now apply Rmult_le_pos]|exact HD1]).
  assert (Bm : forall n, (n < ivals t)%nat -> 2 * bd n <= 2 * bd (n + 1)%nat) by (intros n Hn; pose proof (fed_grow n Hn Ha); pose proof (Rmult_le_pos (step t n) _ (Rlt_le _ _ (step_pos t n HA Hn)) HDp); lra).
  assert (GX : forall n j i, (n < ivals t)%nat -> (j < order)%nat -> (i < f_nx f)%nat -> Rabs (at_m (sc_X s) i (n * order + j) - xs i (node (sc_tc s) (n * order + j))) <= 2 * bd (n + 1)%nat) by (intros n j i Hn Hj Hi; rewrite HX, Htc by assumption; now apply G2).
  split; [exact G1|]. split; [exact GX|]. split; [|split; [|split]].
  - intros n j i Hn Hj Hi. rewrite Htc by assumption. destruct (Sc n j Hn Hj) as (S1 & S2 & NI). apply (Lip _ _ S1 S2 (2 * bd (n + 1)%nat) d); [|exact NI|exact Hi]. intros k Hk. now apply G2.
  - intros Lz Lzu HLz n j i Hn Hj Hi. rewrite Htc by assumption. destruct (Sc n j Hn Hj) as (S1 & S2 & NI). apply (HLz _ _ S1 S2 (2 * bd (n + 1)%nat) d); [|exact NI|exact Hi]. intros k Hk. now apply G2.
  - intros Lq Lqu Dq qs qd HLq0 HLqu0 HDq0 HLq HQc HQd. set (P n := Lq * (2 * bd n) + Lqu * d). assert (HLqd : 0 <= Lqu * d) by now apply Rmult_le_pos.
    assert (P0 : forall n, (n <= ivals t)%nat -> 0 <= P n) by (intros n Hn; apply Rplus_le_le_0_compat; [apply Rmult_le_pos; [exact HLq0|now apply B0]|exact HLqd]). assert (Pm : forall n, (n < ivals t)%nat -> P n <= P (n + 1)%nat) by (intros n Hn; apply Rplus_le_compat_r, Rmult_le_compat_l; [exact HLq0|now apply Bm]).
    set (qr n l i := f_quad f (st n l) i) in *.
    assert (Hr : forall n l i, (n < ivals t)%nat -> (l < order)%nat -> (i < f_nq f)%nat -> Rabs (qr n l i - qd i (stage_t t tau n l)) <= P (n + 1)%nat).
    { intros n l i Hn Hl Hi. destruct (Sc n l Hn Hl) as (S1 & S2 & S3). pose proof (stage_in t tau n l HA HU Hn ltac:(lia)) as Hin. pose proof (bounds_in t n HA Hn). rewrite HQd by (assumption || lra). apply (HLq _ _ S1 S2 (2 * bd (n + 1)%nat) d); [|exact S3|exact Hi]. intros k Hk. now apply G2. }
    assert (St : forall w n i v, (n < ivals t)%nat -> (i < f_nq f)%nat -> Sum order (fun l => Rabs (w l)) <= al ->
      Rabs (qs i (node t n) + step t n * Sum order (fun l => w l * qd i (stage_t t tau n l)) - qs i v) <= step t n * ((1 + al) * Dq) ->
      forall q, Rabs (q - (qs i (node t n) - qs i (node t 0))) <= (node t n - node t 0) * (al * P n + (1 + al) * Dq) ->
      Rabs (q + step t n * Sum order (fun l => w l * qr n l i) - (qs i v - qs i (node t 0))) <= (node t (n + 1) - node t 0) * (al * P (n + 1)%nat + (1 + al) * Dq)).
    { intros w n i v Hn Hi Hw Hdf q Hq. pose proof (step_pos t n HA Hn) as Hh.
      assert (S1 : Rabs (Sum order (fun l => w l * (qr n l i - qd i (stage_t t tau n l)))) <= al * P (n + 1)%nat) by (apply sum_abs_le; [exact Hw|apply P0; lia|intros l Hl; now apply Hr]).
      rewrite (Sum_ext order _ (fun l => w l * qr n l i - w l * qd i (stage_t t tau n l))), Sum_minus in S1 by (intros; ring). set (U := Sum order (fun l => w l * qr n l i)) in *. set (Q := Sum order (fun l => w l * qd i (stage_t t tau n l))) in *.
      replace (q + step t n * U - (qs i v - qs i (node t 0))) with ((q - (qs i (node t n) - qs i (node t 0))) + (step t n * (U - Q) + (qs i (node t n) + step t n * Q - qs i v))) by ring.
      eapply Rle_trans; [apply Rabs_triang|]. assert (S2 : Rabs (step t n * (U - Q) + (qs i (node t n) + step t n * Q - qs i v)) <= step t n * (al * P (n + 1)%nat) + step t n * ((1 + al) * Dq)).
      { eapply Rle_trans; [apply Rabs_triang|]. apply Rplus_le_compat; [|exact Hdf]. rewrite Rabs_mult, (Rabs_pos_eq (step t n)) by lra. apply Rmult_le_compat_l; [lra|exact S1]. }
      pose proof (carry_tpos t HA n ltac:(lia)) as Htp. assert (S3 : (node t n - node t 0) * (al * P n) <= (node t n - node t 0) * (al * P (n + 1)%nat)) by (apply Rmult_le_compat_l; [exact Htp|]; apply Rmult_le_compat_l; [exact Ha|now apply Pm]).
      replace (node t (n + 1) - node t 0) with ((node t n - node t 0) + step t n) by (unfold step; ring). lra. }
    assert (G : forall n i, (n <= ivals t)%nat -> (i < f_nq f)%nat -> Rabs (at_m (sc_q s) i n - (qs i (node t n) - qs i (node t 0))) <= (node t n - node t 0) * (al * P n + (1 + al) * Dq)).
    { induction n as [|n IH]; intros i Hn Hi; [rewrite Hq0 by exact Hi; rewrite !Rminus_eq_0, Rabs_R0, Rmult_0_l; lra|]. replace (S n) with (n + 1)%nat by lia. rewrite Hqn by (assumption || lia). apply St; [lia|exact Hi|exact Bb| |apply IH; [lia|exact Hi]]. exact (proj2 (defect t tau order al Dq A b (qs i) (qd i) n HA HU HM HDq0 HR BA Bb (HQc i Hi) ltac:(lia))). }
    split; [exact G|]. intros n j i Hn Hj Hi. rewrite HQ, Htc by assumption. apply St; [exact Hn|exact Hi|now apply BA| |apply G; [lia|exact Hi]]. exact (proj1 (defect t tau order al Dq A b (qs i) (qd i) n HA HU HM HDq0 HR BA Bb (HQc i Hi) Hn) j Hj).
  - intros lam pp Hlam Epp n i v Hn Hi Hv. refine (carry_dense cspts f t order method tau g rep HP HL HD HT HA x K Z u p HV s e Es Ee Hz HU xd xs (fun n => 2 * bd n) GX lam D pp Hlam HD0 _ HCl Epp n i v Hn Hi Hv).
    intros k l Hk Hl. cbv beta. pose proof (G1 k l ltac:(lia) Hl) as Q1. pose proof (Bm k Hk). pose proof (fed_pos k ltac:(lia) Ha). lra.
Qed.
End S1.
