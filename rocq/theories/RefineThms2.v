(** Convergence of collocation on refined grids (C115). *)
From Coq Require Import Reals Lra.
From Coquelicot Require Import Coquelicot.
From Verif Require Import PyBase IndexModel DMModel DMProofs StructModel StructSpec PowerModel EntryModel StructsModel IneqModel DaeModel StructsSpec StructsThms11 NumModel NumInst NumSpec PolynomialModel PiecewiseModel PdqModel SchemeModel
  PolySpec PiecewiseSpec PdqSpec SchemeSpec PolyMath PolynomialBase PolynomialThms PolynomialThms2 PiecewiseThms PdqThms PdqThms2 SchemeThms SchemeThms2 SchemeThms3 SchemeThms4 SchemeThms5 OrderSpec OrderMath OrderThms ConvSpec ConvThms GridSpec GridThms ErrSpec ErrThms SuperSpec SuperThms StiffThms MonoSpec MonoThms MonoThms2 MonoThms3 MonoThms4 DissSpec DissThms DissThms2 DissThms3 DissThms4 DissErrThms SensSpec SensThms SensThms2 Sens2Spec SensThms3 RefineSpec RefineThms.
Open Scope R_scope.

(** ** Fine grids *)
Lemma covered (t : list R) v k : node t 0 < v <= node t k -> exists n, (n < k)%nat /\ node t n < v <= node t (n + 1).
Proof.
  induction k as [|k IH]; intros Hv; [lra|]. destruct (Rle_dec v (node t k)) as [H|H]; [destruct IH as (n & Hn & B); [lra|]; exists n; split; [lia|exact B]|]. exists k. split; [lia|]. replace (k + 1)%nat with (S k) by lia. lra.
Qed.
Lemma unif_all n a b (h : nat -> R -> R) D : a <= b -> 0 < D -> (forall i, (i < n)%nat -> ContOn a b (h i)) -> exists dl, 0 < dl /\ forall i v w, (i < n)%nat -> a <= v <= b -> a <= w <= b -> Rabs (v - w) <= dl -> Rabs (h i v - h i w) <= D.
Proof.
  intros Hab HD. induction n as [|n IH]; intros Hc; [exists 1; split; [lra|intros; lia]|]. destruct IH as (d1 & P1 & B1); [intros; apply Hc; lia|]. destruct (Heine_cor2 (f := h n) (a := a) (b := b) (fun v Hv => Hc n (Nat.lt_succ_diag_r n) v Hv) (mkposreal D HD)) as (d2 & B2). pose proof (cond_pos d2) as P2.
  exists (Rmin d1 (d2 / 2)). split; [apply Rmin_pos; lra|]. intros i v w Hi Hv Hw Hd. pose proof (Rmin_l d1 (d2 / 2)). pose proof (Rmin_r d1 (d2 / 2)). destruct (Nat.eq_dec i n) as [->|]; [left; apply B2; try assumption; lra|apply B1; try assumption; [lia|lra]].
Qed.
Section Fine.
Context (t : list R) (a b dl : R) (HG : FineGrid t a b dl).
Lemma fine_in n : (n <= ivals t)%nat -> a <= node t n <= b.
Proof.
  destruct HG as (HA & HL & E0 & EN & _). intros Hn. split; [pose proof (carry_tpos t HA n Hn); lra|]. destruct (Nat.eq_dec n (ivals t)) as [->|]; [lra|]. assert (H : (n < ivals t < length t)%nat) by (unfold ivals in *; lia). specialize (HA n (ivals t) H). lra.
Qed.
Lemma fine_close M D w d : (1 <= M)%nat -> Follows a b w d -> (forall v z, a <= v <= b -> a <= z <= b -> Rabs (v - z) <= dl -> Rabs (d v - d z) <= D) -> Close t M D w d.
Proof.
  intros HM Hw Hd n Hn. pose proof (fine_in n ltac:(lia)) as I0. pose proof (fine_in (n + 1)%nat ltac:(lia)) as I1. destruct HG as (HA & _ & _ & _ & Hs). specialize (Hs n Hn). pose proof (step_pos t n HA Hn) as Hh. unfold step in Hs, Hh. split.
  - intros s Hsn. replace (w s - w (node t n)) with (plus (opp (w (node t n) - w a)) (w s - w a)) by (unfold plus, opp; simpl; ring). apply (is_RInt_Chasles (V := R_NormedModule) d (node t n) a s); [apply (is_RInt_swap (V := R_NormedModule)); apply Hw; lra|apply Hw; lra].
  - exists (fun _ => d (node t n)). split; [destruct M as [|M']; [lia|apply PolyLt_const]|]. intros s Hsn. apply Hd; [lra|lra|]. rewrite Rabs_pos_eq; lra.
Qed.
Lemma fine_fed f D g u p us pv : 0 <= D -> (forall i v z, (i < f_nu f)%nat -> a <= v <= b -> a <= z <= b -> Rabs (v - z) <= dl -> Rabs (us i v - us i z) <= D) -> TakenFrom f t u p us pv -> NearFed f t D g g u p us pv.
Proof.
  intros HD Hu [T1 T2]. split; [|split].
  - intros i n v Hi Hn Hv. destruct (T1 i n Hi Hn) as (z & Hz & ->). pose proof (fine_in n ltac:(lia)) as I0. pose proof (fine_in (n + 1)%nat ltac:(lia)) as I1. destruct HG as (HA & _ & _ & _ & Hs). specialize (Hs n Hn). unfold step in Hs. apply Hu; [exact Hi|lra|lra|]. apply Rabs_le. lra.
  - intros i Hi. rewrite T2, Rminus_eq_0, Rabs_R0 by exact Hi. exact HD.
  - intros i v _ _. rewrite Rminus_eq_0, Rabs_R0. exact HD.
Qed.
Lemma fine_short al L : 0 <= al -> 0 <= L -> dl <= / (2 * (al * L + 1)) -> ShortSteps t al L.
Proof.
  intros Ha HL Hd. split; [exact HL|]. intros n Hn. destruct HG as (HA & _ & _ & _ & Hs). specialize (Hs n Hn). pose proof (step_pos t n HA Hn) as Hh. assert (HaL : 0 <= al * L) by now apply Rmult_le_pos.
  rewrite Rmult_assoc. apply Rle_trans with (/ (2 * (al * L + 1)) * (al * L)); [apply Rmult_le_compat_r; [exact HaL|lra]|]. apply Rmult_le_reg_l with (2 * (al * L + 1)); [lra|]. rewrite <- Rmult_assoc, Rinv_r by lra. lra.
Qed.
Lemma fine_weaken dl' : dl <= dl' -> FineGrid t a b dl'.
Proof. destruct HG as (H1 & H2 & H3 & H4 & H5). intros H. repeat (split; [assumption|]). intros n Hn. specialize (H5 n Hn). lra. Qed.
End Fine.

Lemma small_enough C eps : 0 <= C -> 0 < eps -> exists D, 0 < D /\ C * D <= eps.
Proof. intros HC He. exists (eps / (C + 1)). assert (0 < / (C + 1)) by (apply Rinv_0_lt_compat; lra). split; [apply Rmult_lt_0_compat; assumption|]. apply Rmult_le_reg_r with (C + 1); [lra|]. unfold Rdiv. replace (C * (eps * / (C + 1)) * (C + 1)) with (C * eps) by (field; lra). nra. Qed.

(** ** Convergence *)
Section Conv.
Context (cspts : nat -> string -> res (list R)) (f : daefun R) (order : nat) (method : string) (tau : list R) (g : option (R -> mat R)) (a b : R).
Context (HP : Points cspts order method tau) (HU : InUnit tau) (HD : DaeOk f) (HT : TdpOk f g) (Hab : a < b).
Context (L Lu : R) (HL0 : 0 <= L) (HLu : 0 <= Lu) (Lip : LipXin f L Lu).
Context (xd xs zs us : nat -> R -> R) (pv : nat -> R) (HSol : SolvesDae f [a; b] xd xs zs us pv g).
Context (Hx : forall i, (i < f_nx f)%nat -> Follows a b (xs i) (xd i) /\ ContOn a b (xd i)) (Hus : forall i, (i < f_nu f)%nat -> ContOn a b (us i)).
Context (al lam : R) (Hal : CoefBound tau al) (Hl0 : 0 <= lam) (Hlam : Lebesgue (0 :: tau) lam).
Let C1 := exp (2 * al * L * (b - a)) * (1 + (b - a) * (al * Lu + (1 + al))).

Lemma conv_al : 0 <= al. Proof. apply (alpha_pos tau al); [destruct HP as (_ & _ & -> & H1); exact H1|exact Hal]. Qed.
Lemma conv_pos : 0 <= C1.
Proof. pose proof conv_al as Ha. apply Rmult_le_pos; [left; apply exp_pos|]. assert (0 <= al * Lu) by now apply Rmult_le_pos. assert (0 <= (b - a) * (al * Lu + (1 + al))) by (apply Rmult_le_pos; lra). lra. Qed.
Lemma conv_bound t dl n D : 0 <= D -> FineGrid t a b dl -> (n <= ivals t)%nat -> fedB al L Lu D D D t n <= C1 * D.
Proof.
  intros HD0 HG Hn. pose proof conv_al as Ha. pose proof (fine_in t a b dl HG n Hn) as I. destruct HG as (HA & _ & E0 & _). rewrite E0. unfold C1. rewrite (Rmult_assoc (exp (2 * al * L * (b - a)))). assert (H0 : 0 <= al * Lu) by now apply Rmult_le_pos. assert (H1 : 0 <= (al * Lu + (1 + al)) * D) by (apply Rmult_le_pos; lra).
  replace (al * (Lu * D) + (1 + al) * D) with ((al * Lu + (1 + al)) * D) by ring. replace ((1 + (b - a) * (al * Lu + (1 + al))) * D) with (D + (b - a) * ((al * Lu + (1 + al)) * D)) by ring.
  apply Rmult_le_compat; [left; apply exp_pos|apply Rplus_le_le_0_compat; [exact HD0|apply Rmult_le_pos; lra]|apply exp_le, Rmult_le_compat_l; [apply Rmult_le_pos; lra|lra]|]. apply Rplus_le_compat_l, Rmult_le_compat_r; [exact H1|lra].
Qed.
(** Any accuracy of the data of [fed_error] is reached on fine grids. *)
Lemma conv_data D : 0 < D -> exists dl, 0 < dl /\ dl <= D /\ dl <= 1 /\ forall t u p, FineGrid t a b dl -> TakenFrom f t u p us pv -> ShortSteps t al L /\ SolvesDae f t xd xs zs us pv g /\ NearFed f t D g g u p us pv /\ (forall i, (i < f_nx f)%nat -> Close t order D (xs i) (xd i)).
Proof.
  intros HDp. pose proof conv_al as Ha. destruct (unif_all (f_nx f) a b xd D ltac:(lra) HDp (fun i Hi => proj2 (Hx i Hi))) as (d1 & P1 & B1). destruct (unif_all (f_nu f) a b us D ltac:(lra) HDp Hus) as (d2 & P2 & B2). assert (HaL : 0 <= al * L) by now apply Rmult_le_pos. assert (P3 : 0 < / (2 * (al * L + 1))) by (apply Rinv_0_lt_compat; lra).
  assert (exists dl, 0 < dl /\ dl <= D /\ dl <= 1 /\ dl <= d1 /\ dl <= d2 /\ dl <= / (2 * (al * L + 1))) as (dl & Q0 & Q1 & Q2 & Q3 & Q4 & Q5).
  { exists (Rmin (Rmin D 1) (Rmin (Rmin d1 d2) (/ (2 * (al * L + 1))))). pose proof (Rmin_l D 1). pose proof (Rmin_r D 1). pose proof (Rmin_l d1 d2). pose proof (Rmin_r d1 d2). pose proof (Rmin_l (Rmin d1 d2) (/ (2 * (al * L + 1)))). pose proof (Rmin_r (Rmin d1 d2) (/ (2 * (al * L + 1)))).
    pose proof (Rmin_l (Rmin D 1) (Rmin (Rmin d1 d2) (/ (2 * (al * L + 1))))). pose proof (Rmin_r (Rmin D 1) (Rmin (Rmin d1 d2) (/ (2 * (al * L + 1))))). split; [repeat apply Rmin_pos; lra|]. repeat split; lra. }
  exists dl. split; [exact Q0|]. split; [exact Q1|]. split; [exact Q2|]. intros t u p HG HTf. split; [apply (fine_short t a b _ HG); [exact Ha|exact HL0|lra]|]. split; [|split].
  - destruct HG as (_ & _ & E0 & EN & _). intros v r Hv Hr. apply HSol; [|exact Hr]. unfold node. simpl. lra.
  - apply (fine_fed t a b _ HG); [lra| |exact HTf]. intros i v z Hi Hv Hz Hvz. apply B2; try assumption. lra.
  - intros i Hi. apply (fine_close t a b _ HG); [destruct HP as (_ & _ & _ & H'); exact H'|apply (Hx i Hi)|]. intros v z Hv Hz Hvz. apply B1; try assumption. lra.
Qed.

Theorem converges eps : 0 < eps -> exists dl, 0 < dl /\ forall t u p rep x K Z s e, FineGrid t a b dl -> TakenFrom f t u p us pv -> VarsOk f (ivals t) order rep x K Z u p -> scheme_ cspts f t order method g rep x K Z u p = Ok s -> veccat_master (sc_eq s) = Ok e -> AllZero e -> (forall i, (i < f_nx f)%nat -> Rabs (at_m x i 0 - xs i a) <= dl) ->
  (forall n i, (n <= ivals t)%nat -> (i < f_nx f)%nat -> Rabs (at_m x i n - xs i (node t n)) <= eps) /\
  (forall n j i, (n < ivals t)%nat -> (j < order)%nat -> (i < f_nx f)%nat -> Rabs (at_m (sc_X s) i (n * order + j) - xs i (node (sc_tc s) (n * order + j))) <= eps /\ Rabs (at_m K i (n * order + j) - xd i (node (sc_tc s) (n * order + j))) <= eps) /\
  (forall pp i v, piecewise_X s x K = Ok pp -> (i < f_nx f)%nat -> a < v <= b -> Rabs (ppval pp "left" i v - xs i v) <= eps).
Proof.
  intros He. pose proof conv_al as Ha. pose proof conv_pos as HC1. set (C2 := C1 + 2 * C1 + (L * (2 * C1) + Lu) + (lam * (2 * C1 + 1) + 1)). assert (Q1 : 0 <= L * (2 * C1)) by (apply Rmult_le_pos; lra). assert (Q2 : 0 <= lam * (2 * C1 + 1)) by (apply Rmult_le_pos; lra).
  destruct (small_enough C2 eps ltac:(unfold C2; lra) He) as (D & HDp & HDe). destruct (conv_data D HDp) as (dl & Hdl & Hd1 & Hd2 & B). exists dl. split; [exact Hdl|]. intros t u p rep x K Z s e HG HTf HV Es Ee Hz E0. destruct (B t u p HG HTf) as (HS & HSt & HF & HCl). pose proof HG as (HA & HL & Ea & Eb & Hst).
  destruct (fed_error cspts f t order method tau g g HP HL HD HT HA HU al L Lu D D D Hal HS Lip HLu ltac:(lra) ltac:(lra) ltac:(lra) xd xs zs us pv u p HSt HF HCl rep x K Z s e HV Es Ee Hz) as (G1 & G2 & G3 & _ & _ & G6); [intros i Hi; rewrite Ea; specialize (E0 i Hi); lra|].
  assert (Bn : forall n, (n <= ivals t)%nat -> fedB al L Lu D D D t n <= C1 * D) by (intros n Hn; apply (conv_bound t dl); [lra|exact HG|exact Hn]).
  assert (T1 : 0 <= C1 * D) by (apply Rmult_le_pos; lra). assert (T2 : 0 <= L * (2 * C1) * D) by (apply Rmult_le_pos; lra). assert (T3 : 0 <= lam * (2 * C1 + 1) * D) by (apply Rmult_le_pos; lra). assert (T4 : 0 <= Lu * D) by (apply Rmult_le_pos; lra). assert (EC : C2 * D = C1 * D + 2 * (C1 * D) + (L * (2 * C1) * D + Lu * D) + (lam * (2 * C1 + 1) * D + D)) by (unfold C2; ring).
  split; [|split].
  - intros n i Hn Hi. pose proof (G1 n i Hn Hi). pose proof (Bn n Hn). lra.
  - intros n j i Hn Hj Hi. pose proof (Bn (n + 1)%nat ltac:(lia)) as Bn1. split; [pose proof (G2 n j i Hn Hj Hi); lra|]. pose proof (G3 n j i Hn Hj Hi) as G. apply (Rmult_le_compat_l L) in Bn1; [|exact HL0]. lra.
  - intros pp i v Epp Hi Hv. destruct (covered t v (ivals t)) as (n & Hn & Hvn); [lra|]. pose proof (G6 lam pp Hlam Epp n i v Hn Hi Hvn) as G. pose proof (Bn (n + 1)%nat ltac:(lia)) as Bn1. pose proof (step_pos t n HA Hn) as Hh. specialize (Hst n Hn). assert (HsD : step t n * D <= 1 * D) by (apply Rmult_le_compat_r; lra).
    assert (lam * (2 * fedB al L Lu D D D t (n + 1) + step t n * D) <= lam * ((2 * C1 + 1) * D)) by (apply Rmult_le_compat_l; [exact Hl0|]; lra). lra.
Qed.
Theorem converges_outputs Lz Lzu Lq Lqu qs qd eps : 0 <= Lz -> 0 <= Lzu -> 0 <= Lq -> 0 <= Lqu -> LipZin f Lz Lzu -> LipQin f Lq Lqu -> (forall i, (i < f_nq f)%nat -> Follows a b (qs i) (qd i) /\ ContOn a b (qd i)) -> (forall i v, (i < f_nq f)%nat -> a < v <= b -> qd i v = f_quad f (dae_at xd xs zs us pv g v) i) ->
  0 < eps -> exists dl, 0 < dl /\ forall t u p rep x K Z s e, FineGrid t a b dl -> TakenFrom f t u p us pv -> VarsOk f (ivals t) order rep x K Z u p -> scheme_ cspts f t order method g rep x K Z u p = Ok s -> veccat_master (sc_eq s) = Ok e -> AllZero e -> (forall i, (i < f_nx f)%nat -> Rabs (at_m x i 0 - xs i a) <= dl) ->
  (forall n j i, (n < ivals t)%nat -> (j < order)%nat -> (i < f_nz f)%nat -> Rabs (at_m Z i (n * order + j) - zs i (node (sc_tc s) (n * order + j))) <= eps) /\
  (forall n i, (n <= ivals t)%nat -> (i < f_nq f)%nat -> Rabs (at_m (sc_q s) i n - (qs i (node t n) - qs i a)) <= eps) /\
  (forall n j i, (n < ivals t)%nat -> (j < order)%nat -> (i < f_nq f)%nat -> Rabs (at_m (sc_Q s) i (n * order + j) - (qs i (node (sc_tc s) (n * order + j)) - qs i a)) <= eps).
Proof.
  intros HLz0 HLzu0 HLq0 HLqu0 HLz HLq Hq HQd He. pose proof conv_al as Ha. pose proof conv_pos as HC1. set (Cq := al * (Lq * (2 * C1) + Lqu) + (1 + al)). set (C2 := (Lz * (2 * C1) + Lzu) + (b - a) * Cq). assert (Q1 : 0 <= Lz * (2 * C1)) by (apply Rmult_le_pos; lra). assert (Q2 : 0 <= Lq * (2 * C1)) by (apply Rmult_le_pos; lra).
  assert (Q3 : 0 <= al * (Lq * (2 * C1) + Lqu)) by (apply Rmult_le_pos; lra). assert (Q4 : 0 <= Cq) by (unfold Cq; lra). assert (Q5 : 0 <= (b - a) * Cq) by (apply Rmult_le_pos; lra).
  destruct (small_enough C2 eps ltac:(unfold C2; lra) He) as (D & HDp & HDe). destruct (conv_data D HDp) as (d1 & Hd1 & Hd1D & _ & B). destruct (unif_all (f_nq f) a b qd D ltac:(lra) HDp (fun i Hi => proj2 (Hq i Hi))) as (d2 & Hd2 & B2). pose proof (Rmin_l d1 d2). pose proof (Rmin_r d1 d2).
  exists (Rmin d1 d2). split; [apply Rmin_pos; assumption|]. intros t u p rep x K Z s e HG HTf HV Es Ee Hz E0. destruct (B t u p (fine_weaken t a b _ HG d1 ltac:(lra)) HTf) as (HS & HSt & HF & HCl). pose proof HG as (HA & HL & Ea & Eb & Hst).
  destruct (fed_error cspts f t order method tau g g HP HL HD HT HA HU al L Lu D D D Hal HS Lip HLu ltac:(lra) ltac:(lra) ltac:(lra) xd xs zs us pv u p HSt HF HCl rep x K Z s e HV Es Ee Hz) as (_ & _ & _ & G4 & G5 & _); [intros i Hi; rewrite Ea; specialize (E0 i Hi); lra|].
  assert (Bn : forall n, (n <= ivals t)%nat -> fedB al L Lu D D D t n <= C1 * D) by (intros n Hn; apply (conv_bound t (Rmin d1 d2)); [lra|exact HG|exact Hn]).
  assert (HQc : forall i, (i < f_nq f)%nat -> Close t order D (qs i) (qd i)). { intros i Hi. apply (fine_close t a b _ HG); [destruct HP as (_ & _ & _ & H'); exact H'|apply (Hq i Hi)|]. intros v z Hv Hz' Hvz. apply B2; try assumption. lra. }
  destruct (G5 Lq Lqu D qs qd HLq0 HLqu0 ltac:(lra) HLq HQc) as [G7 G8]; [intros i v Hi Hv; apply HQd; [exact Hi|lra]|].
  assert (T1 : 0 <= (Lz * (2 * C1) + Lzu) * D) by (apply Rmult_le_pos; lra). assert (T2 : 0 <= (b - a) * Cq * D) by (apply Rmult_le_pos; lra). assert (EC : C2 * D = (Lz * (2 * C1) + Lzu) * D + (b - a) * Cq * D) by (unfold C2; ring).
  assert (Qb : forall n, (n <= ivals t)%nat -> (node t n - node t 0) * (al * (Lq * (2 * fedB al L Lu D D D t n) + Lqu * D) + (1 + al) * D) <= (b - a) * Cq * D).
  { intros n Hn. pose proof (fine_in t a b _ HG n Hn) as I. pose proof (carry_tpos t HA n Hn) as Ht. pose proof (Bn n Hn) as Bn1. replace ((b - a) * Cq * D) with ((b - a) * (Cq * D)) by ring. apply Rle_trans with ((node t n - node t 0) * (Cq * D)); [|apply Rmult_le_compat_r; [apply Rmult_le_pos; lra|lra]]. apply Rmult_le_compat_l; [exact Ht|]. unfold Cq.
    apply (Rmult_le_compat_l Lq) in Bn1; [|exact HLq0]. assert (Lq * (2 * fedB al L Lu D D D t n) + Lqu * D <= (Lq * (2 * C1) + Lqu) * D) as Hc by lra. apply (Rmult_le_compat_l al) in Hc; [|exact Ha]. lra. }
  rewrite Ea in G7, G8, Qb. split; [|split].
  - intros n j i Hn Hj Hi. pose proof (G4 Lz Lzu HLz n j i Hn Hj Hi) as G. pose proof (Bn (n + 1)%nat ltac:(lia)) as Bn1. apply (Rmult_le_compat_l Lz) in Bn1; [|exact HLz0]. lra.
  - intros n i Hn Hi. pose proof (G7 n i Hn Hi). pose proof (Qb n Hn). lra.
  - intros n j i Hn Hj Hi. pose proof (G8 n j i Hn Hj Hi). pose proof (Qb (n + 1)%nat ltac:(lia)). lra.
Qed.
End Conv.

(** ** The constants exist, and integrators *)
Section Final.
Context (cspts : nat -> string -> res (list R)) (f : daefun R) (order : nat) (method : string) (tau : list R) (g : option (R -> mat R)) (a b : R).
Context (HP : Points cspts order method tau) (HU : InUnit tau) (HD : DaeOk f) (HT : TdpOk f g) (Hab : a < b).
Context (L Lu : R) (HL0 : 0 <= L) (HLu : 0 <= Lu) (Lip : LipXin f L Lu).
Context (xd xs zs us : nat -> R -> R) (pv : nat -> R) (HSol : SolvesDae f [a; b] xd xs zs us pv g).
Context (Hx : forall i, (i < f_nx f)%nat -> Follows a b (xs i) (xd i) /\ ContOn a b (xd i)) (Hus : forall i, (i < f_nu f)%nat -> ContOn a b (us i)).

Lemma refine_constants : exists al lam, CoefBound tau al /\ 0 <= lam /\ Lebesgue (0 :: tau) lam.
Proof.
  pose proof HP as (_ & Hd & HM & H1). destruct (constants_exist tau Hd ltac:(intros ->; simpl in HM; lia)) as (al & _ & Hal & _).
  assert (N0 : ~ In 0 tau). { intros Hi. destruct (In_nth tau 0 0 Hi) as (k & Hk & E). pose proof (HU k Hk) as H. unfold node in H. rewrite E in H. lra. }
  destruct (constants_exist (0 :: tau) ltac:(constructor; assumption) ltac:(discriminate)) as (_ & lam & _ & Hl & Hlam). exists al, lam. split; [exact Hal|]. split; assumption.
Qed.
Theorem refine_scheme eps : 0 < eps -> exists dl, 0 < dl /\ forall t u p rep x K Z s e, FineGrid t a b dl -> TakenFrom f t u p us pv -> VarsOk f (ivals t) order rep x K Z u p -> scheme_ cspts f t order method g rep x K Z u p = Ok s -> veccat_master (sc_eq s) = Ok e -> AllZero e -> (forall i, (i < f_nx f)%nat -> Rabs (at_m x i 0 - xs i a) <= dl) ->
  (forall n i, (n <= ivals t)%nat -> (i < f_nx f)%nat -> Rabs (at_m x i n - xs i (node t n)) <= eps) /\
  (forall n j i, (n < ivals t)%nat -> (j < order)%nat -> (i < f_nx f)%nat -> Rabs (at_m (sc_X s) i (n * order + j) - xs i (node (sc_tc s) (n * order + j))) <= eps /\ Rabs (at_m K i (n * order + j) - xd i (node (sc_tc s) (n * order + j))) <= eps) /\
  (forall pp i v, piecewise_X s x K = Ok pp -> (i < f_nx f)%nat -> a < v <= b -> Rabs (ppval pp "left" i v - xs i v) <= eps).
Proof. destruct refine_constants as (al & lam & Hal & Hl & Hlam). exact (converges cspts f order method tau g a b HP HU HD HT Hab L Lu HL0 HLu Lip xd xs zs us pv HSol Hx Hus al lam Hal Hl Hlam eps). Qed.

Context (Lz Lzu Lq Lqu : R) (qs qd : nat -> R -> R) (HLz0 : 0 <= Lz) (HLzu0 : 0 <= Lzu) (HLq0 : 0 <= Lq) (HLqu0 : 0 <= Lqu) (HLz : LipZin f Lz Lzu) (HLq : LipQin f Lq Lqu).
Context (Hq : forall i, (i < f_nq f)%nat -> Follows a b (qs i) (qd i) /\ ContOn a b (qd i)) (HQd : forall i v, (i < f_nq f)%nat -> a < v <= b -> qd i v = f_quad f (dae_at xd xs zs us pv g v) i).
Theorem refine_outputs eps : 0 < eps -> exists dl, 0 < dl /\ forall t u p rep x K Z s e, FineGrid t a b dl -> TakenFrom f t u p us pv -> VarsOk f (ivals t) order rep x K Z u p -> scheme_ cspts f t order method g rep x K Z u p = Ok s -> veccat_master (sc_eq s) = Ok e -> AllZero e -> (forall i, (i < f_nx f)%nat -> Rabs (at_m x i 0 - xs i a) <= dl) ->
  (forall n j i, (n < ivals t)%nat -> (j < order)%nat -> (i < f_nz f)%nat -> Rabs (at_m Z i (n * order + j) - zs i (node (sc_tc s) (n * order + j))) <= eps) /\
  (forall n i, (n <= ivals t)%nat -> (i < f_nq f)%nat -> Rabs (at_m (sc_q s) i n - (qs i (node t n) - qs i a)) <= eps) /\
  (forall n j i, (n < ivals t)%nat -> (j < order)%nat -> (i < f_nq f)%nat -> Rabs (at_m (sc_Q s) i (n * order + j) - (qs i (node (sc_tc s) (n * order + j)) - qs i a)) <= eps).
Proof. destruct refine_constants as (al & lam & Hal & Hl & Hlam). exact (converges_outputs cspts f order method tau g a b HP HU HD HT Hab L Lu HL0 HLu Lip xd xs zs us pv HSol Hx Hus al Hal Lz Lzu Lq Lqu qs qd eps HLz0 HLzu0 HLq0 HLqu0 HLz HLq Hq HQd). Qed.
Theorem refine_integrator eps : 0 < eps -> f_ndae f = (f_nx f + f_nz f)%nat -> exists dl, 0 < dl /\ forall t u p rf nan x0 z0 out pp, FineGrid t a b dl -> TakenFrom f t u p us pv -> Shaped u (f_nu f) (ivals t) -> Shaped p (f_np f) 1 -> RootFinder rf ->
  integrate_ rf nan cspts f t order method g true x0 z0 u p = Ok (out, pp) -> (forall i, (i < f_nx f)%nat -> Rabs (x0 i - xs i a) <= dl) ->
  (forall n i, (n < ivals t)%nat -> (i < f_nx f)%nat -> Rabs (at_m (io_xf out) i n - xs i (node t (n + 1))) <= eps) /\
  (forall n j i, (n < ivals t)%nat -> (j < order)%nat -> (i < f_nx f)%nat -> Rabs (at_m (io_X out) i (n * order + j) - xs i (node (io_tc out) (n * order + j))) <= eps) /\
  (forall n j i, (n < ivals t)%nat -> (j < order)%nat -> (i < f_nz f)%nat -> Rabs (at_m (io_Z out) i (n * order + j) - zs i (node (io_tc out) (n * order + j))) <= eps) /\
  (forall i, (i < f_nq f)%nat -> Rabs (io_qf out i - (qs i b - qs i a)) <= eps) /\
  (forall i v, (i < f_nx f)%nat -> a < v <= b -> Rabs (ppval pp "left" i v - xs i v) <= eps).
Proof.
  intros He Hsq. destruct (refine_scheme eps He) as (d1 & P1 & B1). destruct (refine_outputs eps He) as (d2 & P2 & B2). pose proof (Rmin_l d1 d2) as M1. pose proof (Rmin_r d1 d2) as M2. exists (Rmin d1 d2). split; [now apply Rmin_pos|].
  intros t u p rf nan x0 z0 out pp HG HTf Hu Hp Hrf. pose proof HG as (HA & HL & Ea & Eb & _). unfold integrate_. destruct (integrator_ rf nan cspts f t order method g x0 z0 u p) as [out'|] eqn:E; [|discriminate]. cbn [rbind negb].
  destruct (integrator_outputs cspts f t order method tau g HP HL HD HT Hsq rf nan x0 z0 u p Hu Hp out' Hrf E) as (s & A & b' & HV & Es & HR & HC & X0 & _ & Hxf & HX & _ & Htc & Hqf). rewrite Es. cbn [rbind]. destruct (piecewise_X s (io_x out') (io_K out')) as [pp'|] eqn:Epp; [|discriminate]. cbn [rbind]. intros [= -> ->] E0.
  destruct (scheme_all cspts f t order method tau g false _ _ _ _ _ HP HL HD HT HV A b' HR) as (s1 & e & E1 & Ee & Hz & _). rewrite Es in E1. injection E1 as <-. apply Hz in HC.
  destruct (B1 t u p false _ _ _ s e (fine_weaken t a b _ HG d1 M1) HTf HV Es Ee HC) as (G1 & G2 & G3); [intros i Hi; rewrite X0 by exact Hi; specialize (E0 i Hi); lra|].
  destruct (B2 t u p false _ _ _ s e (fine_weaken t a b _ HG d2 M2) HTf HV Es Ee HC) as (G4 & G5 & _); [intros i Hi; rewrite X0 by exact Hi; specialize (E0 i Hi); lra|].
  split; [intros n i Hn Hi; rewrite Hxf; apply G1; [lia|exact Hi]|]. rewrite HX. split; [intros n j i Hn Hj Hi; rewrite Htc; apply G2; assumption|]. split; [intros n j i Hn Hj Hi; rewrite Htc; apply G4; assumption|]. split.
  - intros i Hi. rewrite Hqf, <- Eb. apply G5; [lia|exact Hi].
  - intros i v Hi Hv. now apply G3.
Qed.
End Final.
