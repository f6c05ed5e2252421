(** Fast dynamics (C107). *)
From Coq Require Import Reals Lra Lia List.
From Coquelicot Require Import Coquelicot.
From Verif Require Import PyBase IndexModel DMModel StructModel StructsModel IneqModel DaeModel NumModel NumInst PolynomialModel PiecewiseModel PdqModel SchemeModel
  PolySpec PdqSpec SchemeSpec PolyMath PolynomialBase PolynomialThms2 PdqThms SchemeThms SchemeThms2 SchemeThms3 SchemeThms4 OrderSpec OrderMath OrderThms ConvSpec ConvThms GridSpec GridThms StiffSpec.
Import ListNotations.
Open Scope R_scope.

(** ** A point at the end of the interval *)
Lemma rk_end tau A b j : NoDup tau -> RungeKutta tau A b -> (j < length tau)%nat -> node tau j = 1 -> forall l, (l < length tau)%nat -> A j l = b l.
Proof.
  intros Hd HR Hj E l Hl. assert (HR' : RungeKutta tau A (A j)). { intros F PF. destruct (HR F PF) as [H1 _]. split; [exact H1|]. rewrite <- E at 1. now apply H1. }
  symmetry. now apply (rk_unique tau A b A (A j) Hd HR HR').
Qed.

Section End.
Context (cspts : nat -> string -> res (list R)) (f : daefun R) (t : list R) (order : nat) (method : string) (tau : list R) (g : option (R -> mat R)) (rep : bool) (x K Z u p : mat R).
Context (HP : Points cspts order method tau) (HL : (2 <= length t)%nat) (HD : DaeOk f) (HT : TdpOk f g) (HV : VarsOk f (ivals t) order rep x K Z u p).
Notation N := (ivals t).
Theorem end_point s e j : scheme_ cspts f t order method g rep x K Z u p = Ok s -> veccat_master (sc_eq s) = Ok e -> AllZero e -> (j < order)%nat -> node tau j = 1 -> forall n, (n < N)%nat ->
  node (sc_tc s) (n * order + j) = node t (n + 1) /\ (forall i, (i < f_nx f)%nat -> at_m (sc_X s) i (n * order + j) = at_m x i (n + 1)) /\
  (forall i, (i < f_nq f)%nat -> at_m (sc_Q s) i (n * order + j) = at_m (sc_q s) i (n + 1)) /\ Solves f (grid_args t order rep g x K Z u p n j).
Proof.
  intros Es Ee Hz Hj E1 n Hn. pose proof HP as (_ & Hd & HM & _). destruct (tbl_ok cspts order method tau HP) as (_ & _ & _ & _ & _ & HR).
  destruct (scheme_all cspts f t order method tau g rep x K Z u p HP HL HD HT HV _ _ HR) as (s1 & e1 & E & Ee1 & Hz1 & HX & _ & Ht & _ & Hqn & HQ). rewrite Es in E. injection E as <-. rewrite Ee in Ee1. injection Ee1 as <-. apply Hz1 in Hz as (C1 & C2 & _).
  pose proof (rk_end tau (cA tau) (cb tau) j Hd HR ltac:(lia) E1) as U. rewrite HM in U.
  assert (Et : stage_t t tau n j = node t (n + 1)) by (unfold stage_t, step; rewrite E1; ring).
  assert (Ex : forall i, (i < f_nx f)%nat -> stage_x t order (cA tau) x K n j i = at_m x i (n + 1)).
  { intros i Hi. rewrite <- (C2 n i Hn Hi). unfold stage_x. do 2 f_equal. apply Sum_ext. intros l Hl. now rewrite U. }
  split; [now rewrite Ht|]. split; [intros i Hi; rewrite HX by assumption; now apply Ex|]. split.
  - intros i Hi. rewrite HQ, Hqn by assumption. do 2 f_equal. apply Sum_ext. intros l Hl. now rewrite U.
  - intros r Hr. rewrite <- (C1 n j r Hn Hj Hr). destruct HD as [D1 _]. apply D1. unfold grid_args, stage. rewrite Et. repeat split; intros; cbn; try reflexivity. symmetry. now apply Ex.
Qed.
End End.

(** ** The stage coefficients can be inverted *)
Definition inv_A (tau : list R) (l j : nat) : R := Derive (polyval (lagrange (0 :: tau) (S j))) (node tau l).
Lemma A_inverse tau A b : NoDup tau -> ~ In 0 tau -> RungeKutta tau A b -> forall k l, (l < length tau)%nat -> Sum (length tau) (fun j => inv_A tau l j * Sum (length tau) (fun m => A j m * k m)) = k l.
Proof.
  intros Hd H0 HR k l Hl. set (M := length tau) in *. assert (Hd' : NoDup (0 :: tau)) by now constructor.
  set (G := fun s => Sum M (fun m => k m * polyval (lagrange tau m) s)).
  assert (PG : PolyLt M G) by (apply (PolyLt_Sum M M (fun m s => k m * polyval (lagrange tau m) s)); intros m Hm; apply PolyLt_scal; now apply lagrange_poly).
  assert (EG : forall m, (m < M)%nat -> G (node tau m) = k m).
  { intros m Hm. unfold G. rewrite (Sum_single M m _ Hm); [rewrite lagrange_delta, Nat.eqb_refl by assumption; ring|]. intros a Ha Hn. rewrite lagrange_delta by assumption. destruct (Nat.eqb_spec a m); [contradiction|ring]. }
  destruct (PolyLt_int _ _ PG) as (F & PF & F0 & DF).
  assert (EF : forall j, (j < M)%nat -> F (node tau j) = Sum M (fun m => A j m * k m)).
  { intros j Hj. destruct (HR G PG) as [H1 _]. pose proof (int_unique _ _ _ _ _ (is_RInt_poly _ _ F 0 (node tau j) PG DF) (H1 j Hj)) as E. rewrite F0 in E. fold M in E. rewrite (Sum_ext M _ (fun m => A j m * G (node tau m))) by (intros m Hm; now rewrite EG). lra. }
  pose proof (lagrange_interp (0 :: tau) F Hd' PF) as HI. simpl length in HI. fold M in HI.
  assert (DI : is_derive F (node tau l) (Sum (S M) (fun j => F (node (0 :: tau) j) * Derive (polyval (lagrange (0 :: tau) j)) (node tau l)))).
  { apply (is_derive_ext (fun s => Sum (S M) (fun j => F (node (0 :: tau) j) * polyval (lagrange (0 :: tau) j) s))); [intros s; symmetry; apply HI|].
    apply (is_derive_Sum (S M) (fun j s => F (node (0 :: tau) j) * polyval (lagrange (0 :: tau) j) s) (fun j s => F (node (0 :: tau) j) * Derive (polyval (lagrange (0 :: tau) j)) s)). intros j Hj. apply (is_derive_scal (polyval (lagrange (0 :: tau) j))). apply Derive_correct. apply (PolyLt_ex_derive (S M)). now apply (lagrange_poly (0 :: tau)). }
  rewrite <- (EG l Hl). rewrite <- (is_derive_unique _ _ _ (DF (node tau l))), (is_derive_unique _ _ _ DI). rewrite Sum_S. change (node (0 :: tau) 0) with 0. rewrite F0, Rmult_0_l, Rplus_0_l.
  apply Sum_ext. intros j Hj. change (node (0 :: tau) (S j)) with (node tau j). rewrite EF by exact Hj. unfold inv_A. ring.
Qed.
(** The sum of its elements' absolute values *)
Definition inv_bound (tau : list R) : R := Sum (length tau) (fun l => Sum (length tau) (fun j => Rabs (inv_A tau l j))).
Lemma sum_abs_pos n (v : nat -> R) : 0 <= Sum n (fun j => Rabs (v j)). Proof. induction n as [|n IH]; simpl; [lra|]. pose proof (Rabs_pos (v n)). lra. Qed.
Lemma inv_row tau l : (l < length tau)%nat -> Sum (length tau) (fun j => Rabs (inv_A tau l j)) <= inv_bound tau.
Proof.
  intros Hl. unfold inv_bound. generalize (length tau) at 1 3 as m. intros m. revert Hl. generalize (length tau) as n. intros n. revert l. induction n as [|n IH]; intros l Hl; [lia|]. cbn [Sum].
  pose proof (sum_abs_pos m (inv_A tau n)). assert (P : 0 <= Sum n (fun l => Sum m (fun j => Rabs (inv_A tau l j)))). { clear. induction n as [|n IH]; simpl; [lra|]. pose proof (sum_abs_pos m (inv_A tau n)). lra. }
  destruct (Nat.eq_dec l n) as [->|Hn]; [lra|]. specialize (IH l ltac:(lia)). lra.
Qed.
Lemma inv_pos tau : 0 <= inv_bound tau.
Proof. unfold inv_bound. generalize (length tau) at 2 as m. intros m. induction (length tau) as [|n IH]; simpl; [lra|]. pose proof (sum_abs_pos m (inv_A tau n)). lra. Qed.

(** ** Damping *)
Section Damp.
Context (cspts : nat -> string -> res (list R)) (f : daefun R) (t : list R) (order : nat) (method : string) (tau : list R) (g : option (R -> mat R)) (rep : bool) (x K Z x' K' Z' u p : mat R).
Context (HP : Points cspts order method tau) (H0 : ~ In 0 tau) (HL : (2 <= length t)%nat) (HD : DaeOk f) (HT : TdpOk f g) (HA : Asc t) (HV : VarsOk f (ivals t) order rep x K Z u p) (HV' : VarsOk f (ivals t) order rep x' K' Z' u p).
Context (eps : R) (He : 0 <= eps) (Hr : Relaxes f eps).
Context (s s' : scheme R) (e e' : list R) (Es : scheme_ cspts f t order method g rep x K Z u p = Ok s) (Ee : veccat_master (sc_eq s) = Ok e) (Hz : AllZero e).
Context (Es' : scheme_ cspts f t order method g rep x' K' Z' u p = Ok s') (Ee' : veccat_master (sc_eq s') = Ok e') (Hz' : AllZero e').
Notation N := (ivals t).
Notation C := (inv_bound tau).

Theorem damping n B : (n < N)%nat -> 2 * (eps * C) <= step t n -> (forall i, (i < f_nx f)%nat -> Rabs (at_m x i n - at_m x' i n) <= B) ->
  forall i j, (i < f_nx f)%nat -> (j < order)%nat -> Rabs (at_m (sc_X s) i (n * order + j) - at_m (sc_X s') i (n * order + j)) <= 2 * (eps * C) / step t n * B.
Proof.
  intros Hn Hs HB i j Hi Hj. pose proof HP as (_ & Hd & HM & H1). destruct (tbl_ok cspts order method tau HP) as (_ & _ & _ & _ & _ & HR). set (A := cA tau) in *. set (b := cb tau) in *.
  destruct (scheme_all cspts f t order method tau g rep x K Z u p HP HL HD HT HV A b HR) as (s1 & e1 & E & Ee1 & Hz1 & HX & _). rewrite Es in E. injection E as <-. rewrite Ee in Ee1. injection Ee1 as <-. pose proof (proj1 Hz1 Hz) as HC. pose proof HC as (C1 & _).
  destruct (scheme_all cspts f t order method tau g rep x' K' Z' u p HP HL HD HT HV' A b HR) as (s1 & e1 & E & Ee1 & Hz2 & HX' & _). rewrite Es' in E. injection E as <-. rewrite Ee' in Ee1. injection Ee1 as <-. pose proof (proj1 Hz2 Hz') as HC'. pose proof HC' as (C1' & _).
  set (h := step t n) in *. assert (Hh : 0 < h) by (unfold h, step; pose proof (HA n (n + 1)%nat ltac:(unfold ivals in Hn; lia)); lra).
  set (X j i := stage_x t order A x K n j i). set (X' j i := stage_x t order A x' K' n j i).
  assert (DX : forall j i, (j < order)%nat -> (i < f_nx f)%nat -> Rabs (X j i - X' j i) <= 2 * (eps * C) / h * B).
  { clear i j Hi Hj. destruct (f_nx f) as [|m] eqn:Em; [intros; lia|]. rewrite <- Em in *. destruct (fin_max2 order (f_nx f) (fun j i => Rabs (X j i - X' j i)) H1 ltac:(lia)) as (k & l & Hk & Hl & Hmax). set (W := Rabs (X k l - X' k l)) in *.
    intros j i Hj Hi. eapply Rle_trans; [now apply Hmax|]. fold W. assert (HW : 0 <= W) by apply Rabs_pos. assert (HB0 : 0 <= B) by (eapply Rle_trans; [apply Rabs_pos|apply (HB l Hl)]).
    assert (DK : forall q i, (q < order)%nat -> (i < f_nx f)%nat -> Rabs (at_m K i (n * order + q) - at_m K' i (n * order + q)) <= C * (W + B) / h).
    { intros q a Hq Ha. pose proof (A_inverse tau A b Hd H0 HR (fun m => at_m K a (n * order + m) - at_m K' a (n * order + m)) q ltac:(lia)) as EI. rewrite HM in EI. rewrite <- EI.
      rewrite (Sum_ext order _ (fun j => / h * (inv_A tau q j * ((X j a - X' j a) - (at_m x a n - at_m x' a n))))).
      2:{ intros m' Hm'. unfold X, X', stage_x. fold h. rewrite (Sum_ext order (fun m => A m' m * (at_m K a (n * order + m) - at_m K' a (n * order + m))) (fun m => A m' m * at_m K a (n * order + m) - A m' m * at_m K' a (n * order + m))) by (intros; ring). rewrite Sum_minus. field. lra. }
      rewrite Sum_scal, Rabs_mult, (Rabs_pos_eq (/ h)) by (left; now apply Rinv_0_lt_compat). unfold Rdiv. rewrite (Rmult_comm _ (/ h)). apply Rmult_le_compat_l; [left; now apply Rinv_0_lt_compat|].
      apply sum_abs_le; [pose proof (inv_row tau q ltac:(lia)) as IR; rewrite HM in IR; exact IR|lra|]. intros m' Hm'. unfold Rminus at 1. eapply Rle_trans; [apply Rabs_triang|]. rewrite Rabs_Ropp. apply Rplus_le_compat; [now apply Hmax|now apply HB]. }
    assert (HWle : W <= eps * (C * (W + B) / h)).
    { apply (Hr (stage t tau order A rep g x K Z u p n k) (stage t tau order A rep g x' K' Z' u p n k)); [intros r Hr'; now apply C1|intros r Hr'; now apply C1'|repeat split; intros; reflexivity| |exact Hl]. intros a Ha. cbn. now apply DK. }
    pose proof (inv_pos tau) as PC. assert (Pe : 0 <= eps * C) by now apply Rmult_le_pos. assert (EW : eps * (C * (W + B) / h) = eps * C * (W + B) / h) by (unfold Rdiv; ring). rewrite EW in HWle.
    assert (M1 : W * h <= eps * C * (W + B)). { apply (Rmult_le_compat_r h) in HWle; [|lra]. replace (eps * C * (W + B) / h * h) with (eps * C * (W + B)) in HWle by (field; lra). exact HWle. }
    apply (Rmult_le_reg_r h); [exact Hh|]. replace (2 * (eps * C) / h * B * h) with (2 * (eps * C) * B) by (field; lra). nra. }
  rewrite HX, HX' by assumption. apply DX; assumption.
Qed.

(** With a point at the end the differences at the grid times are damped, too. *)
Theorem grid_damping r B : In 1 tau -> r <= 1 -> (forall n, (n < N)%nat -> 2 * (eps * C) <= r * step t n) -> (forall i, (i < f_nx f)%nat -> Rabs (at_m x i 0 - at_m x' i 0) <= B) ->
  forall n i, (n <= N)%nat -> (i < f_nx f)%nat -> Rabs (at_m x i n - at_m x' i n) <= r ^ n * B.
Proof.
  intros H1 Hr1 Hst HB n. pose proof HP as (_ & _ & HM & _). destruct (In_nth tau 1 0 H1) as (j & Hj & E1). rewrite HM in Hj. induction n as [|n IH]; intros i Hn Hi; [simpl; rewrite Rmult_1_l; now apply HB|].
  specialize (IH) as IH0. assert (IHn : forall i, (i < f_nx f)%nat -> Rabs (at_m x i n - at_m x' i n) <= r ^ n * B) by (intros; apply IH0; assumption || lia).
  assert (Hh : 0 < step t n) by (unfold step; pose proof (HA n (n + 1)%nat ltac:(unfold ivals in Hn; lia)); lra). specialize (Hst n ltac:(lia)).
  assert (Hs : 2 * (eps * C) <= step t n) by nra. pose proof (damping n (r ^ n * B) ltac:(lia) Hs IHn i j Hi Hj) as D.
  destruct (end_point cspts f t order method tau g rep x K Z u p HP HL HD HT HV s e j Es Ee Hz Hj E1 n ltac:(lia)) as (_ & X1 & _). destruct (end_point cspts f t order method tau g rep x' K' Z' u p HP HL HD HT HV' s' e' j Es' Ee' Hz' Hj E1 n ltac:(lia)) as (_ & X1' & _).
  rewrite X1, X1' in D by exact Hi. replace (S n) with (n + 1)%nat at 1 2 by lia. eapply Rle_trans; [exact D|]. simpl. rewrite Rmult_assoc.
  assert (P : 0 <= r ^ n * B) by (eapply Rle_trans; [apply Rabs_pos|apply (IHn i Hi)]). apply Rmult_le_compat_r; [exact P|]. apply (Rmult_le_reg_r (step t n)); [exact Hh|]. replace (2 * (eps * C) / step t n * step t n) with (2 * (eps * C)) by (field; lra). exact Hst.
Qed.
End Damp.

(** ** The integrator *)
Section IntDamp.
Context (cspts : nat -> string -> res (list R)) (f : daefun R) (t : list R) (order : nat) (method : string) (tau : list R) (g : option (R -> mat R)) (u p : mat R).
Context (HP : Points cspts order method tau) (HL : (2 <= length t)%nat) (HD : DaeOk f) (HT : TdpOk f g) (Hq : f_ndae f = (f_nx f + f_nz f)%nat) (Hu : Shaped u (f_nu f) (ivals t)) (Hp : Shaped p (f_np f) 1).
Notation N := (ivals t).
Theorem integrator_end rf nan x0 z0 out j : RootFinder rf -> integrator_ rf nan cspts f t order method g x0 z0 u p = Ok out -> (j < order)%nat -> node tau j = 1 -> forall n, (n < N)%nat ->
  node (io_tc out) (n * order + j) = node t (n + 1) /\ (forall i, (i < f_nx f)%nat -> at_m (io_X out) i (n * order + j) = at_m (io_xf out) i n) /\
  (forall i, (i < f_nq f)%nat -> at_m (io_Q out) i (N * order - order + j) = io_qf out i).
Proof.
  intros Hrf E Hj E1 n Hn. destruct (integrator_outputs cspts f t order method tau g HP HL HD HT Hq rf nan x0 z0 u p Hu Hp out Hrf E) as (s & A & w & HV & Es & HR & HE & X0 & _ & Hxf & HX & HQ & Htc & Hqf).
  destruct (scheme_all cspts f t order method tau g false _ _ _ _ _ HP HL HD HT HV A w HR) as (s1 & e & E2 & Ee & Hz & _). rewrite Es in E2. injection E2 as <-. apply Hz in HE.
  pose proof (end_point cspts f t order method tau g false _ _ _ _ _ HP HL HD HT HV s e j Es Ee HE Hj E1) as EP. destruct (EP n Hn) as (T & X & _). rewrite Htc, HX, HQ. split; [exact T|]. split; [intros i Hi; rewrite Hxf; now apply X|].
  intros i Hi. rewrite Hqf. assert (HN : (1 <= N)%nat) by (unfold ivals; lia). destruct (EP (N - 1)%nat ltac:(lia)) as (_ & _ & Q & _). specialize (Q i Hi). replace (N - 1 + 1)%nat with N in Q by lia. rewrite <- Q. f_equal. nia.
Qed.
Theorem integrator_damping eps r B rf nan x0 z0 out rf' nan' x0' z0' out' : ~ In 0 tau -> In 1 tau -> Asc t -> 0 <= eps -> Relaxes f eps -> r <= 1 -> (forall n, (n < N)%nat -> 2 * (eps * inv_bound tau) <= r * step t n) ->
  RootFinder rf -> RootFinder rf' -> integrator_ rf nan cspts f t order method g x0 z0 u p = Ok out -> integrator_ rf' nan' cspts f t order method g x0' z0' u p = Ok out' ->
  (forall i, (i < f_nx f)%nat -> Rabs (x0 i - x0' i) <= B) -> forall n i, (n < N)%nat -> (i < f_nx f)%nat -> Rabs (at_m (io_xf out) i n - at_m (io_xf out') i n) <= r ^ (n + 1) * B.
Proof.
  intros H0 H1 HA He Hr Hr1 Hst Hrf Hrf' E E' HB n i Hn Hi.
  destruct (integrator_outputs cspts f t order method tau g HP HL HD HT Hq rf nan x0 z0 u p Hu Hp out Hrf E) as (s & A & w & HV & Es & HR & HE & X0 & _ & Hxf & _).
  destruct (integrator_outputs cspts f t order method tau g HP HL HD HT Hq rf' nan' x0' z0' u p Hu Hp out' Hrf' E') as (s' & A' & w' & HV' & Es' & HR' & HE' & X0' & _ & Hxf' & _).
  destruct (scheme_all cspts f t order method tau g false _ _ _ _ _ HP HL HD HT HV A w HR) as (s1 & e & E2 & Ee & Hz & _). rewrite Es in E2. injection E2 as <-. apply Hz in HE.
  destruct (scheme_all cspts f t order method tau g false _ _ _ _ _ HP HL HD HT HV' A' w' HR') as (s1 & e' & E2 & Ee' & Hz' & _). rewrite Es' in E2. injection E2 as <-. apply Hz' in HE'.
  rewrite Hxf, Hxf'. apply (grid_damping cspts f t order method tau g false _ _ _ _ _ _ u p HP H0 HL HD HT HA HV HV' eps He Hr s s' e e' Es Ee HE Es' Ee' HE' r B H1 Hr1 Hst); [|lia|exact Hi]. intros k Hk. rewrite X0, X0' by exact Hk. now apply HB.
Qed.
End IntDamp.

Theorem damping_all : forall tau, ~ In 0 tau -> exists C, 0 <= C /\
  forall cspts f t order method g eps, Points cspts order method tau -> (2 <= length t)%nat -> DaeOk f -> TdpOk f g -> Asc t -> 0 <= eps -> Relaxes f eps ->
  (forall rep x K Z x' K' Z' u p s s' e e', VarsOk f (ivals t) order rep x K Z u p -> VarsOk f (ivals t) order rep x' K' Z' u p ->
     scheme_ cspts f t order method g rep x K Z u p = Ok s -> veccat_master (sc_eq s) = Ok e -> AllZero e ->
     scheme_ cspts f t order method g rep x' K' Z' u p = Ok s' -> veccat_master (sc_eq s') = Ok e' -> AllZero e' ->
     (forall n B, (n < ivals t)%nat -> 2 * (eps * C) <= step t n -> (forall i, (i < f_nx f)%nat -> Rabs (at_m x i n - at_m x' i n) <= B) ->
        forall i j, (i < f_nx f)%nat -> (j < order)%nat -> Rabs (at_m (sc_X s) i (n * order + j) - at_m (sc_X s') i (n * order + j)) <= 2 * (eps * C) / step t n * B) /\
     (forall r B, In 1 tau -> r <= 1 -> (forall n, (n < ivals t)%nat -> 2 * (eps * C) <= r * step t n) -> (forall i, (i < f_nx f)%nat -> Rabs (at_m x i 0 - at_m x' i 0) <= B) ->
        forall n i, (n <= ivals t)%nat -> (i < f_nx f)%nat -> Rabs (at_m x i n - at_m x' i n) <= r ^ n * B)) /\
  (forall u p r B rf nan x0 z0 out rf' nan' x0' z0' out', f_ndae f = (f_nx f + f_nz f)%nat -> Shaped u (f_nu f) (ivals t) -> Shaped p (f_np f) 1 -> In 1 tau -> r <= 1 -> (forall n, (n < ivals t)%nat -> 2 * (eps * C) <= r * step t n) ->
     RootFinder rf -> RootFinder rf' -> integrator_ rf nan cspts f t order method g x0 z0 u p = Ok out -> integrator_ rf' nan' cspts f t order method g x0' z0' u p = Ok out' ->
     (forall i, (i < f_nx f)%nat -> Rabs (x0 i - x0' i) <= B) -> forall n i, (n < ivals t)%nat -> (i < f_nx f)%nat -> Rabs (at_m (io_xf out) i n - at_m (io_xf out') i n) <= r ^ (n + 1) * B).
Proof.
  intros tau H0. exists (inv_bound tau). split; [apply inv_pos|]. intros cspts f t order method g eps HP HL HD HT HA He Hr. split.
  - intros rep x K Z x' K' Z' u p s s' e e' HV HV' Es Ee Hz Es' Ee' Hz'. split.
    + exact (damping cspts f t order method tau g rep x K Z x' K' Z' u p HP H0 HL HD HT HA HV HV' eps He Hr s s' e e' Es Ee Hz Es' Ee' Hz').
    + exact (grid_damping cspts f t order method tau g rep x K Z x' K' Z' u p HP H0 HL HD HT HA HV HV' eps He Hr s s' e e' Es Ee Hz Es' Ee' Hz').
  - intros u p r B rf nan x0 z0 out rf' nan' x0' z0' out' Hq Hu Hp H1 Hr1 Hst Hrf Hrf' E E' HB. exact (integrator_damping cspts f t order method tau g u p HP HL HD HT Hq Hu Hp eps r B rf nan x0 z0 out rf' nan' x0' z0' out' H0 H1 HA He Hr Hr1 Hst Hrf Hrf' E E' HB).
Qed.
