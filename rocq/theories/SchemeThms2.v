(** The collocation equations, their trajectories, exactness, quadratures (C61-C64). *)
From Coq Require Import Reals Lra.
From Coquelicot Require Import Coquelicot.
From Verif Require Import PyBase IndexModel DMModel DMProofs StructModel StructSpec PowerModel EntryModel StructsModel IneqModel DaeModel StructsSpec StructsThms11 NumModel NumInst NumSpec PolynomialModel PiecewiseModel PdqModel SchemeModel
  PolySpec PiecewiseSpec PdqSpec SchemeSpec PolyMath PolynomialBase PolynomialThms PolynomialThms2 PiecewiseThms PdqThms PdqThms2 SchemeThms.
Open Scope R_scope.

Lemma diff_zero (p : mat R) : (forall v, In v (dm_nz (mat_dm (cs_diff p))) -> v = 0) <-> forall i k l, (i < nr p)%nat -> (k < nc p)%nat -> (l < nc p)%nat -> at_m p i k = at_m p i l.
Proof.
  rewrite nz_zero. cbn [cs_diff nr nc at_m]. split.
  - intros H i k l Hi Hk Hl. assert (E : forall k, (k < nc p)%nat -> at_m p i k = at_m p i 0).
    { induction k0 as [|k0 IH]; intros Hk0; [reflexivity|]. rewrite <- IH by lia. specialize (H i k0 Hi ltac:(lia)). rewrite Nat.add_1_r in H. revert H. rnum. intros H. lra. }
    now rewrite (E k Hk), (E l Hl).
  - intros H i j Hi Hj. rnum. rewrite (H i (j + 1)%nat j) by lia. ring.
Qed.

Section Built.
Context (cspts : nat -> string -> res (list R)) (f : daefun R) (t : list R) (order : nat) (method : string) (tau : list R) (g : option (R -> mat R)) (rep : bool) (x K Z u p : mat R).
Context (HP : Points cspts order method tau) (HL : (2 <= length t)%nat) (HD : DaeOk f) (HT : TdpOk f g) (HV : VarsOk f (ivals t) order rep x K Z u p).
Notation N := (ivals t).
Notation sch := (scheme_ cspts f t order method g rep x K Z u p).

(** ** C61 *)
Theorem scheme_equations : exists s A b e,
  sch = Ok s /\ RungeKutta tau A b /\
  Shaped (sc_X s) (f_nx f) (N * order) /\ (forall i n j, (i < f_nx f)%nat -> (n < N)%nat -> (j < order)%nat -> at_m (sc_X s) i (n * order + j) = stage_x t order A x K n j i) /\
  length (sc_tc s) = (N * order)%nat /\ (forall n j, (n < N)%nat -> (j < order)%nat -> node (sc_tc s) (n * order + j) = node t n + step t n * node tau j) /\
  Shaped (sc_U s) (f_nu f) (N * order) /\ (forall i n j, (n < N)%nat -> (j < order)%nat -> at_m (sc_U s) i (n * order + j) = at_m u i n) /\
  veccat_master (sc_eq s) = Ok e /\ ((forall v, In v e -> v = 0) <-> CollocationEqs f t tau order A b rep g x K Z u p).
Proof.
  destruct (scheme_full cspts f t order method tau g rep x K Z u p HP HL HD HT HV) as (s & e & quad & E & _ & _ & _ & _ & _ & _ & _ & _ & _ & SX & HX & Lt & Ht & SU & HU & _ & _ & _ & _ & _ & _ & _ & _ & Ee & D & C & SD & HDa & SC & HC & HZ & -> & _).
  destruct (tbl_ok cspts order method tau HP) as (_ & _ & _ & _ & _ & HRK).
  exists s, (cA tau), (cb tau). eexists. split; [exact E|]. split; [exact HRK|]. split; [exact SX|]. split; [exact HX|]. split; [exact Lt|]. split; [exact Ht|]. split; [exact SU|]. split; [exact HU|]. split; [exact Ee|].
  destruct SD as [D1 D2], SC as [C1 C2]. destruct HV as (_ & _ & _ & _ & [p1 p2]). pose proof HP as (_ & _ & _ & Ho).
  assert (W : forall a b : list R, (forall v, In v (a ++ b) -> v = 0) <-> (forall v, In v a -> v = 0) /\ (forall v, In v b -> v = 0)).
  { intros a b. split; [intros H; split; intros v Hv; apply H, in_app_iff; auto|intros [H1 H2] v Hv; apply in_app_iff in Hv as []; auto]. }
  rewrite !W, pat_nz_zero by exact HZ. rewrite nz_zero, diff_zero, D1, D2, C1, C2, p1, p2. unfold CollocationEqs. split.
  - intros (H1 & H2 & H3). split; [|split].
    + intros n j r Hn Hj Hr. rewrite <- HDa by assumption. apply H1; [exact Hr|now apply block_in].
    + intros n i Hn Hi. specialize (H2 i n Hi Hn). rewrite HC in H2 by assumption. lra.
    + intros -> i k l Hi Hk Hl. now apply H3.
  - intros (H1 & H2 & H3). split; [|split].
    + intros i j Hi Hj. pose proof (Nat.div_mod j order ltac:(lia)) as Ej. pose proof (Nat.mod_upper_bound j order ltac:(lia)). assert (j / order < N)%nat by (apply Nat.div_lt_upper_bound; lia).
      rewrite Ej, (Nat.mul_comm order). rewrite HDa by assumption. now apply H1.
    + intros i n Hi Hn. rewrite HC by assumption. rewrite H2 by assumption. ring.
    + intros i k l Hi Hk Hl. destruct rep; [now apply H3|]. now replace l with k by lia.
Qed.

(** ** C64 *)
Theorem scheme_quadratures : exists s A b,
  sch = Ok s /\ RungeKutta tau A b /\
  Shaped (sc_quad s) (f_nq f) (N * order) /\ (forall i n j, (n < N)%nat -> (j < order)%nat -> at_m (sc_quad s) i (n * order + j) = f_quad f (stage t tau order A rep g x K Z u p n j) i) /\
  Shaped (sc_q s) (f_nq f) (N + 1) /\ (forall i, (i < f_nq f)%nat -> at_m (sc_q s) i 0 = 0) /\
  (forall i n, (i < f_nq f)%nat -> (n < N)%nat -> at_m (sc_q s) i (n + 1) = at_m (sc_q s) i n + step t n * Sum order (fun l => b l * at_m (sc_quad s) i (n * order + l)%nat)) /\
  Shaped (sc_Q s) (f_nq f) (N * order) /\
  (forall i n j, (i < f_nq f)%nat -> (n < N)%nat -> (j < order)%nat -> at_m (sc_Q s) i (n * order + j) = at_m (sc_q s) i n + step t n * Sum order (fun l => A j l * at_m (sc_quad s) i (n * order + l)%nat)).
Proof.
  destruct (scheme_full cspts f t order method tau g rep x K Z u p HP HL HD HT HV) as (s & e & quad & E & _ & _ & _ & _ & _ & _ & _ & _ & _ & _ & _ & _ & _ & _ & _ & Eq & Sq & Hq & Sq' & Hq0 & Hq1 & SQ & HQ & _).
  destruct (tbl_ok cspts order method tau HP) as (_ & _ & _ & _ & _ & HRK). exists s, (cA tau), (cb tau). split; [exact E|]. split; [exact HRK|]. rewrite Eq. split; [exact Sq|]. split; [exact Hq|]. split; [exact Sq'|]. split; [exact Hq0|].
  split; [|split; [exact SQ|]].
  - intros i n Hi Hn. rewrite Hq1 by assumption. do 2 f_equal. apply Sum_ext. intros l Hl. now rewrite Hq.
  - intros i n j Hi Hn Hj. rewrite HQ by assumption. do 2 f_equal. apply Sum_ext. intros l Hl. now rewrite Hq.
Qed.
End Built.

(** ** C63 *)
(** Integrals of polynomials over an interval *)
Lemma rk_moved tau A b (w : R -> R) a h : RungeKutta tau A b -> PolyLt (length tau) w -> 
  (forall j, (j < length tau)%nat -> is_RInt w a (a + h * node tau j) (h * Sum (length tau) (fun l => A j l * w (a + h * node tau l)))) /\
  is_RInt w a (a + h) (h * Sum (length tau) (fun l => b l * w (a + h * node tau l))).
Proof.
  intros HR Hw. assert (Hv : PolyLt (length tau) (fun s => w (a + h * s))) by (apply (PolyLt_ext _ (fun s => w (h * s + a))); [intros; f_equal; ring|now apply PolyLt_comp]).
  destruct (HR _ Hv) as [H1 H2]. destruct (PolyLt_int _ _ Hw) as (W & _ & _ & DW).
  assert (DV : forall s, is_derive (fun s => W (a + h * s)) s (h * w (a + h * s))).
  { intros s. evar_last. { apply (is_derive_comp (K := R_AbsRing) (V := R_NormedModule) W (fun s => a + h * s)); [apply DW|]. auto_derive; [exact I|reflexivity]. } unfold scal. simpl. unfold mult. simpl. ring. }
  assert (G : forall c (I : R), is_RInt (fun s => w (a + h * s)) 0 c I -> is_RInt w a (a + h * c) (h * I)).
  { intros c I HI. evar_last; [exact (is_RInt_poly (length tau) w W a (a + h * c) Hw DW)|].
    assert (HJ : is_RInt (fun s => h * w (a + h * s)) 0 c (W (a + h * c) - W (a + h * 0))). { apply (is_RInt_poly (length tau) (fun s => h * w (a + h * s)) (fun s => W (a + h * s))); [now apply PolyLt_scal|exact DV]. }
    apply (is_RInt_scal (V := R_NormedModule) _ _ _ h) in HI. apply (is_RInt_unique (V := R_CompleteNormedModule)) in HI. apply (is_RInt_unique (V := R_CompleteNormedModule)) in HJ. unfold scal in HI; simpl in HI; unfold mult in HI; simpl in HI. rewrite HI in HJ. rewrite Rmult_0_r, Rplus_0_r in HJ. symmetry. exact HJ. }
  split; [intros j Hj; now apply G, H1|]. pose proof (G 1 _ H2) as H3. now rewrite Rmult_1_r in H3.
Qed.
Lemma poly_newton m F d a b I : PolyLt m F -> (forall s, is_derive F s (d s)) -> PolyLt m d -> is_RInt d a b I -> F b = F a + I.
Proof. intros HF Hd Pd HI. pose proof (is_RInt_poly m d F a b Pd Hd) as HJ. apply (is_RInt_unique (V := R_CompleteNormedModule)) in HI. apply (is_RInt_unique (V := R_CompleteNormedModule)) in HJ. rewrite HI in HJ. lra. Qed.
Lemma PolyLt_derive m F : PolyLt (S m) F -> exists d, PolyLt m d /\ forall s, is_derive F s (d s).
Proof.
  intros (c & L & H). exists (dpeval c). split; [now apply dpeval_poly|]. intros s. apply (is_derive_ext (peval c)); [intros; now rewrite H|apply is_derive_peval].
Qed.
Lemma step_pos t n : Asc t -> (n < ivals t)%nat -> 0 < step t n.
Proof. intros HA Hn. unfold step, ivals in *. pose proof (HA n (n + 1)%nat ltac:(lia)). lra. Qed.
Lemma stage_in t tau n j : Asc t -> InUnit tau -> (n < ivals t)%nat -> (j < length tau)%nat -> node t n < stage_t t tau n j <= node t (n + 1).
Proof. intros HA HU Hn Hj. pose proof (step_pos t n HA Hn). pose proof (HU j Hj). unfold stage_t. unfold step in *. nra. Qed.
Lemma bounds_in t n : Asc t -> (n < ivals t)%nat -> node t 0 <= node t n /\ node t (n + 1) <= node t (ivals t).
Proof. intros HA Hn. unfold ivals in *. split; apply Asc_le; auto; lia. Qed.

Section Exact.
Context (cspts : nat -> string -> res (list R)) (f : daefun R) (t : list R) (order : nat) (method : string) (tau : list R) (g : option (R -> mat R)) (rep : bool) (x K Z u p : mat R).
Context (HP : Points cspts order method tau) (HL : (2 <= length t)%nat) (HD : DaeOk f) (HT : TdpOk f g) (HV : VarsOk f (ivals t) order rep x K Z u p).
Context (HA : Asc t) (HU : InUnit tau).
Notation N := (ivals t).
Notation sch := (scheme_ cspts f t order method g rep x K Z u p).
Context (xd xs zs us : nat -> R -> R) (pv : nat -> R).
Context (HS : Sampled f t tau order rep xd xs zs us pv x K Z u p) (HX : forall i, (i < f_nx f)%nat -> PiecewiseC1 t (S order) (xs i) (xd i)).

Lemma state_exact A b : RungeKutta tau A b -> forall n i, (n < N)%nat -> (i < f_nx f)%nat ->
  (forall j, (j < order)%nat -> stage_x t order A x K n j i = xs i (stage_t t tau n j)) /\
  at_m x i n + step t n * Sum order (fun l => b l * at_m K i (n * order + l)%nat) = at_m x i (n + 1).
Proof.
  intros HR n i Hn Hi. destruct HP as (_ & _ & L & Ho). destruct (HX i Hi n Hn) as (F & PF & EF & DF). destruct (PolyLt_derive _ _ PF) as (d & Pd & Dd). destruct HS as (S1 & S2 & _). rewrite <- L in Pd.
  pose proof (step_pos t n HA Hn) as Hh. assert (EK : forall l, (l < order)%nat -> at_m K i (n * order + l) = d (stage_t t tau n l)).
  { intros l Hl. rewrite S2 by assumption. pose proof (stage_in t tau n l HA HU Hn ltac:(lia)) as Hin. specialize (DF _ Hin). apply is_derive_unique in DF. specialize (Dd (stage_t t tau n l)). apply is_derive_unique in Dd. congruence. }
  destruct (rk_moved tau A b d (node t n) (step t n) HR Pd) as [H1 H2]. rewrite L in H1, H2. assert (Pd' : PolyLt (S order) d) by (rewrite <- L; now apply (PolyLt_mon (length tau)); [lia|]).
  assert (E0 : at_m x i n = F (node t n)). { rewrite S1 by (auto; lia). apply EF. unfold step in Hh. lra. }
  split.
  - intros j Hj. unfold stage_x. rewrite E0. erewrite (Sum_ext order (fun l => A j l * at_m K i (n * order + l)%nat)); [|intros l Hl; rewrite EK by exact Hl; reflexivity].
    pose proof (stage_in t tau n j HA HU Hn ltac:(lia)) as Hin. rewrite EF by lra. symmetry. exact (poly_newton _ F d _ _ _ PF Dd Pd' (H1 j Hj)).
  - rewrite E0. erewrite (Sum_ext order (fun l => b l * at_m K i (n * order + l)%nat)); [|intros l Hl; rewrite EK by exact Hl; reflexivity]. rewrite S1 by (auto; lia). rewrite EF by (unfold step in Hh; lra).
    symmetry. replace (node t (n + 1)) with (node t n + step t n) by (unfold step; ring). exact (poly_newton _ F d _ _ _ PF Dd Pd' H2).
Qed.
Lemma stage_args A b : RungeKutta tau A b -> forall n j, (n < N)%nat -> (j < order)%nat -> SameArgs f (stage t tau order A rep g x K Z u p n j) (dae_at xd xs zs us pv g (stage_t t tau n j)).
Proof.
  intros HR n j Hn Hj. destruct HS as (S1 & S2 & S3 & S4 & S5). destruct HP as (_ & _ & L & _). unfold stage, dae_at. repeat split; cbn [a_xdot a_x a_z a_u a_p a_t a_tdp]; intros i Hi.
  - now apply S2.
  - now apply (state_exact A b HR n i Hn Hi).
  - now apply S3.
  - symmetry. apply S4; auto. apply stage_in; auto; lia.
  - apply S5; [exact Hi|]. destruct rep; [now apply block_in|lia].
Qed.

Theorem polynomial_solution : SolvesDae f t xd xs zs us pv g ->
  exists s e, sch = Ok s /\ veccat_master (sc_eq s) = Ok e /\ (forall v, In v e -> v = 0) /\
    forall i n j, (i < f_nx f)%nat -> (n < N)%nat -> (j < order)%nat -> at_m (sc_X s) i (n * order + j) = xs i (node (sc_tc s) (n * order + j)).
Proof.
  intros HSol. destruct (scheme_equations cspts f t order method tau g rep x K Z u p HP HL HD HT HV) as (s & A & b & e & E & HR & SX & HX' & Lt & Ht & _ & _ & Ee & He). exists s, e. split; [exact E|]. split; [exact Ee|]. split.
  - apply He. pose proof HP as (_ & _ & L & Ho). split; [|split].
    + intros n j r Hn Hj Hr. destruct HD as (RD & _). rewrite (RD _ _ r (stage_args A b HR n j Hn Hj)). pose proof (stage_in t tau n j HA HU Hn ltac:(lia)) as Hin. pose proof (bounds_in t n HA Hn). apply HSol; [lra|exact Hr].
    + intros n i Hn Hi. now apply (state_exact A b HR n i Hn Hi).
    + intros Er i k l Hi Hk Hl. destruct HS as (_ & _ & _ & _ & S5). rewrite !S5; auto; now rewrite Er.
  - intros i n j Hi Hn Hj. rewrite HX' by assumption. rewrite Ht by assumption. now apply (state_exact A b HR n i Hn Hi).
Qed.

Theorem polynomial_quadrature (w : nat -> R -> R) : (forall i, (i < f_nq f)%nat -> PiecewiseLt t order (w i)) ->
  (forall i s, (i < f_nq f)%nat -> node t 0 < s <= node t N -> f_quad f (dae_at xd xs zs us pv g s) i = w i s) ->
  exists s, sch = Ok s /\
    (forall i n, (i < f_nq f)%nat -> (n <= N)%nat -> is_RInt (w i) (node t 0) (node t n) (at_m (sc_q s) i n)) /\
    (forall i n j, (i < f_nq f)%nat -> (n < N)%nat -> (j < order)%nat -> is_RInt (w i) (node t 0) (node (sc_tc s) (n * order + j)) (at_m (sc_Q s) i (n * order + j))).
Proof.
  intros Hw Hq. destruct (scheme_quadratures cspts f t order method tau g rep x K Z u p HP HL HD HT HV) as (s & A & b & E & HR & _ & Hqd & _ & Hq0 & Hq1 & _ & HQ). exists s. split; [exact E|].
  destruct (scheme_equations cspts f t order method tau g rep x K Z u p HP HL HD HT HV) as (s' & A' & b' & e & E' & _ & _ & _ & _ & Ht & _). rewrite E in E'. injection E' as <-. pose proof HP as (_ & _ & L & Ho).
  assert (EV : forall i n l F, (i < f_nq f)%nat -> (n < N)%nat -> (l < order)%nat -> (forall s, node t n < s <= node t (n + 1) -> w i s = F s) -> at_m (sc_quad s) i (n * order + l) = F (node t n + step t n * node tau l)).
  { intros i n l F Hi Hn Hl HF. rewrite Hqd by assumption. destruct HD as (_ & RQ & _). rewrite (RQ _ _ i (stage_args A b HR n l Hn Hl)). pose proof (stage_in t tau n l HA HU Hn ltac:(lia)) as Hin. pose proof (bounds_in t n HA Hn). rewrite Hq by (auto; lra). now rewrite HF by exact Hin. }
  assert (Q1 : forall i n, (i < f_nq f)%nat -> (n <= N)%nat -> is_RInt (w i) (node t 0) (node t n) (at_m (sc_q s) i n)).
  { intros i n Hi. induction n as [|n IH]; intros Hn; [rewrite Hq0 by exact Hi; apply (is_RInt_point (V := R_NormedModule))|].
    rewrite <- Nat.add_1_r. rewrite Hq1 by (auto; lia). apply (is_RInt_Chasles (V := R_NormedModule)) with (node t n); [apply IH; lia|].
    destruct (Hw i Hi n ltac:(lia)) as (F & PF & EF). pose proof (step_pos t n HA ltac:(lia)) as Hh. apply (is_RInt_ext F).
    { intros v Hv. rewrite Rmin_left, Rmax_right in Hv by (unfold step in Hh; lra). symmetry. apply EF. lra. }
    rewrite <- L in PF. destruct (rk_moved tau A b F (node t n) (step t n) HR PF) as [_ H2]. replace (node t (n + 1)) with (node t n + step t n) by (unfold step; ring). rewrite L in H2.
    erewrite Sum_ext; [exact H2|]. intros l Hl. cbv beta. rewrite (EV i n l F) by (auto; lia). reflexivity. }
  split; [exact Q1|]. intros i n j Hi Hn Hj. rewrite HQ by assumption. apply (is_RInt_Chasles (V := R_NormedModule)) with (node t n); [apply Q1; [exact Hi|lia]|]. rewrite Ht by assumption.
  destruct (Hw i Hi n Hn) as (F & PF & EF). pose proof (step_pos t n HA Hn) as Hh. pose proof (stage_in t tau n j HA HU Hn ltac:(lia)) as Hin. unfold stage_t in Hin. apply (is_RInt_ext F).
  { intros v Hv. rewrite Rmin_left, Rmax_right in Hv by lra. symmetry. apply EF. lra. }
  rewrite <- L in PF. destruct (rk_moved tau A b F (node t n) (step t n) HR PF) as [H1 _]. rewrite L in H1. erewrite Sum_ext; [exact (H1 j Hj)|]. intros l Hl. cbv beta. rewrite (EV i n l F) by auto. reflexivity.
Qed.
End Exact.
