(** Solutions of a scheme as trajectories (C62). *)
From Coq Require Import Reals Lra.
From Coquelicot Require Import Coquelicot.
From Verif Require Import PyBase IndexModel DMModel DMProofs StructModel StructSpec PowerModel EntryModel StructsModel IneqModel DaeModel StructsSpec StructsThms11 NumModel NumInst NumSpec PolynomialModel PiecewiseModel PdqModel SchemeModel
  PolySpec PiecewiseSpec PdqSpec SchemeSpec PolyMath PolynomialBase PolynomialThms PolynomialThms2 PiecewiseThms PdqThms PdqThms2 SchemeThms SchemeThms2.
Open Scope R_scope.

(** A polynomial with given derivatives at the nodes and given value at 0 *)
Lemma hermite tau M (k : nat -> R) : NoDup tau -> length tau = M -> exists d, PolyLt M d /\ forall j, (j < M)%nat -> d (node tau j) = k j.
Proof.
  intros Hd <-. exists (fun s => Sum (length tau) (fun l => k l * polyval (lagrange tau l) s)). split.
  - apply (PolyLt_Sum _ _ (fun l s => k l * polyval (lagrange tau l) s)). intros l Hl. now apply PolyLt_scal, lagrange_poly.
  - intros j Hj. rewrite (Sum_single _ j _ Hj); [rewrite lagrange_delta, Nat.eqb_refl by (auto; lia); ring|]. intros a Ha Hn. rewrite lagrange_delta by (auto; lia). destruct (Nat.eqb_spec a j); [contradiction|ring].
Qed.
Lemma stage_traj tau A b (k : nat -> R) a h x0 : RungeKutta tau A b -> NoDup tau -> 0 < h -> exists F, PolyLt (S (length tau)) F /\ F a = x0 /\ F (a + h) = x0 + h * Sum (length tau) (fun l => b l * k l) /\
  forall j, (j < length tau)%nat -> F (a + h * node tau j) = x0 + h * Sum (length tau) (fun l => A j l * k l) /\ is_derive F (a + h * node tau j) (k j).
Proof.
  intros HR Hd Hh. set (pts := map (fun c => a + h * c) tau). assert (Ln : length pts = length tau) by apply map_length.
  assert (Np : forall j, (j < length tau)%nat -> node pts j = a + h * node tau j). { intros j Hj. unfold node, pts. rewrite (nth_indep _ 0 (a + h * 0)) by (rewrite map_length; exact Hj). apply (map_nth (fun c => a + h * c)). }
  destruct (hermite pts (length tau) k) as (d & Pd & Hdk); [|exact Ln|]. { apply FinFun.Injective_map_NoDup; [|exact Hd]. intros y z E. apply Rplus_eq_reg_l, Rmult_eq_reg_l in E; [exact E|lra]. }
  assert (Hk : forall j, (j < length tau)%nat -> d (a + h * node tau j) = k j) by (intros j Hj; rewrite <- Np by exact Hj; now apply Hdk).
  destruct (PolyLt_int _ _ Pd) as (W & PW & _ & DW). assert (PF : PolyLt (S (length tau)) (fun s => x0 + (W s - W a))).
  { apply (PolyLt_ext _ (fun s => W s + (x0 - W a))); [intros; ring|]. apply PolyLt_plus; [exact PW|]. apply (PolyLt_mon 1); [lia|apply PolyLt_const]. }
  assert (DF : forall s, is_derive (fun s => x0 + (W s - W a)) s (d s)).
  { intros s. evar_last; [apply (is_derive_plus (V := R_NormedModule)); [apply der_const|apply (is_derive_minus (V := R_NormedModule)); [apply DW|apply der_const]]|]. unfold minus, plus, opp. simpl. ring. }
  exists (fun s => x0 + (W s - W a)). split; [exact PF|]. split; [ring|]. destruct (rk_moved tau A b d a h HR Pd) as [H1 H2]. assert (Pd' : PolyLt (S (length tau)) d) by (now apply (PolyLt_mon (length tau)); [lia|]).
  assert (G : forall e I, is_RInt d a e I -> x0 + (W e - W a) = x0 + I). { intros e I HI. pose proof (poly_newton _ _ _ _ _ _ PF DF Pd' HI) as E. cbv beta in E. lra. }
  split.
  - rewrite (G _ _ H2). do 2 f_equal. apply Sum_ext. intros l Hl. now rewrite Hk.
  - intros j Hj. split; [|rewrite <- (Hk j Hj); apply DF]. rewrite (G _ _ (H1 j Hj)). do 2 f_equal. apply Sum_ext. intros l Hl. now rewrite Hk.
Qed.

Section Built.
Context (cspts : nat -> string -> res (list R)) (f : daefun R) (t : list R) (order : nat) (method : string) (tau : list R) (g : option (R -> mat R)) (rep : bool) (x K Z u p : mat R).
Context (HP : Points cspts order method tau) (HL : (2 <= length t)%nat) (HD : DaeOk f) (HT : TdpOk f g) (HV : VarsOk f (ivals t) order rep x K Z u p).
Context (HA : Asc t) (HU : InUnit tau).
Notation N := (ivals t).
Notation sch := (scheme_ cspts f t order method g rep x K Z u p).

Lemma trajectory_pieces x' K' s : sch = Ok s -> Shaped x' (f_nx f) (N + 1) -> Shaped K' (f_nx f) (N * order) ->
  exists pp, piecewise_X s x' K' = Ok pp /\ PpOk pp (f_nx f) /\ pp_t pp = t /\
    forall n i, (n < N)%nat -> (i < f_nx f)%nat -> exists F, Piece pp n i F /\ PolyLt (S order) F /\ F (node t n) = at_m x' i n /\
      F (node t (n + 1)) = at_m x' i n + step t n * Sum order (fun l => cb tau l * at_m K' i (n * order + l)%nat) /\
      forall j, (j < order)%nat -> F (stage_t t tau n j) = stage_x t order (cA tau) x' K' n j i /\ is_derive F (stage_t t tau n j) (at_m K' i (n * order + j)).
Proof.
  intros Es [x1 x2] [K1 K2]. destruct (scheme_full cspts f t order method tau g rep x K Z u p HP HL HD HT HV) as (s' & e & quad & E & EN & EM & Ex & EK & _ & _ & _ & Et & Eb & _). rewrite Es in E. injection E as <-.
  destruct (tbl_ok cspts order method tau HP) as (_ & A1 & A2 & B1 & C1 & HRK). pose proof HP as (_ & Hd & L & Ho). destruct HV as ([xR xC] & [KR KC] & _). assert (HN : (1 <= N)%nat) by (unfold ivals; lia).
  unfold piecewise_X, eval_X, shape_is. rewrite Ex, EK, EN, EM, Et, Eb, C1, x1, x2, K1, K2, xR, xC, KR, KC, !Nat.eqb_refl. cbn [andb].
  destruct (int_points_spec (tbl tau) (ndiff t) order x' K' N (ndiff_length t) HN Ho A1 A2 ltac:(lia) x2 K2) as (X & -> & [X1 X2] & HX). rewrite x1 in X1, HX. cbn [rbind].
  set (cf := fun n => Mat (f_nx f) (S order) (fun i j => match j with O => at_m x' i n | S j => at_m X i (n * order + j) end)).
  assert (EC : exists cs, rmapM (fun n => hstack [mcols x' n (n + 1); mcols X (n * order) ((n + 1) * order)]) (seq 0 N) = Ok cs /\ length cs = N /\ forall n, (n < N)%nat -> Shaped (nth n cs (Mat 0 0 (fun _ _ => 0))) (f_nx f) (S order) /\ forall i j, (i < f_nx f)%nat -> (j < S order)%nat -> at_m (nth n cs (Mat 0 0 (fun _ _ => 0))) i j = at_m (cf n) i j).
  { pose (mm := fun n => match hstack [mcols x' n (n + 1); mcols X (n * order) ((n + 1) * order)] with Ok m => m | Err _ => Mat 0 0 (fun _ _ => 0) end).
    assert (Hm : forall n, hstack [mcols x' n (n + 1); mcols X (n * order) ((n + 1) * order)] = Ok (mm n) /\ Shaped (mm n) (f_nx f) (S order) /\ forall i j, (i < f_nx f)%nat -> (j < S order)%nat -> at_m (mm n) i j = at_m (cf n) i j).
    { intros n. unfold mm. destruct (hstack_spec (f_nx f) [mcols x' n (n + 1); mcols X (n * order) ((n + 1) * order)]) as (Y & EY & Y1 & Y2 & Y3); [discriminate|intros bb [<-|[<-|[]]]; assumption|]. rewrite EY. split; [reflexivity|]. split; [split; [exact Y1|]; rewrite Y2; cbn; lia|].
      intros i j Hi Hj. destruct j as [|j]; cbn [cf at_m].
      - specialize (Y3 0%nat _ eq_refl i 0%nat). cbn [offset firstn map list_sum mcols nc at_m] in Y3. change (offset _ 0 + 0)%nat with 0%nat in Y3. rewrite Y3 by lia. f_equal. lia.
      - specialize (Y3 1%nat _ eq_refl i j). cbn [mcols nc at_m] in Y3. replace (offset (map nc [mcols x' n (n + 1); mcols X (n * order) ((n + 1) * order)]) 1 + j)%nat with (S j) in Y3 by (unfold offset; cbn; lia). rewrite Y3 by lia. f_equal. }
    exists (map mm (seq 0 N)). split; [apply PdqThms.rmapM_map; intros n _; apply Hm|]. split; [now rewrite map_length, seq_length|]. intros n Hn. rewrite nth_map_seq by exact Hn. split; apply Hm. }
  destruct EC as (cs & -> & Lc & Hcs). cbn [rbind]. destruct (basis_ (PVec (n0 :: tau))) as [bs|er] eqn:Eb'; [|rewrite basis_eq in Eb' by discriminate; discriminate]. cbn [rbind].
  assert (Tb : b_tau bs = 0 :: tau) by (rewrite basis_eq in Eb' by discriminate; injection Eb' as <-; reflexivity).
  assert (Nd : NoDup (0 :: tau)). { constructor; [|exact Hd]. intros Hin. apply node_in in Hin as (j & Hj & E0). pose proof (HU j Hj). lra. }
  unfold ppoly_. rewrite Lc. destruct (Nat.ltb_spec 1 (length t)); [|lia]. fold N. rewrite Nat.eqb_refl. cbn [rassert rbind]. eexists. split; [reflexivity|].
  assert (HPp : PpOk (PPoly t cs bs) (f_nx f)).
  { unfold PpOk, nint, coef, nnodes. cbn [pp_t pp_c pp_b]. rewrite Tb. split; [exact HL|]. split; [exact HA|]. split; [exact Eb'|]. split; [exact Nd|]. split; [exact Lc|]. intros i Hi. cbn [length]. rewrite L. now apply Hcs. }
  split; [exact HPp|]. split; [reflexivity|]. intros n i Hn Hi.
  destruct (stage_traj tau (cA tau) (cb tau) (fun l => at_m K' i (n * order + l)%nat) (node t n) (step t n) (at_m x' i n) HRK Hd (step_pos t n HA Hn)) as (F & PF & F0 & F1 & FS). rewrite L in *.
  assert (ES : forall j, (j < order)%nat -> F (stage_t t tau n j) = stage_x t order (cA tau) x' K' n j i /\ is_derive F (stage_t t tau n j) (at_m K' i (n * order + j))). { intros j Hj. exact (FS j Hj). }
  exists F. split; [|split; [exact PF|]; split; [exact F0|]; split; [|exact ES]].
  - split.
    + unfold nnodes. cbn [pp_b]. rewrite Tb. cbn [length]. now rewrite L.
    + unfold nnodes, bound, width, coef. cbn [pp_b pp_t pp_c]. rewrite Tb. cbn [length]. rewrite L. intros j Hj. destruct (Hcs n Hn) as [_ Hc]. rewrite Hc by assumption. destruct j as [|j]; cbn [cf at_m].
      * change (node (0 :: tau) 0) with 0. rewrite Rmult_0_l, Rplus_0_r. exact F0.
      * change (node (0 :: tau) (S j)) with (node tau j). fold (step t n). change (bound (PPoly t cs bs) (n + 1) - bound (PPoly t cs bs) n) with (step t n). replace (node t n + node tau j * step t n) with (stage_t t tau n j) by (unfold stage_t; ring).
        rewrite (proj1 (ES j ltac:(lia))). rewrite HX by (auto; lia). unfold stage_x. now rewrite ndiff_nth by exact Hn.
  - replace (node t (n + 1)) with (node t n + step t n) by (unfold step; ring). exact F1.
Qed.

(** ** C62 *)
Theorem solution_trajectory s e : sch = Ok s -> veccat_master (sc_eq s) = Ok e -> (forall v, In v e -> v = 0) ->
  exists pp dp, piecewise_X s x K = Ok pp /\ pp_derivative pp = Ok dp /\ PpOk pp (f_nx f) /\ pp_t pp = t /\
    (forall n i, (n < N)%nat -> (i < f_nx f)%nat -> exists F, Piece pp n i F /\ PolyLt (S order) F /\ F (node t n) = at_m x i n /\ F (node t (n + 1)) = at_m x i (n + 1) /\
       forall j, (j < order)%nat -> F (stage_t t tau n j) = at_m (sc_X s) i (n * order + j) /\ is_derive F (stage_t t tau n j) (at_m K i (n * order + j))) /\
    (forall n i c, (n <= N)%nat -> (i < f_nx f)%nat -> c = "left"%string \/ c = "right"%string -> ppval pp c i (node t n) = at_m x i n) /\
    (forall n j i, (n < N)%nat -> (j < order)%nat -> (i < f_nx f)%nat ->
       ppval pp "left" i (node (sc_tc s) (n * order + j)) = at_m (sc_X s) i (n * order + j) /\ ppval dp "left" i (node (sc_tc s) (n * order + j)) = at_m K i (n * order + j)) /\
    (forall n j r, (n < N)%nat -> (j < order)%nat -> (r < f_ndae f)%nat ->
       let s := node (sc_tc s) (n * order + j) in
       f_dae f (DArgs (fun i => ppval dp "left" i s) (fun i => ppval pp "left" i s) (fun i => at_m Z i (n * order + j)) (fun i => at_m u i n) (fun i => at_m p i (if rep then n * order + j else 0)%nat) s (tdp_at g s)) r = 0).
Proof.
  intros Es Ee He. destruct (trajectory_pieces x K s Es) as (pp & Epp & Hpp & Ht & HF); [apply HV|apply HV|].
  destruct (scheme_full cspts f t order method tau g rep x K Z u p HP HL HD HT HV) as (s' & e' & quad & E & _ & _ & _ & _ & _ & _ & _ & _ & _ & SX & HX & _ & Htc & _ & _ & _ & _ & _ & _ & _ & _ & _ & _ & Ee' & D & C & SD & HDa & SC & HC & HZ & Ece & _). rewrite Es in E. injection E as <-. rewrite Ee in Ee'. injection Ee' as <-.
  assert (EC : CollocationEqs f t tau order (cA tau) (cb tau) rep g x K Z u p).
  { subst e. assert (W : forall a b : list R, (forall v, In v (a ++ b) -> v = 0) <-> (forall v, In v a -> v = 0) /\ (forall v, In v b -> v = 0)).
    { intros a b. split; [intros H; split; intros v Hv; apply H, in_app_iff; auto|intros [H1 H2] v Hv; apply in_app_iff in Hv as []; auto]. }
    rewrite !W, pat_nz_zero in He by exact HZ. destruct SD as [D1 D2], SC as [C1 C2]. destruct HV as (_ & _ & _ & _ & [p1 p2]). rewrite nz_zero, diff_zero, D1, D2, C1, C2, p1, p2 in He. destruct He as (H1 & H2 & H3). split; [|split].
    + intros n j r Hn Hj Hr. rewrite <- HDa by assumption. apply H1; [exact Hr|now apply block_in].
    + intros n i Hn Hi. specialize (H2 i n Hi Hn). rewrite HC in H2 by assumption. lra.
    + intros Er i k l Hi Hk Hl. rewrite Er in H3. now apply H3. }
  destruct EC as (EC1 & EC2 & _). destruct (derivative_spec pp (f_nx f) Hpp) as (dp & Edp & Tdp & Bdp & Pdp & HdF). exists pp, dp. split; [exact Epp|]. split; [exact Edp|]. split; [exact Hpp|]. split; [exact Ht|].
  assert (HF' : forall n i, (n < N)%nat -> (i < f_nx f)%nat -> exists F, Piece pp n i F /\ PolyLt (S order) F /\ F (node t n) = at_m x i n /\ F (node t (n + 1)) = at_m x i (n + 1) /\
       forall j, (j < order)%nat -> F (stage_t t tau n j) = at_m (sc_X s) i (n * order + j) /\ is_derive F (stage_t t tau n j) (at_m K i (n * order + j))).
  { intros n i Hn Hi. destruct (HF n i Hn Hi) as (F & H1 & H2 & H3 & H4 & H5). exists F. split; [exact H1|]. split; [exact H2|]. split; [exact H3|]. split; [rewrite H4; now apply EC2|]. intros j Hj. rewrite HX by assumption. now apply H5. }
  split; [exact HF'|]. assert (Ni : nint pp = N) by (unfold nint; now rewrite Ht). assert (HN : (1 <= N)%nat) by (unfold ivals; lia). assert (Hb : forall k, bound pp k = node t k) by (intros; unfold bound; now rewrite Ht).
  assert (LT : forall a b, (a < b <= N)%nat -> node t a < node t b) by (intros a b Hab; apply HA; unfold ivals in Hab; lia).
  split.
  { intros n i c Hn Hi Hc. destruct (HF' (if Nat.eqb n 0 then 0 else n - 1)%nat i) as (F0 & P0 & _ & L0 & R0 & _); [destruct (Nat.eqb_spec n 0); lia|exact Hi|].
    destruct (Nat.eqb_spec n 0) as [->|Hn0].
    - rewrite (ppval_spec pp (f_nx f) c i _ 0%nat F0 Hpp Hc); [exact L0| |exact P0]. split; [lia|]. split; [now left|]. rewrite Hb. destruct (Nat.eq_dec 1 (nint pp)) as [E1|E1]; [left; exact E1|]. right. pose proof (LT 0%nat 1%nat ltac:(lia)). change (0 + 1)%nat with 1%nat. destruct (is_right c); lra.
    - replace (n - 1 + 1)%nat with n in R0 by lia. destruct (is_right c) eqn:Er.
      + destruct (Nat.eq_dec n N) as [->|HnN].
        * rewrite (ppval_spec pp (f_nx f) c i _ (N - 1)%nat F0 Hpp Hc); [exact R0| |exact P0]. rewrite Er. split; [lia|]. split; [|left; lia]. rewrite Hb. right. left. apply LT. lia.
        * destruct (HF' n i ltac:(lia) Hi) as (F1 & P1 & _ & L1 & _). rewrite (ppval_spec pp (f_nx f) c i _ n F1 Hpp Hc); [exact L1| |exact P1]. rewrite Er. split; [lia|]. split; [right; rewrite Hb; lra|]. right. rewrite Hb. apply LT. lia.
      + rewrite (ppval_spec pp (f_nx f) c i _ (n - 1)%nat F0 Hpp Hc); [exact R0| |exact P0]. rewrite Er. split; [lia|]. split; [right; rewrite Hb; apply LT; lia|]. right. rewrite Hb. replace (n - 1 + 1)%nat with n by lia. lra. }
  assert (HV1 : forall n j i, (n < N)%nat -> (j < order)%nat -> (i < f_nx f)%nat -> ppval pp "left" i (node (sc_tc s) (n * order + j)) = at_m (sc_X s) i (n * order + j) /\ ppval dp "left" i (node (sc_tc s) (n * order + j)) = at_m K i (n * order + j)).
  { intros n j i Hn Hj Hi. rewrite Htc by assumption. destruct (HF' n i Hn Hi) as (F & PF & PLF & _ & _ & HS). destruct (HS j Hj) as [S1 S2]. pose proof HP as (_ & _ & L & _). pose proof (stage_in t tau n j HA HU Hn ltac:(lia)) as Hin.
    assert (B1 : Belongs pp false (stage_t t tau n j) n) by (split; [lia|]; rewrite !Hb; split; right; lra). split.
    - rewrite (ppval_spec pp (f_nx f) "left" i _ n F Hpp (or_introl eq_refl) B1 PF). exact S1.
    - destruct (PolyLt_derive _ _ PLF) as (d & _ & Dd). assert (Pd : Piece dp n i d) by (apply (HdF n i F d); auto; lia).
      assert (B2 : Belongs dp false (stage_t t tau n j) n) by (unfold Belongs, nint, bound in *; rewrite Tdp; exact B1).
      rewrite (ppval_spec dp (f_nx f) "left" i _ n d Pdp (or_introl eq_refl) B2 Pd). specialize (Dd (stage_t t tau n j)). apply is_derive_unique in Dd. apply is_derive_unique in S2. congruence. }
  split; [exact HV1|]. intros n j r Hn Hj Hr. cbv zeta. rewrite <- (EC1 n j r Hn Hj Hr). destruct HD as (RD & _). apply RD. unfold stage. repeat split; cbn [a_xdot a_x a_z a_u a_p a_t a_tdp].
  - intros i Hi. now apply HV1.
  - intros i Hi. rewrite (proj1 (HV1 n j i Hn Hj Hi)). now apply HX.
  - now apply Htc.
  - intros i Hi. now rewrite Htc.
Qed.
End Built.
