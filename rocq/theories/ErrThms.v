(** Proofs about the errors of all results of collocation (C100). *)
From Coq Require Import Reals Lra.
From Coquelicot Require Import Coquelicot.
From Verif Require Import PyBase IndexModel DMModel StructModel StructsModel IneqModel DaeModel NumModel NumInst PolynomialModel PiecewiseModel PdqModel SchemeModel
  PolySpec PiecewiseSpec PdqSpec SchemeSpec PolyMath PolynomialBase PolynomialThms PolynomialThms2 PiecewiseThms PdqThms PdqThms2 SchemeThms SchemeThms2 SchemeThms3 SchemeThms4 OrderSpec OrderMath OrderThms ConvSpec ConvThms GridSpec GridThms ErrSpec.
Open Scope R_scope.

Section Err.
Context (cspts : nat -> string -> res (list R)) (f : daefun R) (t : list R) (order : nat) (method : string) (tau : list R) (g : option (R -> mat R)) (rep : bool).
Context (HP : Points cspts order method tau) (HL : (2 <= length t)%nat) (HD : DaeOk f) (HT : TdpOk f g) (HA : Asc t).
Context (al L : R) (Hal : CoefBound tau al) (Hss : ShortSteps t al L) (Lip : LipDae f L).
Context (x K Z u p : mat R) (HV : VarsOk f (ivals t) order rep x K Z u p) (s : scheme R) (e : list R) (Es : scheme_ cspts f t order method g rep x K Z u p = Ok s) (Ee : veccat_master (sc_eq s) = Ok e) (Hz : forall v, In v e -> v = 0) (HU : InUnit tau).
Context (D d : R) (xd xs zs us : nat -> R -> R) (pv : nat -> R) (HD0 : 0 <= D) (Hd0 : 0 <= d).
Context (HS : SolvesDae f t xd xs zs us pv g) (HF : FedBy f t u p us pv) (HCl : forall i, (i < f_nx f)%nat -> Close t order D (xs i) (xd i)) (E0 : forall i, (i < f_nx f)%nat -> Rabs (at_m x i 0 - xs i (node t 0)) <= d).
Notation N := (ivals t).
Notation E n := (exp (2 * al * L * (node t n - node t 0)) * (d + (node t n - node t 0) * ((1 + al) * D))).

Lemma tpos n : (n <= N)%nat -> 0 <= node t n - node t 0.
Proof. clear - HA. intros Hn. destruct n as [|n]; [lra|]. assert (H : (0 < S n < length t)%nat) by (unfold ivals in Hn; lia). specialize (HA 0%nat (S n) H). lra. Qed.
Lemma al_pos : 0 <= al. Proof. destruct HP as (_ & _ & HM & H1). apply (alpha_pos tau al); [lia|exact Hal]. Qed.
Lemma E_step n : (n < N)%nat -> E n + step t n * ((1 + al) * D) <= E (n + 1).
Proof.
  intros Hn. pose proof al_pos as Ha. pose proof (proj1 Hss) as HL0. pose proof (step_pos t n HA Hn) as Hh. pose proof (tpos n ltac:(lia)) as Ht. assert (H1 : 0 <= (1 + al) * D) by (apply Rmult_le_pos; lra).
  assert (H2 : 0 <= d + (node t n - node t 0) * ((1 + al) * D)) by (apply Rplus_le_le_0_compat; [exact Hd0|now apply Rmult_le_pos]).
  pose proof (exp_step (node t n - node t 0) d ((1 + al) * D) (step t n) al L ltac:(now apply Rmult_le_pos) ltac:(lra) Ht H2 H1) as G. replace (node t n - node t 0 + step t n) with (node t (n + 1) - node t 0) in G by (unfold step; ring).
  eapply Rle_trans; [|exact G]. rewrite <- Rmult_1_l at 1. apply Rmult_le_compat_r.
  - apply Rplus_le_le_0_compat; [apply Rmult_le_pos; [left; apply exp_pos|exact H2]|apply Rmult_le_pos; lra].
  - assert (0 <= step t n * al * L) by (repeat apply Rmult_le_pos; lra). lra.
Qed.
Lemma E_pos n : (n <= N)%nat -> 0 <= E n.
Proof.
  intros Hn. pose proof al_pos as Ha. pose proof (tpos n Hn) as Ht. apply Rmult_le_pos; [left; apply exp_pos|]. apply Rplus_le_le_0_compat; [exact Hd0|]. apply Rmult_le_pos; [exact Ht|]. apply Rmult_le_pos; lra.
Qed.
Lemma E_mono n : (n < N)%nat -> E n <= E (n + 1).
Proof. intros Hn. pose proof al_pos as Ha. pose proof (step_pos t n HA Hn) as Hh. eapply Rle_trans; [|apply E_step; exact Hn]. assert (0 <= step t n * ((1 + al) * D)) by (repeat apply Rmult_le_pos; lra). lra. Qed.

(** The equations, the errors of x, X and K, and the stages of the true solution *)
Lemma all_err : exists A b, RungeKutta tau A b /\ CollocationEqs f t tau order A b rep g x K Z u p /\
  (forall n i, (n <= N)%nat -> (i < f_nx f)%nat -> Rabs (at_m x i n - xs i (node t n)) <= E n) /\
  (forall n j i, (n < N)%nat -> (j < order)%nat -> (i < f_nx f)%nat -> Rabs (stage_x t order A x K n j i - xs i (stage_t t tau n j)) <= 2 * E (n + 1) /\ Rabs (at_m K i (n * order + j) - xd i (stage_t t tau n j)) <= L * (2 * E (n + 1))) /\
  (forall n j, (n < N)%nat -> (j < order)%nat -> let a := stage t tau order A rep g x K Z u p n j in let c := dae_at xd xs zs us pv g (stage_t t tau n j) in Solves f a /\ Solves f c /\ SameInput f a c).
Proof.
  pose proof HP as (_ & Hd & HM & H1). destruct (main_eqs cspts f t order method tau g rep x K Z u p HP HL HD HT HV s e Es Ee Hz) as (A & b & HR & HC & _). exists A, b. split; [exact HR|]. split; [exact HC|].
  destruct (error_eqs f t tau order rep g x K Z u p A b HM H1 Hd HA HU HR HC al L D d Hal Hss Lip HD0 Hd0 xd xs zs us pv HS HF HCl E0) as [B1 B2]. split; [exact B1|]. split.
  - intros n j i Hn Hj Hi. destruct (B2 n j i Hn Hj Hi) as [G1 G2]. pose proof (E_step n Hn) as G. split; [eapply Rle_trans; [exact G1|]; lra|]. eapply Rle_trans; [exact G2|]. apply Rmult_le_compat_l; [apply Hss|]. lra.
  - intros n j Hn Hj. cbv zeta. destruct HF as [F1 F2]. pose proof (stage_in t tau n j HA HU Hn ltac:(lia)) as Hin. pose proof (bounds_in t n HA Hn). destruct (stage_fed f t tau order A b rep g x K Z u p HC n j Hn Hj) as [S1 (n' & _ & _ & P2)].
    split; [exact S1|]. split; [intros r Hr; apply HS; [lra|exact Hr]|].
    split; [intros i Hi; cbn; symmetry; now apply F1|]. split; [intros i Hi; rewrite P2 by exact Hi; cbn; now rewrite F2|]. split; [reflexivity|intros; reflexivity].
Qed.
Lemma tc_at n j : (n < N)%nat -> (j < order)%nat -> node (sc_tc s) (n * order + j) = stage_t t tau n j.
Proof. intros Hn Hj. destruct (scheme_equations cspts f t order method tau g rep x K Z u p HP HL HD HT HV) as (s1 & _ & _ & _ & E1 & _ & _ & _ & _ & Htc & _). rewrite Es in E1. injection E1 as <-. now apply Htc. Qed.

(** The polynomial pieces *)
Theorem dense_error lam pp dp : 0 <= lam -> Lebesgue tau lam -> piecewise_X s x K = Ok pp -> pp_derivative pp = Ok dp -> forall n i v, (n < N)%nat -> (i < f_nx f)%nat -> node t n < v <= node t (n + 1) ->
  Rabs (ppval pp "left" i v - xs i v) <= E n + (v - node t n) * (lam * (2 * L * E (n + 1) + D) + D) /\ Rabs (ppval dp "left" i v - xd i v) <= lam * (2 * L * E (n + 1) + D) + D.
Proof.
  intros Hl0 Hlam Epp Edp n i v Hn Hi Hv. destruct all_err as (A & b & HR & HC & B1 & B2 & _). pose proof HP as (_ & Hd & HM & H1).
  destruct (solution_trajectory cspts f t order method tau g rep x K Z u p HP HL HD HT HV HA HU s e Es Ee Hz) as (pp' & dp' & Epp' & Edp' & Hpp & Ht & HFp & _). rewrite Epp in Epp'. injection Epp' as <-. rewrite Edp in Edp'. injection Edp' as <-.
  destruct (HFp n i Hn Hi) as (F & PF & LF & F0 & _ & FS). destruct (PolyLt_derive order F LF) as (dF & LdF & HdF).
  assert (Hb : forall k, bound pp k = node t k) by (intros; unfold bound; now rewrite Ht). assert (Ni : nint pp = N) by (unfold nint; now rewrite Ht).
  assert (B : Belongs pp false v n) by (split; [lia|]; rewrite !Hb; split; right; lra).
  destruct (derivative_spec pp (f_nx f) Hpp) as (dp' & Edp' & Tdp & _ & Pdp & HdP). rewrite Edp in Edp'. injection Edp' as <-.
  assert (Bd : Belongs dp false v n) by (unfold Belongs, nint, bound in *; rewrite Tdp; exact B).
  rewrite (ppval_spec pp (f_nx f) "left" i v n F Hpp (or_introl eq_refl) B PF). rewrite (ppval_spec dp (f_nx f) "left" i v n dF Pdp (or_introl eq_refl) Bd (HdP n i F dF ltac:(lia) PF HdF)).
  destruct (HCl i Hi n Hn) as (HI & P & LP & HPn). pose proof (step_pos t n HA Hn) as Hh.
  set (C := lam * (2 * L * E (n + 1) + D) + D).
  assert (G : forall w, node t n < w <= node t (n + 1) -> Rabs (dF w - xd i w) <= C).
  { intros w Hw. pose proof (HPn w Hw) as G1. assert (G2 : Rabs (dF w - P w) <= lam * (2 * L * E (n + 1) + D)).
    { set (q z := dF (step t n * z + node t n) - P (step t n * z + node t n)). assert (Lq : PolyLt (length tau) q) by (rewrite HM; exact (PolyLt_minus order _ _ (PolyLt_comp order dF (step t n) (node t n) LdF) (PolyLt_comp order P (step t n) (node t n) LP))).
      assert (Hq : forall l, (l < length tau)%nat -> Rabs (q (node tau l)) <= 2 * L * E (n + 1) + D).
      { intros l Hl. rewrite HM in Hl. unfold q. replace (step t n * node tau l + node t n) with (stage_t t tau n l) by (unfold stage_t; ring). destruct (FS l Hl) as [_ FK].
        assert (EK : dF (stage_t t tau n l) = at_m K i (n * order + l)) by (specialize (HdF (stage_t t tau n l)); apply is_derive_unique in HdF; apply is_derive_unique in FK; congruence).
        rewrite EK. pose proof (proj2 (B2 n l i Hn Hl Hi)) as G3. pose proof (HPn _ (stage_in t tau n l HA HU Hn ltac:(lia))) as G4. replace (at_m K i (n * order + l) - P (stage_t t tau n l)) with ((at_m K i (n * order + l) - xd i (stage_t t tau n l)) + (xd i (stage_t t tau n l) - P (stage_t t tau n l))) by ring.
        eapply Rle_trans; [apply Rabs_triang|]. lra. }
      pose proof (Hlam q _ Lq Hq ((w - node t n) / step t n)) as G3. unfold q in G3. replace (step t n * ((w - node t n) / step t n) + node t n) with w in G3 by (field; lra). apply G3.
      assert (Eh : node t (n + 1) = node t n + step t n) by (unfold step; ring). split; [apply Rmult_le_reg_r with (step t n); [exact Hh|]; unfold Rdiv; rewrite Rmult_assoc, Rinv_l by lra; lra|apply Rmult_le_reg_r with (step t n); [exact Hh|]; unfold Rdiv; rewrite Rmult_assoc, Rinv_l by lra; lra]. }
    replace (dF w - xd i w) with ((dF w - P w) + - (xd i w - P w)) by ring. eapply Rle_trans; [apply Rabs_triang|]. rewrite Rabs_Ropp. unfold C. lra. }
  split; [|now apply G]. pose proof al_pos as Ha. pose proof (E_pos (n + 1) ltac:(lia)) as HE. pose proof (proj1 Hss) as HL0.
  assert (HC0 : 0 <= C) by (unfold C; apply Rplus_le_le_0_compat; [apply Rmult_le_pos; [exact Hl0|apply Rplus_le_le_0_compat; [apply Rmult_le_pos; [lra|exact HE]|exact HD0]]|exact HD0]).
  pose proof (is_RInt_poly order dF F (node t n) v LdF HdF) as I1. pose proof (HI v ltac:(lra)) as I2. pose proof (int_lin _ _ 1 (-1) _ _ _ _ I1 I2) as I3.
  apply (int_bound _ _ _ C) in I3; [|lra| |exact HC0]. 2:{ intros w Hw. replace (1 * dF w + -1 * xd i w) with (dF w - xd i w) by ring. apply G. lra. }
  pose proof (B1 n i ltac:(lia) Hi) as B0. rewrite F0 in I3. replace (F v - xs i v) with ((at_m x i n - xs i (node t n)) + (1 * (F v - at_m x i n) + -1 * (xs i v - xs i (node t n)))) by ring. eapply Rle_trans; [apply Rabs_triang|]. lra.
Qed.

(** The algebraic states *)
Theorem algebraic_error Lz : LipZ f Lz -> forall n j i, (n < N)%nat -> (j < order)%nat -> (i < f_nz f)%nat -> Rabs (at_m Z i (n * order + j) - zs i (node (sc_tc s) (n * order + j))) <= Lz * (2 * E (n + 1)).
Proof.
  intros HLz n j i Hn Hj Hi. rewrite tc_at by assumption. destruct all_err as (A & b & _ & _ & _ & B2 & B3). destruct (B3 n j Hn Hj) as (S1 & S2 & S3). apply (HLz _ _ S1 S2 S3 (2 * E (n + 1))); [|exact Hi]. intros k Hk. now apply B2.
Qed.

(** The quadratures *)
Theorem quadrature_error Lq Dq qs qd : 0 <= Lq -> 0 <= Dq -> LipQ f Lq -> (forall i, (i < f_nq f)%nat -> Close t order Dq (qs i) (qd i)) ->
  (forall i v, (i < f_nq f)%nat -> node t 0 < v <= node t N -> qd i v = f_quad f (dae_at xd xs zs us pv g v) i) ->
  (forall n i, (n <= N)%nat -> (i < f_nq f)%nat -> Rabs (at_m (sc_q s) i n - (qs i (node t n) - qs i (node t 0))) <= (node t n - node t 0) * (2 * al * Lq * E n + (1 + al) * Dq)) /\
  (forall n j i, (n < N)%nat -> (j < order)%nat -> (i < f_nq f)%nat ->
     Rabs (at_m (sc_Q s) i (n * order + j) - (qs i (node (sc_tc s) (n * order + j)) - qs i (node t 0))) <= (node t (n + 1) - node t 0) * (2 * al * Lq * E (n + 1) + (1 + al) * Dq)).
Proof.
  intros HLq0 HDq0 HLq HQc HQd. destruct all_err as (A & b & HR & HC & _ & B2 & B3). pose proof HP as (_ & Hd & HM & H1). pose proof al_pos as Ha.
  destruct (coef_bound tau al A b Hd Hal HR) as [BA Bb]. rewrite HM in BA, Bb.
  destruct (scheme_all cspts f t order method tau g rep x K Z u p HP HL HD HT HV A b HR) as (s' & _ & Es' & _ & _ & _ & _ & _ & Hq0 & Hqn & HQ). rewrite Es in Es'. injection Es' as <-.
  set (qr n l i := f_quad f (stage t tau order A rep g x K Z u p n l) i) in *.
  assert (Hr : forall n l i, (n < N)%nat -> (l < order)%nat -> (i < f_nq f)%nat -> Rabs (qr n l i - qd i (stage_t t tau n l)) <= Lq * (2 * E (n + 1))).
  { intros n l i Hn Hl Hi. destruct (B3 n l Hn Hl) as (S1 & S2 & S3). pose proof (stage_in t tau n l HA HU Hn ltac:(lia)) as Hin. pose proof (bounds_in t n HA Hn). rewrite HQd by (assumption || lra). apply (HLq _ _ S1 S2 S3 (2 * E (n + 1))); [|exact Hi]. intros k Hk. now apply B2. }
  assert (St : forall w n i v, (n < N)%nat -> (i < f_nq f)%nat -> Sum order (fun l => Rabs (w l)) <= al ->
    Rabs (qs i (node t n) + step t n * Sum order (fun l => w l * qd i (stage_t t tau n l)) - qs i v) <= step t n * ((1 + al) * Dq) ->
    forall q, Rabs (q - (qs i (node t n) - qs i (node t 0))) <= (node t n - node t 0) * (2 * al * Lq * E n + (1 + al) * Dq) ->
    Rabs (q + step t n * Sum order (fun l => w l * qr n l i) - (qs i v - qs i (node t 0))) <= (node t (n + 1) - node t 0) * (2 * al * Lq * E (n + 1) + (1 + al) * Dq)).
  { intros w n i v Hn Hi Hw Hdf q Hq. pose proof (step_pos t n HA Hn) as Hh.
    assert (S1 : Rabs (Sum order (fun l => w l * (qr n l i - qd i (stage_t t tau n l)))) <= al * (Lq * (2 * E (n + 1)))) by (apply sum_abs_le; [exact Hw|apply Rmult_le_pos; [exact HLq0|apply Rmult_le_pos; [lra|apply (E_pos (n + 1)); lia]]|intros l Hl; now apply Hr]).
    rewrite (Sum_ext order _ (fun l => w l * qr n l i - w l * qd i (stage_t t tau n l))), Sum_minus in S1 by (intros; ring). set (P := Sum order (fun l => w l * qr n l i)) in *. set (Q := Sum order (fun l => w l * qd i (stage_t t tau n l))) in *.
    replace (q + step t n * P - (qs i v - qs i (node t 0))) with ((q - (qs i (node t n) - qs i (node t 0))) + (step t n * (P - Q) + (qs i (node t n) + step t n * Q - qs i v))) by ring.
    eapply Rle_trans; [apply Rabs_triang|]. eapply Rle_trans; [apply Rplus_le_compat; [exact Hq|apply Rle_trans with (step t n * (al * (Lq * (2 * E (n + 1)))) + step t n * ((1 + al) * Dq)); [|apply Rle_refl]]|].
    - eapply Rle_trans; [apply Rabs_triang|]. apply Rplus_le_compat; [|exact Hdf]. rewrite Rabs_mult, (Rabs_pos_eq (step t n)) by lra. apply Rmult_le_compat_l; [lra|exact S1].
    - pose proof (E_mono n Hn) as Hm. pose proof (tpos n ltac:(lia)) as Htp. assert (Hc : 0 <= 2 * al * Lq) by (repeat apply Rmult_le_pos; lra). assert (Ew : node t (n + 1) - node t 0 = (node t n - node t 0) + step t n) by (unfold step; ring).
      set (En1 := E (n + 1)) in *. set (En := E n) in *. rewrite Ew. assert (0 <= (node t n - node t 0) * (2 * al * Lq * (En1 - En))) by (apply Rmult_le_pos; [exact Htp|apply Rmult_le_pos; [exact Hc|lra]]). nra. }
  assert (G : forall n i, (n <= N)%nat -> (i < f_nq f)%nat -> Rabs (at_m (sc_q s) i n - (qs i (node t n) - qs i (node t 0))) <= (node t n - node t 0) * (2 * al * Lq * E n + (1 + al) * Dq)).
  { induction n as [|n IH]; intros i Hn Hi; [rewrite Hq0 by exact Hi; rewrite !Rminus_eq_0, Rabs_R0, Rmult_0_l; lra|]. replace (S n) with (n + 1)%nat by lia. rewrite Hqn by (assumption || lia). apply St; [lia|exact Hi|exact Bb| |apply IH; [lia|exact Hi]]. exact (proj2 (defect t tau order al Dq A b (qs i) (qd i) n HA HU HM HDq0 HR BA Bb (HQc i Hi) ltac:(lia))). }
  split; [exact G|]. intros n j i Hn Hj Hi. rewrite HQ, tc_at by assumption. apply St; [exact Hn|exact Hi|now apply BA| |apply G; [lia|exact Hi]]. exact (proj1 (defect t tau order al Dq A b (qs i) (qd i) n HA HU HM HDq0 HR BA Bb (HQc i Hi) Hn) j Hj).
Qed.
End Err.

(** ** The constants exist. *)
Lemma peval_unit c v : 0 <= v <= 1 -> Rabs (peval c v) <= fold_right (fun a b => Rabs a + b) 0 c.
Proof.
  intros Hv. induction c as [|a c IH]; simpl; [rewrite Rabs_R0; lra|]. eapply Rle_trans; [apply Rabs_triang|]. apply Rplus_le_compat_l. rewrite Rabs_mult, (Rabs_pos_eq v) by lra. pose proof (Rabs_pos (peval c v)). nra.
Qed.
Lemma poly_bounded n q : PolyLt n q -> exists B, 0 <= B /\ forall v, 0 <= v <= 1 -> Rabs (q v) <= B.
Proof.
  intros (c & _ & Hc). exists (fold_right (fun a b => Rabs a + b) 0 c). split; [clear; induction c as [|a c IH]; simpl; [lra|]; pose proof (Rabs_pos a); lra|intros v Hv; rewrite Hc; now apply peval_unit].
Qed.
Lemma bounds_sum n (q : nat -> R -> R) : (forall k, (k < n)%nat -> exists B, 0 <= B /\ forall v, 0 <= v <= 1 -> Rabs (q k v) <= B) -> exists B, 0 <= B /\ forall v, 0 <= v <= 1 -> Sum n (fun k => Rabs (q k v)) <= B.
Proof.
  induction n as [|n IH]; intros H; [exists 0; split; [lra|intros; simpl; lra]|]. destruct IH as (B & HB & H1); [intros k Hk; apply H; lia|]. destruct (H n ltac:(lia)) as (C & HC & H2). exists (B + C). split; [lra|]. intros v Hv. simpl. specialize (H1 v Hv). specialize (H2 v Hv). lra.
Qed.
Lemma max_exists n (w : nat -> R) : exists B, forall k, (k < n)%nat -> w k <= B.
Proof. induction n as [|n (B & IH)]; [exists 0; intros; lia|]. exists (Rmax B (w n)). intros k Hk. destruct (Nat.eq_dec k n) as [->|]; [apply Rmax_r|]. eapply Rle_trans; [apply IH; lia|apply Rmax_l]. Qed.
Theorem constants_exist tau : NoDup tau -> tau <> nil -> exists al lam, CoefBound tau al /\ 0 <= lam /\ Lebesgue tau lam.
Proof.
  intros Hd Hne. assert (Hlen : (0 < length tau)%nat) by (destruct tau; [contradiction|simpl; lia]).
  destruct (butcher_exact tau Hd) as (tb & _ & _ & _ & _ & _ & HR).
  destruct (max_exists (length tau) (fun j => Sum (length tau) (fun l => Rabs (at_m (tb_A tb) j l)))) as (a1 & H1).
  destruct (bounds_sum (length tau) (fun j v => polyval (lagrange tau j) v)) as (lam & Hl & H2); [intros k Hk; apply (poly_bounded (length tau)); now apply lagrange_poly|].
  exists (Rmax a1 (Sum (length tau) (fun l => Rabs (node (tb_b tb) l)))), lam. split; [|split; [exact Hl|]].
  - exists (fun i j => at_m (tb_A tb) i j), (fun j => node (tb_b tb) j). split; [exact HR|]. split; [intros j Hj; eapply Rle_trans; [apply H1; exact Hj|apply Rmax_l]|apply Rmax_r].
  - intros q c Hq Hc v Hv. rewrite (lagrange_interp tau q Hd Hq v). eapply Rle_trans; [apply sum_abs|]. assert (0 <= c) by (eapply Rle_trans; [apply Rabs_pos|apply (Hc 0%nat Hlen)]).
    eapply Rle_trans; [apply (sum_le _ _ (fun k => c * Rabs (polyval (lagrange tau k) v)))|].
    + intros k Hk. rewrite Rabs_mult. apply Rmult_le_compat_r; [apply Rabs_pos|now apply Hc].
    + rewrite Sum_scal, Rmult_comm. apply Rmult_le_compat_r; [assumption|now apply H2].
Qed.

(** ** Integrators *)
Section Integrator.
Context (cspts : nat -> string -> res (list R)) (f : daefun R) (t : list R) (order : nat) (method : string) (tau : list R) (g : option (R -> mat R)).
Context (HP : Points cspts order method tau) (HL : (2 <= length t)%nat) (HD : DaeOk f) (HT : TdpOk f g) (Hsq : f_ndae f = (f_nx f + f_nz f)%nat) (HA : Asc t) (HU : InUnit tau).
Context (al L : R) (Hal : CoefBound tau al) (Hss : ShortSteps t al L) (Lip : LipDae f L).
Context (x0 : nat -> R) (u p : mat R) (Hu : Shaped u (f_nu f) (ivals t)) (Hp : Shaped p (f_np f) 1).
Context (D : R) (xd xs zs us : nat -> R -> R) (pv : nat -> R) (HD0 : 0 <= D).
Context (HS : SolvesDae f t xd xs zs us pv g) (HF : FedBy f t u p us pv) (HCl : forall i, (i < f_nx f)%nat -> Close t order D (xs i) (xd i)) (E0 : forall i, (i < f_nx f)%nat -> xs i (node t 0) = x0 i).
Context (rf : (list R -> res (list R)) -> list R -> res (list R)) (nan : R) (z0 : nat -> R) (Hrf : RootFinder rf).
Notation N := (ivals t).
Notation E n := (exp (2 * al * L * (node t n - node t 0)) * (0 + (node t n - node t 0) * ((1 + al) * D))).

Lemma eqs_zero x K Z s A b : VarsOk f N order false x K Z u p -> scheme_ cspts f t order method g false x K Z u p = Ok s -> RungeKutta tau A b -> CollocationEqs f t tau order A b false g x K Z u p ->
  exists e, veccat_master (sc_eq s) = Ok e /\ forall v, In v e -> v = 0.
Proof.
  clear - HP HL HD HT. intros HV Es HR HC. destruct (scheme_equations cspts f t order method tau g false x K Z u p HP HL HD HT HV) as (s1 & A1 & b1 & e & E1 & HR1 & _ & _ & _ & _ & _ & _ & Ee & He). rewrite Es in E1. injection E1 as <-. exists e. split; [exact Ee|]. apply He.
  pose proof HP as (_ & Hd & HM & _). pose proof (rk_unique tau A b A1 b1 Hd HR HR1) as U. rewrite HM in U. destruct HC as (C1 & C2 & C3). split; [|split; [|exact C3]].
  - intros n j r Hn Hj Hr. rewrite <- (C1 n j r Hn Hj Hr). destruct HD as [D1 _]. apply D1. repeat split; try (intros; reflexivity). intros i Hi. cbn. unfold stage_x. do 2 f_equal. apply Sum_ext. intros l Hl. now rewrite (proj2 (U l Hl) j Hj).
  - intros n i Hn Hi. rewrite <- (C2 n i Hn Hi). do 2 f_equal. apply Sum_ext. intros l Hl. now rewrite (proj1 (U l Hl)).
Qed.

(** The trajectory that [integrate] returns, between the grid points *)
Theorem integrate_error lam out pp dp : 0 <= lam -> Lebesgue tau lam -> integrate_ rf nan cspts f t order method g true x0 z0 u p = Ok (out, pp) -> pp_derivative pp = Ok dp ->
  forall n i v, (n < N)%nat -> (i < f_nx f)%nat -> node t n < v <= node t (n + 1) ->
  Rabs (ppval pp "left" i v - xs i v) <= E n + (v - node t n) * (lam * (2 * L * E (n + 1) + D) + D) /\ Rabs (ppval dp "left" i v - xd i v) <= lam * (2 * L * E (n + 1) + D) + D.
Proof.
  intros Hl Hlam. unfold integrate_. destruct (integrator_ rf nan cspts f t order method g x0 z0 u p) as [out'|] eqn:Ei; [|discriminate]. cbn [rbind negb].
  destruct (integrator_outputs cspts f t order method tau g HP HL HD HT Hsq rf nan x0 z0 u p Hu Hp out' Hrf Ei) as (s & A & b & HV & Es & HR & HC & X0 & _). rewrite Es. cbn [rbind].
  destruct (piecewise_X s (io_x out') (io_K out')) as [pp'|] eqn:Epp; [|discriminate]. cbn [rbind]. intros [= -> ->] Edp. destruct (eqs_zero _ _ _ s A b HV Es HR HC) as (e & Ee & Hz).
  apply (dense_error cspts f t order method tau g false HP HL HD HT HA al L Hal Hss Lip _ _ _ u p HV s e Es Ee Hz HU D 0 xd xs zs us pv HD0 (Rle_refl 0) HS HF HCl); try assumption.
  intros k Hk. rewrite X0, E0 by exact Hk. rewrite Rminus_eq_0, Rabs_R0. lra.
Qed.
(** Its algebraic states and quadratures *)
Theorem integrator_algebraic_error Lz out : LipZ f Lz -> integrator_ rf nan cspts f t order method g x0 z0 u p = Ok out ->
  forall n j i, (n < N)%nat -> (j < order)%nat -> (i < f_nz f)%nat -> Rabs (at_m (io_Z out) i (n * order + j) - zs i (node (io_tc out) (n * order + j))) <= Lz * (2 * E (n + 1)).
Proof.
  intros HLz Ei. destruct (integrator_outputs cspts f t order method tau g HP HL HD HT Hsq rf nan x0 z0 u p Hu Hp out Hrf Ei) as (s & A & b & HV & Es & HR & HC & X0 & _ & _ & _ & _ & Htc & _). rewrite Htc. destruct (eqs_zero _ _ _ s A b HV Es HR HC) as (e & Ee & Hz).
  apply (algebraic_error cspts f t order method tau g false HP HL HD HT HA al L Hal Hss Lip _ _ _ u p HV s e Es Ee Hz HU D 0 xd xs zs us pv HD0 (Rle_refl 0) HS HF HCl); try assumption.
  intros k Hk. rewrite X0, E0 by exact Hk. rewrite Rminus_eq_0, Rabs_R0. lra.
Qed.
Theorem integrator_quadrature_error Lq Dq qs qd out : 0 <= Lq -> 0 <= Dq -> LipQ f Lq -> (forall i, (i < f_nq f)%nat -> Close t order Dq (qs i) (qd i)) ->
  (forall i v, (i < f_nq f)%nat -> node t 0 < v <= node t N -> qd i v = f_quad f (dae_at xd xs zs us pv g v) i) -> integrator_ rf nan cspts f t order method g x0 z0 u p = Ok out ->
  forall i, (i < f_nq f)%nat -> Rabs (io_qf out i - (qs i (node t N) - qs i (node t 0))) <= (node t N - node t 0) * (2 * al * Lq * E N + (1 + al) * Dq).
Proof.
  intros Hq0 Hd0 HLq HQ HQd Ei i Hi. destruct (integrator_outputs cspts f t order method tau g HP HL HD HT Hsq rf nan x0 z0 u p Hu Hp out Hrf Ei) as (s & A & b & HV & Es & HR & HC & X0 & _ & _ & _ & _ & _ & Hqf). rewrite Hqf. destruct (eqs_zero _ _ _ s A b HV Es HR HC) as (e & Ee & Hz).
  refine (proj1 (quadrature_error cspts f t order method tau g false HP HL HD HT HA al L Hal Hss Lip _ _ _ u p HV s e Es Ee Hz HU D 0 xd xs zs us pv HD0 (Rle_refl 0) HS HF HCl _ Lq Dq qs qd Hq0 Hd0 HLq HQ HQd) N i (le_n _) Hi).
  intros k Hk. rewrite X0, E0 by exact Hk. rewrite Rminus_eq_0, Rabs_R0. lra.
Qed.
End Integrator.
