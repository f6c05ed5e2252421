(** Proofs about the accuracy of collocation at the grid times (C103). *)
From Coq Require Import Reals Lra.
From Coquelicot Require Import Coquelicot.
From Verif Require Import PyBase IndexModel DMModel StructModel StructsModel IneqModel DaeModel NumModel NumInst PolynomialModel PiecewiseModel PdqModel SchemeModel
  PolySpec PiecewiseSpec PdqSpec SchemeSpec PolyMath PolynomialBase PolynomialThms PolynomialThms2 PiecewiseThms PdqThms PdqThms2 SchemeThms SchemeThms2 SchemeThms3 SchemeThms4 OrderSpec OrderMath OrderThms ConvSpec ConvThms GridSpec GridThms ErrSpec ErrThms SuperSpec.
Open Scope R_scope.

(** ** Quadrature of a function that vanishes at the points *)
Lemma zero_quadrature tau b m h a eps (r P : R -> R) (I : R) : ExactLt tau b m -> 0 < h -> (forall l, (l < length tau)%nat -> 0 <= b l) ->
  InUnit tau -> (forall l, (l < length tau)%nat -> r (a + h * node tau l) = 0) -> is_RInt r a (a + h) I -> PolyLt m P ->
  0 <= eps -> (1 <= m)%nat -> (forall s, a < s <= a + h -> Rabs (r s - P s) <= eps) -> Rabs I <= 2 * h * eps.
Proof.
  intros He Hh Hb HU Hr HI HP Heps Hm Hn. pose proof (exact_moved tau b m P a h He HP) as IP.
  pose proof (int_lin _ _ 1 (-1) _ _ _ _ HI IP) as ID. set (Q := h * Sum (length tau) (fun l => b l * P (a + h * node tau l))) in *.
  apply (int_bound _ _ _ eps) in ID; [|lra| |exact Heps]. 2:{ intros v Hv. replace (1 * r v + -1 * P v) with (r v - P v) by ring. now apply Hn. }
  assert (S1 : Sum (length tau) (fun l => Rabs (b l)) <= 1).
  { rewrite (Sum_ext _ _ b) by (intros; apply Rabs_pos_eq; auto). assert (Hc : PolyLt m (fun _ => 1)) by (exists (1 :: nil)%list; split; [simpl; lia|intros; simpl; ring]).
    specialize (He _ Hc). pose proof (is_RInt_unique (V := R_CompleteNormedModule) _ _ _ _ He) as E1. rewrite (is_RInt_unique (V := R_CompleteNormedModule) _ _ _ _ (is_RInt_const (V := R_NormedModule) 0 1 1)) in E1. unfold scal in E1. simpl in E1. unfold mult in E1. simpl in E1. rewrite (Sum_ext _ _ b) in E1 by (intros; ring). lra. }
  assert (HQ : Rabs Q <= h * eps).
  { unfold Q. rewrite Rabs_mult, (Rabs_pos_eq h) by lra. apply Rmult_le_compat_l; [lra|]. rewrite <- (Rmult_1_l eps). apply sum_abs_le; [exact S1|exact Heps|].
    intros l Hl. assert (Hs : a < a + h * node tau l <= a + h) by (destruct (HU l Hl); split; nra). specialize (Hn _ Hs). rewrite Hr in Hn by exact Hl. rewrite <- Rabs_Ropp. now replace (- P (a + h * node tau l)) with (0 - P (a + h * node tau l)) by ring. }
  replace I with ((1 * I + -1 * Q) + Q) by ring. eapply Rle_trans; [apply Rabs_triang|]. lra.
Qed.

Lemma sum_derive m (F D : nat -> R -> R) v : (forall i, (i < m)%nat -> is_derive (F i) v (D i v)) -> is_derive (fun v => Sum m (fun i => F i v)) v (Sum m (fun i => D i v)).
Proof. induction m as [|m IH]; intros H; [exact (is_derive_const (K := R_AbsRing) (V := R_NormedModule) 0 v)|]. cbn [Sum]. apply (is_derive_plus (K := R_AbsRing) (V := R_NormedModule) (fun v => Sum m (fun i => F i v)) (F m)); [apply IH; auto|apply H; lia]. Qed.
Lemma sum_continuous m (F : nat -> R -> R) v : (forall i, (i < m)%nat -> continuous (F i) v) -> continuous (fun v => Sum m (fun i => F i v)) v.
Proof. induction m as [|m IH]; intros H; [exact (continuous_const (U := R_UniformSpace) (V := R_UniformSpace) 0 v)|]. cbn [Sum]. apply (continuous_plus (V := R_NormedModule) (fun v => Sum m (fun i => F i v)) (F m)); [apply IH; auto|apply H; lia]. Qed.

Section Super.
Context (cspts : nat -> string -> res (list R)) (f : daefun R) (t : list R) (order : nat) (method : string) (tau : list R) (g : option (R -> mat R)) (rep : bool).
Context (HP : Points cspts order method tau) (HL : (2 <= length t)%nat) (HD : DaeOk f) (HT : TdpOk f g) (HA : Asc t).
Context (x K Z u p : mat R) (HV : VarsOk f (ivals t) order rep x K Z u p) (s : scheme R) (e : list R) (Es : scheme_ cspts f t order method g rep x K Z u p = Ok s) (Ee : veccat_master (sc_eq s) = Ok e) (Hz : forall v, In v e -> v = 0) (HU : InUnit tau).
Context (xd xs zs us : nat -> R -> R) (pv : nat -> R) (HS : SolvesDae f t xd xs zs us pv g) (HF : FedBy f t u p us pv) (HC1 : forall i, (i < f_nx f)%nat -> C1 t (xs i) (xd i)).
(** The DAE at the collocation polynomial, and the adjoint equation *)
Context (pp dp : ppoly R) (Epp : piecewise_X s x K = Ok pp) (Edp : pp_derivative pp = Ok dp).
Context (wd wz : nat -> R -> R) (HW : SolvesDae f t wd (ppval pp "left") wz us pv g).
Context (y yd : nat -> R -> R) (HY : forall i, (i < f_nx f)%nat -> C1 t (y i) (yd i)).
Context (HAd : forall v, node t 0 < v <= node t (ivals t) -> Sum (f_nx f) (fun i => yd i v * (ppval pp "left" i v - xs i v)) + Sum (f_nx f) (fun i => y i v * (wd i v - xd i v)) = 0).
Notation N := (ivals t).
Notation wt n := (weighted f t y xs x n).
Notation r := (fun v => Sum (f_nx f) (fun i => y i v * (ppval dp "left" i v - wd i v))).

Lemma interval_identity n : (n < N)%nat -> is_RInt r (node t n) (node t (n + 1)) (wt (n + 1) - wt n).
Proof.
  intros Hn. destruct (solution_trajectory cspts f t order method tau g rep x K Z u p HP HL HD HT HV HA HU s e Es Ee Hz) as (pp' & dp' & Epp' & Edp' & Hpp & Ht & HFp & _). rewrite Epp in Epp'. injection Epp' as <-. rewrite Edp in Edp'. injection Edp' as <-.
  assert (Hb : forall k, bound pp k = node t k) by (intros; unfold bound; now rewrite Ht). assert (Ni : nint pp = N) by (unfold nint; now rewrite Ht).
  destruct (derivative_spec pp (f_nx f) Hpp) as (dp' & Edp' & Tdp & _ & Pdp & HdP). rewrite Edp in Edp'. injection Edp' as <-.
  assert (Ex : forall i, (i < f_nx f)%nat -> exists Q : (R -> R) * (R -> R) * (R -> R) * ((R -> R) * (R -> R) * (R -> R)), let '(F, dF, X, (X', Y, Y')) := Q in
     (Piece pp n i F /\ PolyLt order dF /\ F (node t n) = at_m x i n /\ F (node t (n + 1)) = at_m x i (n + 1) /\ forall v, is_derive F v (dF v)) /\
     ((forall v, node t n <= v <= node t (n + 1) -> xs i v = X v) /\ (forall v, node t n < v <= node t (n + 1) -> xd i v = X' v) /\ forall v, is_derive X v (X' v) /\ continuous X' v) /\
     ((forall v, node t n <= v <= node t (n + 1) -> y i v = Y v) /\ (forall v, node t n < v <= node t (n + 1) -> yd i v = Y' v) /\ forall v, is_derive Y v (Y' v) /\ continuous Y' v)).
  { intros i Hi. destruct (HFp n i Hn Hi) as (F & PF & LF & F0 & F1 & _). destruct (PolyLt_derive order F LF) as (dF & LdF & HdF). destruct (HC1 i Hi n Hn) as (X & X' & HX). destruct (HY i Hi n Hn) as (Y & Y' & HYi).
    exists (F, dF, X, (X', Y, Y')). tauto. }
  apply (fin_choice ((fun _ => 0), (fun _ => 0), (fun _ => 0), ((fun _ => 0), (fun _ => 0), (fun _ => 0)))) in Ex as (q & Hq).
  set (F i := fst (fst (fst (q i)))). set (dF i := snd (fst (fst (q i)))). set (X i := snd (fst (q i))). set (X' i := fst (fst (snd (q i)))). set (Y i := snd (fst (snd (q i)))). set (Y' i := snd (snd (q i))).
  assert (Q : forall i, (i < f_nx f)%nat ->
     (Piece pp n i (F i) /\ PolyLt order (dF i) /\ F i (node t n) = at_m x i n /\ F i (node t (n + 1)) = at_m x i (n + 1) /\ forall v, is_derive (F i) v (dF i v)) /\
     ((forall v, node t n <= v <= node t (n + 1) -> xs i v = X i v) /\ (forall v, node t n < v <= node t (n + 1) -> xd i v = X' i v) /\ forall v, is_derive (X i) v (X' i v) /\ continuous (X' i) v) /\
     ((forall v, node t n <= v <= node t (n + 1) -> y i v = Y i v) /\ (forall v, node t n < v <= node t (n + 1) -> yd i v = Y' i v) /\ forall v, is_derive (Y i) v (Y' i v) /\ continuous (Y' i) v)).
  { intros i Hi. specialize (Hq i Hi). unfold F, dF, X, X', Y, Y'. destruct (q i) as [[[? ?] ?] [[? ?] ?]]. exact Hq. }
  clearbody F dF X X' Y Y'. clear q Hq. pose proof (step_pos t n HA Hn) as Hh. assert (Hlt : node t n < node t (n + 1)) by (unfold step in Hh; lra).
  assert (I1 : is_RInt (fun v => Sum (f_nx f) (fun i => Y' i v * (F i v - X i v) + Y i v * (dF i v - X' i v))) (node t n) (node t (n + 1))
    (Sum (f_nx f) (fun i => Y i (node t (n + 1)) * (F i (node t (n + 1)) - X i (node t (n + 1)))) - Sum (f_nx f) (fun i => Y i (node t n) * (F i (node t n) - X i (node t n))))).
  { apply (is_RInt_derive (V := R_CompleteNormedModule) (fun v => Sum (f_nx f) (fun i => Y i v * (F i v - X i v)))).
    - intros v _. apply (sum_derive (f_nx f) (fun i v => Y i v * (F i v - X i v)) (fun i v => Y' i v * (F i v - X i v) + Y i v * (dF i v - X' i v))). intros i Hi. destruct (Q i Hi) as ((_ & _ & _ & _ & H1) & (_ & _ & H2) & (_ & _ & H3)).
      apply (is_derive_mult (K := R_AbsRing) (Y i) (fun v => F i v - X i v)); [apply H3| |intros; apply Rmult_comm]. apply (is_derive_minus (K := R_AbsRing) (V := R_NormedModule) (F i) (X i)); [apply H1|apply H2].
    - intros v _. apply (sum_continuous (f_nx f) (fun i v => Y' i v * (F i v - X i v) + Y i v * (dF i v - X' i v))). intros i Hi. destruct (Q i Hi) as ((_ & L1 & _ & _ & H1) & (_ & _ & H2) & (_ & _ & H3)).
      assert (CF : continuous (F i) v) by (apply (ex_derive_continuous (K := R_AbsRing) (V := R_NormedModule)); eexists; apply H1). assert (CX : continuous (X i) v) by (apply (ex_derive_continuous (K := R_AbsRing) (V := R_NormedModule)); eexists; apply H2). assert (CY : continuous (Y i) v) by (apply (ex_derive_continuous (K := R_AbsRing) (V := R_NormedModule)); eexists; apply H3).
      apply (continuous_plus (V := R_NormedModule) (fun v => Y' i v * (F i v - X i v)) (fun v => Y i v * (dF i v - X' i v))); apply (continuous_mult (K := R_AbsRing)).
      + apply H3. + now apply (continuous_minus (V := R_NormedModule) (F i) (X i)). + exact CY. + apply (continuous_minus (V := R_NormedModule) (dF i) (X' i)); [now apply (PolyLt_continuous order)|apply H2]. }
  replace (wt (n + 1) - wt n) with (Sum (f_nx f) (fun i => Y i (node t (n + 1)) * (F i (node t (n + 1)) - X i (node t (n + 1)))) - Sum (f_nx f) (fun i => Y i (node t n) * (F i (node t n) - X i (node t n)))).
  2:{ unfold weighted. f_equal; apply Sum_ext; intros i Hi; destruct (Q i Hi) as ((_ & _ & F0 & F1 & _) & (X0 & _) & (Y0 & _)); rewrite ?F0, ?F1, X0, Y0 by lra; reflexivity. }
  revert I1. apply is_RInt_ext. intros v Hv. rewrite Rmin_left, Rmax_right in Hv by lra. pose proof (bounds_in t n HA Hn) as Hbd.
  assert (B : Belongs pp false v n) by (split; [lia|]; rewrite !Hb; split; right; lra). assert (Bd : Belongs dp false v n) by (unfold Belongs, nint, bound in *; rewrite Tdp; exact B).
  rewrite Sum_plus. assert (A1 := HAd v ltac:(lra)).
  assert (V : forall i, (i < f_nx f)%nat -> ppval pp "left" i v = F i v /\ ppval dp "left" i v = dF i v /\ xs i v = X i v /\ xd i v = X' i v /\ y i v = Y i v /\ yd i v = Y' i v).
  { intros i Hi. destruct (Q i Hi) as ((PF & LF & _ & _ & H1) & (X0 & X1 & _) & (Y0 & Y1 & _)). rewrite X0, X1, Y0, Y1 by lra. rewrite (ppval_spec pp (f_nx f) "left" i v n (F i) Hpp (or_introl eq_refl) B PF), (ppval_spec dp (f_nx f) "left" i v n (dF i) Pdp (or_introl eq_refl) Bd (HdP n i (F i) (dF i) ltac:(lia) PF H1)). repeat split. }
  rewrite (Sum_ext _ _ (fun i => Y' i v * (F i v - X i v))) in A1 by (intros i Hi; destruct (V i Hi) as (-> & _ & -> & _ & _ & ->); reflexivity).
  rewrite (Sum_ext _ (fun i => y i v * (wd i v - xd i v)) (fun i => Y i v * (wd i v - X' i v))) in A1 by (intros i Hi; destruct (V i Hi) as (_ & _ & _ & -> & -> & _); reflexivity).
  replace (Sum (f_nx f) (fun i => Y' i v * (F i v - X i v))) with (- Sum (f_nx f) (fun i => Y i v * (wd i v - X' i v))) by lra.
  rewrite <- Sum_opp, <- Sum_plus. apply Sum_ext. intros i Hi. destruct (V i Hi) as (_ & -> & _ & _ & -> & _). ring.
Qed.

Theorem error_identity n : (n <= N)%nat -> is_RInt r (node t 0) (node t n) (wt n - wt 0).
Proof.
  induction n as [|n IH]; intros Hn; [rewrite Rminus_eq_0; apply (is_RInt_point (V := R_NormedModule))|].
  replace (wt (S n) - wt 0) with (plus (wt n - wt 0) (wt (n + 1) - wt n)) by (unfold plus; simpl; replace (n + 1)%nat with (S n) by lia; ring).
  replace (S n) with (n + 1)%nat at 1 by lia. apply (is_RInt_Chasles (V := R_NormedModule) _ _ (node t n)); [apply IH; lia|]. replace (S n) with (n + 1)%nat by lia. apply interval_identity. lia.
Qed.

(** For example: [J] is a matrix of differential quotients of the dynamics and [y] solves [y' = - J' y]. *)
Theorem adjoint_secant m (J : R -> nat -> nat -> R) (dy yv dxd dx : nat -> R) v : (forall i, (i < m)%nat -> dxd i = Sum m (fun j => J v i j * dx j)) -> (forall j, (j < m)%nat -> dy j = - Sum m (fun i => yv i * J v i j)) ->
  Sum m (fun i => dy i * dx i) + Sum m (fun i => yv i * dxd i) = 0.
Proof.
  clear. intros H1 H2. rewrite (Sum_ext m (fun i => dy i * dx i) (fun j => - Sum m (fun i => yv i * J v i j * dx j))) by (intros j Hj; rewrite H2 by exact Hj; rewrite Sum_scal_r; ring).
  rewrite (Sum_ext m (fun i => yv i * dxd i) (fun i => Sum m (fun j => yv i * J v i j * dx j))) by (intros i Hi; rewrite H1 by exact Hi; rewrite <- Sum_scal; apply Sum_ext; intros; ring).
  rewrite Sum_opp, (Sum_swap m m (fun j i => yv i * J v i j * dx j)). ring.
Qed.

Context (HDt : Determined f) (k : nat) (HO : Ortho tau k) (Hk : (order <= k + 1)%nat).

Lemma residual_zero n l : (n < N)%nat -> (l < order)%nat -> r (stage_t t tau n l) = 0.
Proof.
  intros Hn Hl. destruct (solution_trajectory cspts f t order method tau g rep x K Z u p HP HL HD HT HV HA HU s e Es Ee Hz) as (pp' & dp' & Epp' & Edp' & Hpp & Ht & HFp & _ & _ & HE). rewrite Epp in Epp'. injection Epp' as <-. rewrite Edp in Edp'. injection Edp' as <-.
  assert (Etc : node (sc_tc s) (n * order + l) = stage_t t tau n l) by (destruct (scheme_equations cspts f t order method tau g rep x K Z u p HP HL HD HT HV) as (s1 & _ & _ & _ & E1 & _ & _ & _ & _ & Htc & _); rewrite Es in E1; injection E1 as <-; now apply Htc).
  destruct (main_eqs cspts f t order method tau g rep x K Z u p HP HL HD HT HV s e Es Ee Hz) as (A & b & HR & HC & _). pose proof HP as (_ & Hd & HM & H1).
  pose proof (stage_in t tau n l HA HU Hn ltac:(lia)) as Hin. pose proof (bounds_in t n HA Hn). destruct HF as [F1 F2]. destruct (stage_fed f t tau order A b rep g x K Z u p HC n l Hn Hl) as [_ (n' & _ & _ & P2)].
  cbv beta. apply Sum_0. intros i Hi. enough (G : ppval dp "left" i (stage_t t tau n l) = wd i (stage_t t tau n l)) by (rewrite G; ring).
  refine (HDt (DArgs (fun i => ppval dp "left" i (stage_t t tau n l)) (fun i => ppval pp "left" i (stage_t t tau n l)) (fun i => at_m Z i (n * order + l)) (fun i => at_m u i n) (fun i => at_m p i (if rep then n * order + l else 0)%nat) (stage_t t tau n l) (tdp_at g (stage_t t tau n l)))
    (dae_at wd (ppval pp "left") wz us pv g (stage_t t tau n l)) _ _ _ _ i Hi).
  - intros j Hj. specialize (HE n l j Hn Hl Hj). cbv zeta in HE. rewrite Etc in HE. exact HE.
  - intros j Hj. apply HW; [lra|exact Hj].
  - split; [intros j Hj; cbn; symmetry; now apply F1|]. split; [intros j Hj; cbn; rewrite F2 by exact Hj; exact (P2 j Hj)|]. split; [reflexivity|intros; reflexivity].
  - intros j Hj. reflexivity.
Qed.

Theorem grid_error eps : 0 <= eps -> Near t (order + k) eps r -> forall n, (n <= N)%nat -> Rabs (wt n - wt 0) <= 2 * (node t n - node t 0) * eps.
Proof.
  intros Heps HN. destruct (main_eqs cspts f t order method tau g rep x K Z u p HP HL HD HT HV s e Es Ee Hz) as (A & b & HR & HC & _). pose proof HP as (_ & Hd & HM & H1).
  assert (He : ExactLt tau b (order + k)) by (rewrite <- HM; now apply order_iff; [|apply (rk_exact tau A b)|]).
  assert (Hb : forall l, (l < length tau)%nat -> 0 <= b l) by (intros l Hl; left; apply (rk_weights tau A b Hd ltac:(lia) HR); [apply (ortho_mon tau k); [lia|exact HO]|exact Hl]).
  induction n as [|n IH]; intros Hn; [rewrite Rminus_eq_0, Rabs_R0; lra|]. replace (S n) with (n + 1)%nat by lia.
  pose proof (step_pos t n HA ltac:(lia)) as Hh. assert (Et : node t (n + 1) = node t n + step t n) by (unfold step; ring).
  destruct (HN n ltac:(lia)) as (P & LP & HPn). pose proof (interval_identity n ltac:(lia)) as I. rewrite Et in I. rewrite Et in HPn.
  apply (zero_quadrature tau b (order + k) (step t n) (node t n) eps _ P) in I; auto; [|intros l Hl; apply (residual_zero n l); lia|lia].
  replace (wt (n + 1) - wt 0) with ((wt n - wt 0) + (wt (n + 1) - wt n)) by ring. eapply Rle_trans; [apply Rabs_triang|]. specialize (IH ltac:(lia)). rewrite Et. lra.
Qed.
End Super.

(** ** Taylor polynomials *)
Lemma shift_poly m (c : nat -> R) a : PolyLt (S m) (fun v => sum_f_R0 (fun k => c k * (v - a) ^ k) m).
Proof.
  assert (Hp : forall k, PolyLt (S k) (fun v => (v - a) ^ k)) by (intros k; apply (PolyLt_ext _ (fun v => (1 * v + - a) ^ k)); [intros; f_equal; ring|apply (PolyLt_comp (S k) (fun z => z ^ k) 1 (- a)), PolyLt_pow]).
  induction m as [|m IH]; cbn [sum_f_R0].
  - now apply PolyLt_scal.
  - apply PolyLt_plus; [apply (PolyLt_mon (S m)); [lia|exact IH]|now apply PolyLt_scal].
Qed.

Theorem smooth_near t m B H rr : Asc t -> 0 <= B -> (forall n, (n < ivals t)%nat -> step t n <= H) -> (1 <= m)%nat -> Smooth t m B rr -> Near t m (B * H ^ m / INR (fact m)) rr.
Proof.
  intros HA HB HH Hm HS n Hn. destruct (HS n Hn) as (W & HW & HDer). destruct m as [|m]; [lia|]. pose proof (step_pos t n HA Hn) as Hh. specialize (HH n Hn).
  exists (fun v => sum_f_R0 (fun k => Derive_n W k (node t n) / INR (fact k) * (v - node t n) ^ k) m). split; [apply shift_poly|].
  intros v Hv. rewrite HW by exact Hv. destruct (Taylor_Lagrange W m (node t n) v) as (z & Hzv & ->); [lra|intros w Hw k Hk; apply HDer; [lra|exact Hk]|].
  match goal with |- Rabs (?a + ?b - ?c) <= _ => replace (a + b - c) with b end.
  2:{ rewrite (sum_eq (fun k => (v - node t n) ^ k / INR (fact k) * Derive_n W k (node t n)) (fun k => Derive_n W k (node t n) / INR (fact k) * (v - node t n) ^ k)); [ring|intros k _; field; apply INR_fact_neq_0]. }
  destruct (HDer z ltac:(lra)) as [_ Hz]. rewrite Rabs_mult. assert (Hf : 0 < INR (fact (S m))) by apply INR_fact_lt_0.
  unfold Rdiv at 1. rewrite Rabs_mult, (Rabs_pos_eq (/ INR (fact (S m)))) by (left; now apply Rinv_0_lt_compat). rewrite <- RPow_abs, (Rabs_pos_eq (v - node t n)) by lra.
  assert (Hpw : (v - node t n) ^ S m <= H ^ S m) by (apply pow_incr; unfold step in HH; lra). assert (H0 : 0 <= (v - node t n) ^ S m) by (apply pow_le; lra).
  replace (B * H ^ S m / INR (fact (S m))) with (H ^ S m * / INR (fact (S m)) * B) by (field; apply INR_fact_neq_0).
  apply Rmult_le_compat; [apply Rmult_le_pos; [exact H0|left; now apply Rinv_0_lt_compat]|apply Rabs_pos| |exact Hz]. apply Rmult_le_compat_r; [left; now apply Rinv_0_lt_compat|exact Hpw].
Qed.

Section Orders.
Context (cspts : nat -> string -> res (list R)) (f : daefun R) (t : list R) (order : nat) (method : string) (tau : list R) (g : option (R -> mat R)) (rep : bool).
Context (HP : Points cspts order method tau) (HL : (2 <= length t)%nat) (HD : DaeOk f) (HT : TdpOk f g) (HA : Asc t).
Context (x K Z u p : mat R) (HV : VarsOk f (ivals t) order rep x K Z u p) (s : scheme R) (e : list R) (Es : scheme_ cspts f t order method g rep x K Z u p = Ok s) (Ee : veccat_master (sc_eq s) = Ok e) (Hz : forall v, In v e -> v = 0) (HU : InUnit tau).
Context (xd xs zs us : nat -> R -> R) (pv : nat -> R) (HS : SolvesDae f t xd xs zs us pv g) (HF : FedBy f t u p us pv) (HC1 : forall i, (i < f_nx f)%nat -> C1 t (xs i) (xd i)).
Context (B H : R) (HB : 0 <= B) (HH : forall n, (n < ivals t)%nat -> step t n <= H).
Notation N := (ivals t).

(** The order of the points decides the order at the grid times. *)
Theorem grid_order pp dp wd wz y yd k : piecewise_X s x K = Ok pp -> pp_derivative pp = Ok dp -> SolvesDae f t wd (ppval pp "left") wz us pv g ->
  (forall i, (i < f_nx f)%nat -> C1 t (y i) (yd i)) ->
  (forall v, node t 0 < v <= node t N -> Sum (f_nx f) (fun i => yd i v * (ppval pp "left" i v - xs i v)) + Sum (f_nx f) (fun i => y i v * (wd i v - xd i v)) = 0) ->
  Determined f -> Ortho tau k -> (order <= k + 1)%nat -> Smooth t (order + k) B (fun v => Sum (f_nx f) (fun i => y i v * (ppval dp "left" i v - wd i v))) ->
  forall n, (n <= N)%nat -> Rabs (weighted f t y xs x n - weighted f t y xs x 0) <= 2 * (node t n - node t 0) * (B * H ^ (order + k) / INR (fact (order + k))).
Proof.
  intros Epp Edp HW HY HAd HDt HO Hk HSm n Hn. pose proof HP as (_ & _ & _ & H1).
  assert (H0 : 0 <= H) by (pose proof (HH 0%nat ltac:(unfold ivals; lia)); pose proof (step_pos t 0 HA ltac:(unfold ivals; lia)); lra).
  apply (grid_error cspts f t order method tau g rep HP HL HD HT HA x K Z u p HV s e Es Ee Hz HU xd xs us pv HF HC1 pp dp Epp Edp wd wz HW y yd HY HAd HDt k HO Hk); [| |exact Hn].
  - unfold Rdiv. apply Rmult_le_pos; [apply Rmult_le_pos; [exact HB|now apply pow_le]|left; apply Rinv_0_lt_compat, INR_fact_lt_0].
  - apply smooth_near; auto. lia.
Qed.

Lemma c1_close w d m : (1 <= m)%nat -> C1 t w d -> Smooth t m B d -> Close t m (B * H ^ m / INR (fact m)) w d.
Proof.
  intros Hm HC HSm n Hn. split; [|exact (smooth_near t m B H d HA HB HH Hm HSm n Hn)]. intros v Hv. destruct (HC n Hn) as (W & D & E1 & E2 & E3). rewrite !E1 by lra.
  apply (is_RInt_ext D). { intros z Hzv. rewrite Rmin_left, Rmax_right in Hzv by lra. symmetry. apply E2. lra. }
  apply (is_RInt_derive (V := R_CompleteNormedModule) W D); intros; apply E3.
Qed.

(** The order of all states *)
Theorem state_order al L d : CoefBound tau al -> ShortSteps t al L -> LipDae f L -> 0 <= d -> (forall i, (i < f_nx f)%nat -> Rabs (at_m x i 0 - xs i (node t 0)) <= d) ->
  (forall i, (i < f_nx f)%nat -> Smooth t order B (xd i)) ->
  forall n i, (n <= N)%nat -> (i < f_nx f)%nat -> Rabs (at_m x i n - xs i (node t n)) <= exp (2 * al * L * (node t n - node t 0)) * (d + (node t n - node t 0) * ((1 + al) * (B * H ^ order / INR (fact order)))).
Proof.
  intros Hal Hss Lip Hd0 E0 HSm. pose proof HP as (_ & _ & _ & H1).
  assert (H0 : 0 <= H) by (pose proof (HH 0%nat ltac:(unfold ivals; lia)); pose proof (step_pos t 0 HA ltac:(unfold ivals; lia)); lra).
  refine (proj1 (error_bound cspts f t order method tau g rep HP HL HD HT HA al L Hal Hss Lip x K Z u p HV s e Es Ee Hz HU (B * H ^ order / INR (fact order)) d xd xs zs us pv _ Hd0 HS HF _ E0)).
  - unfold Rdiv. apply Rmult_le_pos; [apply Rmult_le_pos; [exact HB|now apply pow_le]|left; apply Rinv_0_lt_compat, INR_fact_lt_0].
  - intros i Hi. apply c1_close; auto.
Qed.
End Orders.

Section Integrator.
Context (cspts : nat -> string -> res (list R)) (f : daefun R) (t : list R) (order : nat) (method : string) (tau : list R) (g : option (R -> mat R)).
Context (HP : Points cspts order method tau) (HL : (2 <= length t)%nat) (HD : DaeOk f) (HT : TdpOk f g) (Hsq : f_ndae f = (f_nx f + f_nz f)%nat) (HA : Asc t) (HU : InUnit tau).
Context (x0 : nat -> R) (u p : mat R) (Hu : Shaped u (f_nu f) (ivals t)) (Hp : Shaped p (f_np f) 1).
Context (xd xs zs us : nat -> R -> R) (pv : nat -> R) (HS : SolvesDae f t xd xs zs us pv g) (HF : FedBy f t u p us pv) (HC1 : forall i, (i < f_nx f)%nat -> C1 t (xs i) (xd i)) (E0 : forall i, (i < f_nx f)%nat -> xs i (node t 0) = x0 i).
Context (rf : (list R -> res (list R)) -> list R -> res (list R)) (nan : R) (z0 : nat -> R) (Hrf : RootFinder rf).
Notation N := (ivals t).

Theorem integrator_grid_error out pp dp wd wz y yd k eps : integrate_ rf nan cspts f t order method g true x0 z0 u p = Ok (out, pp) -> pp_derivative pp = Ok dp -> SolvesDae f t wd (ppval pp "left") wz us pv g ->
  (forall i, (i < f_nx f)%nat -> C1 t (y i) (yd i)) ->
  (forall v, node t 0 < v <= node t N -> Sum (f_nx f) (fun i => yd i v * (ppval pp "left" i v - xs i v)) + Sum (f_nx f) (fun i => y i v * (wd i v - xd i v)) = 0) ->
  Determined f -> Ortho tau k -> (order <= k + 1)%nat -> 0 <= eps -> Near t (order + k) eps (fun v => Sum (f_nx f) (fun i => y i v * (ppval dp "left" i v - wd i v))) ->
  forall n, (n < N)%nat -> Rabs (Sum (f_nx f) (fun i => y i (node t (n + 1)) * (at_m (io_xf out) i n - xs i (node t (n + 1))))) <= 2 * (node t (n + 1) - node t 0) * eps.
Proof.
  unfold integrate_. destruct (integrator_ rf nan cspts f t order method g x0 z0 u p) as [out'|] eqn:Ei; [|discriminate]. cbn [rbind negb].
  destruct (integrator_outputs cspts f t order method tau g HP HL HD HT Hsq rf nan x0 z0 u p Hu Hp out' Hrf Ei) as (s & A & b & HV & Es & HR & HC & X0 & _ & Hxf & _). rewrite Es. cbn [rbind].
  destruct (piecewise_X s (io_x out') (io_K out')) as [pp'|] eqn:Epp; [|discriminate]. cbn [rbind]. intros [= -> ->] Edp HW HY HAd HDt HO Hk Heps HN n Hn.
  destruct (eqs_zero cspts f t order method tau g HP HL HD HT u p _ _ _ s A b HV Es HR HC) as (e & Ee & Hz).
  pose proof (grid_error cspts f t order method tau g false HP HL HD HT HA _ _ _ u p HV s e Es Ee Hz HU xd xs us pv HF HC1 pp dp Epp Edp wd wz HW y yd HY HAd HDt k HO Hk eps Heps HN (n + 1)%nat ltac:(lia)) as G.
  assert (W0 : weighted f t y xs (io_x out) 0 = 0) by (unfold weighted; apply Sum_0; intros i Hi; rewrite X0, E0 by exact Hi; ring). rewrite W0, Rminus_0_r in G. unfold weighted in G.
  rewrite (Sum_ext _ _ (fun i => y i (node t (n + 1)) * (at_m (io_x out) i (n + 1) - xs i (node t (n + 1))))); [exact G|]. intros i Hi. now rewrite Hxf.
Qed.
End Integrator.
