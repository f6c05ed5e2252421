(** Errors that do not depend on stiffness: grids (C109). *)
From Coq Require Import Reals Lra.
From Coquelicot Require Import Coquelicot.
From Verif Require Import PyBase IndexModel DMModel DMProofs StructModel StructSpec PowerModel EntryModel StructsModel IneqModel DaeModel StructsSpec StructsThms11 NumModel NumInst NumSpec PolynomialModel PiecewiseModel PdqModel SchemeModel
  PolySpec PiecewiseSpec PdqSpec SchemeSpec PolyMath PolynomialBase PolynomialThms PolynomialThms2 PiecewiseThms PdqThms PdqThms2 SchemeThms SchemeThms2 SchemeThms3 SchemeThms4 SchemeThms5 OrderSpec OrderMath OrderThms ConvSpec ConvThms GridSpec GridThms StiffThms MonoSpec MonoThms MonoThms2 MonoThms3 MonoThms4 DissSpec DissThms DissThms2.
Open Scope R_scope.

Lemma exp_1_le v : 1 + v <= exp v.
Proof. exact (exp_ineq1_le v). Qed.

Section Grid.
Context (tau : list R) (A : nat -> nat -> R) (b : nat -> R) (M m : nat) (S_ : nat -> nat -> R).
Context (HM : length tau = M) (H1 : (1 <= M)%nat) (Hd : NoDup tau) (HR : RungeKutta tau A b) (HS : PosDef m S_) (HG : GaussRadau tau).
Notation err x xs t n := (norm m S_ (fun i => at_m x i n - xs i (node t n))).
Lemma grid_const : exists C, 0 <= C /\ forall f t rep g x K Z u p nu L G H D xd xs zs us pv, f_nx f = m -> Asc t -> CollocationEqs f t tau M A b rep g x K Z u p -> OneSided f S_ nu -> MildSteps t nu -> Resolvable f G H -> LipDae f L -> 0 <= D ->
  SolvesDae f t xd xs zs us pv g -> FedBy f t u p us pv -> (forall i, (i < m)%nat -> Close t M D (xs i) (xd i)) ->
  (forall n, (n <= ivals t)%nat -> err x xs t n <= exp (C * nu * (node t n - node t 0)) * (err x xs t 0%nat + (node t n - node t 0) * (C * D))) /\
  (forall n j i, (n < ivals t)%nat -> (j < M)%nat -> (i < m)%nat -> Rabs (stage_x t M A x K n j i - xs i (stage_t t tau n j)) <= C * (exp (C * nu * (node t n - node t 0)) * (err x xs t 0%nat + (node t (n + 1) - node t 0) * (C * D)))).
Proof.
  pose proof (gr_inside tau HG) as HU. destruct (gr_coercive tau A b M HM H1 Hd HR HG) as (Hz & al & d & Hco & Hal). pose proof (posdef_psd _ _ HS) as HP.
  destruct (stage_const tau A b M m S_ HM H1 Hd HR HS HG) as (Cs & HCs & Bs). destruct (growth_const tau A b M m S_ HM H1 Hd HR HS HG) as (Cg & HCg & Bg). destruct (local_const tau A b M m S_ HM H1 Hd HR HS HG) as (Cl & HCl & Bl). destruct (norm_each m S_ HS) as (Ci & HCi & Bi).
  set (ac := Sum M (fun j => Sum M (fun l => Rabs (A j l))) + Sum M (fun l => Rabs (b l))).
  assert (HA0 : 0 <= Sum M (fun j => Sum M (fun l => Rabs (A j l)))) by (apply sum_pos; intros; apply sum_pos; intros; apply Rabs_pos). assert (Hb0 : 0 <= Sum M (fun l => Rabs (b l))) by (apply sum_pos; intros; apply Rabs_pos).
  assert (Hac : 0 <= ac) by (unfold ac; lra). assert (BA : forall j, (j < M)%nat -> Sum M (fun l => Rabs (A j l)) <= ac). { intros j Hj. pose proof (sum_each M (fun j => Sum M (fun l => Rabs (A j l))) j ltac:(intros; apply sum_pos; intros; apply Rabs_pos) Hj) as B. cbv beta in B. unfold ac. lra. }
  assert (Bb : Sum M (fun l => Rabs (b l)) <= ac) by (unfold ac; lra).
  assert (P1 : 0 <= Cl * (1 + ac)) by (apply Rmult_le_pos; lra). assert (P2 : 0 <= Cs * Ci) by now apply Rmult_le_pos. assert (P3 : 0 <= Cs * (1 + ac)) by (apply Rmult_le_pos; lra).
  set (C := 1 + Cg + Cl * (1 + ac) + Cs * Ci + Cs * (1 + ac)). assert (HC : 1 <= C) by (unfold C; lra). exists C. split; [lra|].
  intros f t rep g x K Z u p nu L G H D xd xs zs us pv Em HA HCo HO [Hnu Hms] HRes Lip HD HSol [F1 F2] HCl'.
  set (c n j := dae_at xd xs zs us pv g (stage_t t tau n j)). set (st n j := stage t tau M A rep g x K Z u p n j).
  assert (Sc : forall n j, (n < ivals t)%nat -> (j < M)%nat -> Solves f (st n j) /\ Solves f (c n j) /\ SameInput f (st n j) (c n j)).
  { intros n j Hn Hj. pose proof (stage_in t tau n j HA HU Hn ltac:(lia)) as Hin. pose proof (bounds_in t n HA Hn). destruct (stage_fed f t tau M A b rep g x K Z u p HCo n j Hn Hj) as [Sa (n' & _ & _ & Q2)]. split; [exact Sa|]. split; [intros r Hr; apply HSol; [lra|exact Hr]|].
    split; [intros i Hi; cbn; symmetry; now apply F1|]. split; [intros i Hi; unfold st; rewrite Q2 by exact Hi; cbn; now rewrite F2|]. split; [reflexivity|intros; reflexivity]. }
  assert (Df := fun n i Hn Hi => defect t tau M ac D A b (xs i) (xd i) n HA HU HM HD HR BA Bb (HCl' i Hi) Hn).
  assert (HDd : 0 <= (1 + ac) * D) by (apply Rmult_le_pos; lra).
  assert (Fst : forall n, (n < ivals t)%nat -> From A M m (step t n) (fun i => at_m x i n) (st n)) by (intros n Hn j i Hj Hi; reflexivity).
  assert (Step : forall n, (n < ivals t)%nat -> err x xs t (n + 1)%nat <= (1 + Cg * (step t n * nu)) * err x xs t n + Cl * (step t n * ((1 + ac) * D))).
  { intros n Hn. pose proof (step_pos t n HA Hn) as Hh. specialize (Hms n Hn) as Hsn. set (h := step t n) in *. set (y0 := fun i => xs i (node t n)).
    set (ar := fun j (v : nat -> R) => DArgs (fun _ => 0) v (fun _ => 0) (a_u (st n j)) (a_p (st n j)) (a_t (st n j)) (a_tdp (st n j))).
    destruct (step_solvable tau A b M m S_ al nu L h d y0 (fun j v => G (ar j v)) HM Hd Hz HR HS Hco Hh ltac:(lra)) as (k & Hk).
    - intros j v w Hj. pose proof (HO _ _ (HRes (ar j v)) (HRes (ar j w)) ltac:(repeat split; intros; reflexivity)) as B. rewrite Em in B. exact B.
    - intros j v w e Hj Hv. pose proof (Lip _ _ (HRes (ar j v)) (HRes (ar j w)) ltac:(repeat split; intros; reflexivity) e) as B. rewrite Em in B. exact (B Hv).
    - set (v := fun j i => y0 i + h * Sum M (fun l => A j l * k l i)). set (a := fun j => DArgs (G (ar j (v j))) (v j) (H (ar j (v j))) (a_u (st n j)) (a_p (st n j)) (a_t (st n j)) (a_tdp (st n j))).
      assert (Sa : forall j, (j < M)%nat -> Solves f (a j)) by (intros j Hj; exact (HRes (ar j (v j)))).
      assert (Pr1 : Pair M m f (st n) a) by (split; [exact Em|]; intros j Hj; split; [now apply Sc|]; split; [now apply Sa|repeat split; intros; reflexivity]).
      assert (Pr2 : Pair M m f a (c n)) by (split; [exact Em|]; intros j Hj; split; [now apply Sa|]; split; [now apply Sc|]; destruct (Sc n j Hn Hj) as (_ & _ & SI); exact SI).
      assert (Fa : From A M m h y0 a). { intros j i Hj Hi. cbn [a a_x a_xdot]. unfold v at 1. do 2 f_equal. apply Sum_ext. intros l Hl. f_equal. symmetry. now apply Hk. }
      pose proof (Bg f nu h (st n) a (fun i => at_m x i n) y0 Pr1 HO Hnu (Rlt_le _ _ Hh) Hsn (Fst n Hn) Fa) as B1.
      pose proof (Bl f nu h a (c n) y0 (fun i => xs i (node t (n + 1))) (h * ((1 + ac) * D)) Pr2 HO Hnu (Rlt_le _ _ Hh) Hsn (Rmult_le_pos _ _ (Rlt_le _ _ Hh) HDd) Fa (fun j i Hj Hi => proj1 (Df n i Hn Hi) j Hj) (fun i Hi => proj2 (Df n i Hn Hi))) as B2.
      set (e1 := fun i => y0 i + h * Sum M (fun l => b l * a_xdot (a l) i)) in *.
      eapply Rle_trans; [|apply Rplus_le_compat; [exact B1|exact B2]]. eapply Rle_trans; [|apply norm_triangle; exact HP]. apply Req_le. apply norm_ext. intros i Hi. destruct HCo as (_ & C2 & _). rewrite <- (C2 n i Hn ltac:(lia)). fold h. unfold e1, st. cbn [stage a_xdot]. ring. }
  assert (Gr : forall n, (n <= ivals t)%nat -> err x xs t n <= exp (C * nu * (node t n - node t 0)) * (err x xs t 0%nat + (node t n - node t 0) * (C * D))).
  { induction n as [|n IH]; intros Hn; [rewrite Rminus_eq_0, Rmult_0_r, exp_0; lra|]. specialize (IH ltac:(lia)). specialize (Step n ltac:(lia)). replace (S n) with (n + 1)%nat by lia. pose proof (step_pos t n HA ltac:(lia)) as Hh. pose proof (proj1 (bounds_in t n HA ltac:(lia))) as Ht.
    set (E := err x xs t n) in *. set (E0 := err x xs t 0%nat) in *. assert (HE0 : 0 <= E0) by apply norm_pos. assert (HE : 0 <= E) by apply norm_pos. set (h := step t n) in *. set (T := node t n - node t 0) in *.
    replace (node t (n + 1) - node t 0) with (T + h) by (unfold T, h, step; ring). rewrite (Rmult_plus_distr_l (C * nu)), exp_plus. set (X := exp (C * nu * T)) in *. assert (HX : 1 <= X) by (eapply Rle_trans; [|apply exp_1_le]; assert (0 <= C * nu * T) by (repeat apply Rmult_le_pos; unfold T; lra); lra).
    assert (HY : 1 + Cg * (h * nu) <= exp (C * nu * h)). { eapply Rle_trans; [|apply exp_1_le]. assert (0 <= h * nu) by (apply Rmult_le_pos; lra). assert (Cg * (h * nu) <= C * (h * nu)) by (apply Rmult_le_compat_r; [assumption|unfold C; lra]). lra. }
    assert (HY1 : 1 <= exp (C * nu * h)) by (assert (0 <= Cg * (h * nu)) by (repeat apply Rmult_le_pos; lra); lra). set (Y := exp (C * nu * h)) in *.
    assert (HL2 : Cl * (h * ((1 + ac) * D)) <= h * (C * D)). { replace (Cl * (h * ((1 + ac) * D))) with (h * (Cl * (1 + ac) * D)) by ring. apply Rmult_le_compat_l; [lra|]. apply Rmult_le_compat_r; [exact HD|unfold C; lra]. }
    assert (0 <= h * (C * D)) by (repeat apply Rmult_le_pos; lra). assert (0 <= T * (C * D)) by (repeat apply Rmult_le_pos; unfold T; lra). set (R0 := E0 + T * (C * D)) in *. assert (HR0 : 0 <= R0) by (unfold R0; lra).
    assert (B1 : (1 + Cg * (h * nu)) * E <= Y * (X * R0)) by (apply Rmult_le_compat; [assert (0 <= Cg * (h * nu)) by (repeat apply Rmult_le_pos; lra); lra|exact HE|exact HY|exact IH]).
    assert (B2 : h * (C * D) <= X * Y * (h * (C * D))). { rewrite <- (Rmult_1_l (h * (C * D))) at 1. apply Rmult_le_compat_r; [assumption|]. nra. }
    replace (E0 + (T + h) * (C * D)) with (R0 + h * (C * D)) by (unfold R0; ring). lra. }
  split; [exact Gr|]. intros n j i Hn Hj Hi. specialize (Gr n ltac:(lia)). pose proof (step_pos t n HA Hn) as Hh. specialize (Hms n Hn) as Hsn. pose proof (proj1 (bounds_in t n HA Hn)) as Ht. set (E := err x xs t n) in *. set (E0 := err x xs t 0%nat) in *. assert (HE : 0 <= E) by apply norm_pos.
  assert (Pr : Pair M m f (st n) (c n)) by (split; [exact Em|]; intros j' Hj'; now apply Sc).
  assert (Bst : Rabs (stage_x t M A x K n j i - xs i (stage_t t tau n j)) <= Cs * (Ci * E + step t n * ((1 + ac) * D))).
  { apply (Bs f nu (step t n) (st n) (c n) (fun i => at_m x i n) (Ci * E + step t n * ((1 + ac) * D)) Pr HO Hnu (Rlt_le _ _ Hh) Hsn); [apply Rplus_le_le_0_compat; apply Rmult_le_pos; lra|now apply Fst| |exact Hj|exact Hi].
    intros j' i' Hj' Hi'. destruct (Df n i' Hn Hi') as [Df1 _]. specialize (Df1 j' Hj'). pose proof (Bi (fun i => at_m x i n - xs i (node t n)) i' Hi') as B. cbv beta in B. fold E in B. cbn [c dae_at a_x a_xdot].
    replace (at_m x i' n + step t n * Sum M (fun l => A j' l * xd i' (stage_t t tau n l)) - xs i' (stage_t t tau n j')) with ((at_m x i' n - xs i' (node t n)) + (xs i' (node t n) + step t n * Sum M (fun l => A j' l * xd i' (stage_t t tau n l)) - xs i' (stage_t t tau n j'))) by ring. eapply Rle_trans; [apply Rabs_triang|]. lra. }
  eapply Rle_trans; [exact Bst|]. set (h := step t n) in *. set (T := node t n - node t 0) in *. replace (node t (n + 1) - node t 0) with (T + h) by (unfold T, h, step; ring). set (X := exp (C * nu * T)) in *. assert (HX : 1 <= X) by (eapply Rle_trans; [|apply exp_1_le]; assert (0 <= C * nu * T) by (repeat apply Rmult_le_pos; unfold T; lra); lra).
  assert (HhD : 0 <= h * D) by (apply Rmult_le_pos; lra).
  assert (B1 : Cs * (Ci * E) <= C * E) by (rewrite <- Rmult_assoc; apply Rmult_le_compat_r; [exact HE|unfold C; lra]). assert (B2 : Cs * (h * ((1 + ac) * D)) <= C * (h * D)). { replace (Cs * (h * ((1 + ac) * D))) with (Cs * (1 + ac) * (h * D)) by ring. apply Rmult_le_compat_r; [exact HhD|unfold C; lra]. }
  apply Rle_trans with (C * (E + h * D)); [lra|]. apply Rmult_le_compat_l; [lra|]. replace (X * (E0 + (T + h) * (C * D))) with (X * (E0 + T * (C * D)) + X * C * (h * D)) by ring. apply Rplus_le_compat; [exact Gr|]. rewrite <- (Rmult_1_l (h * D)) at 1. apply Rmult_le_compat_r; [exact HhD|]. nra.
Qed.
End Grid.
