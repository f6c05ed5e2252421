(** Dependence of collocation on its inputs: solutions and near solutions (C113). *)
From Coq Require Import Reals Lra.
From Coquelicot Require Import Coquelicot.
From Verif Require Import PyBase IndexModel DMModel DMProofs StructModel StructSpec PowerModel EntryModel StructsModel IneqModel DaeModel StructsSpec StructsThms11 NumModel NumInst NumSpec PolynomialModel PiecewiseModel PdqModel SchemeModel
  PolySpec PiecewiseSpec PdqSpec SchemeSpec PolyMath PolynomialBase PolynomialThms PolynomialThms2 PiecewiseThms PdqThms PdqThms2 SchemeThms SchemeThms2 SchemeThms3 SchemeThms4 SchemeThms5 OrderSpec OrderMath OrderThms ConvSpec ConvThms GridSpec GridThms StiffThms MonoSpec MonoThms MonoThms2 MonoThms3 MonoThms4 DissSpec DissThms DissThms2 DissThms3 SensSpec.
Open Scope R_scope.

Section Grid.
Context (tau : list R) (A : nat -> nat -> R) (b : nat -> R) (M m : nat) (S_ : nat -> nat -> R).
Context (HM : length tau = M) (H1 : (1 <= M)%nat) (Hd : NoDup tau) (HR : RungeKutta tau A b) (HS : PosDef m S_) (HG : GaussRadau tau).
Notation dst x y n := (norm m S_ (fun i => at_m x i n - y n%nat i)).
(** [y], [c]: states on the grid and stages that satisfy the equations up to [step * D] *)
Lemma grid_near : exists C, 0 <= C /\ forall f t rep g x K Z u p nu L G H D y c, f_nx f = m -> Asc t -> CollocationEqs f t tau M A b rep g x K Z u p -> OneSided f S_ nu -> MildSteps t nu -> Resolvable f G H -> LipDae f L -> 0 <= D ->
  (forall n j, (n < ivals t)%nat -> (j < M)%nat -> Solves f (c n j) /\ SameInput f (stage t tau M A rep g x K Z u p n j) (c n j)) ->
  (forall n i, (n < ivals t)%nat -> (i < m)%nat -> (forall j, (j < M)%nat -> Rabs (y n i + step t n * Sum M (fun l => A j l * a_xdot (c n l) i) - a_x (c n j) i) <= step t n * D) /\
    Rabs (y n i + step t n * Sum M (fun l => b l * a_xdot (c n l) i) - y (n + 1)%nat i) <= step t n * D) ->
  (forall n, (n <= ivals t)%nat -> dst x y n <= exp (C * nu * (node t n - node t 0)) * (dst x y 0%nat + (node t n - node t 0) * (C * D))) /\
  (forall n j i, (n < ivals t)%nat -> (j < M)%nat -> (i < m)%nat -> Rabs (stage_x t M A x K n j i - a_x (c n j) i) <= C * (exp (C * nu * (node t n - node t 0)) * (dst x y 0%nat + (node t (n + 1) - node t 0) * (C * D)))).
Proof.
  pose proof (gr_inside tau HG) as HU. destruct (gr_coercive tau A b M HM H1 Hd HR HG) as (Hz & al & d & Hco & Hal). pose proof (posdef_psd _ _ HS) as HP.
  destruct (stage_const tau A b M m S_ HM H1 Hd HR HS HG) as (Cs & HCs & Bs). destruct (growth_const tau A b M m S_ HM H1 Hd HR HS HG) as (Cg & HCg & Bg). destruct (local_const tau A b M m S_ HM H1 Hd HR HS HG) as (Cl & HCl & Bl). destruct (norm_each m S_ HS) as (Ci & HCi & Bi).
  assert (P2 : 0 <= Cs * Ci) by now apply Rmult_le_pos.
  set (C := 1 + Cg + Cl + Cs * Ci + Cs). assert (HC : 1 <= C) by (unfold C; lra). exists C. split; [lra|].
  intros f t rep g x K Z u p nu L G H D y c Em HA HCo HO [Hnu Hms] HRes Lip HD Sc0 Df.
  set (st n j := stage t tau M A rep g x K Z u p n j).
  assert (Sc : forall n j, (n < ivals t)%nat -> (j < M)%nat -> Solves f (st n j) /\ Solves f (c n j) /\ SameInput f (st n j) (c n j)).
  { intros n j Hn Hj. destruct (Sc0 n j Hn Hj) as [S1 S2]. split; [apply (stage_fed f t tau M A b rep g x K Z u p HCo n j Hn Hj)|]. now split. }
  
  pose proof HD as HDd.
  assert (Fst : forall n, (n < ivals t)%nat -> From A M m (step t n) (fun i => at_m x i n) (st n)) by (intros n Hn j i Hj Hi; reflexivity).
  assert (Step : forall n, (n < ivals t)%nat -> dst x y (n + 1)%nat <= (1 + Cg * (step t n * nu)) * dst x y n + Cl * (step t n * (D))).
  { intros n Hn. pose proof (step_pos t n HA Hn) as Hh. specialize (Hms n Hn) as Hsn. set (h := step t n) in *. set (y0 := y n).
    set (ar := fun j (v : nat -> R) => DArgs (fun _ => 0) v (fun _ => 0) (a_u (st n j)) (a_p (st n j)) (a_t (st n j)) (a_tdp (st n j))).
    destruct (step_solvable tau A b M m S_ al nu L h d y0 (fun j v => G (ar j v)) HM Hd Hz HR HS Hco Hh ltac:(lra)) as (k & Hk).
    - intros j v w Hj. pose proof (HO _ _ (HRes (ar j v)) (HRes (ar j w)) ltac:(repeat split; intros; reflexivity)) as B. rewrite Em in B. exact B.
    - intros j v w e Hj Hv. pose proof (Lip _ _ (HRes (ar j v)) (HRes (ar j w)) ltac:(repeat split; intros; reflexivity) e) as B. rewrite Em in B. exact (B Hv).
    - set (v := fun j i => y0 i + h * Sum M (fun l => A j l * k l i)). set (a := fun j => DArgs (G (ar j (v j))) (v j) (H (ar j (v j))) (a_u (st n j)) (a_p (st n j)) (a_t (st n j)) (a_tdp (st n j))).
      assert (Sa : forall j, (j < M)%nat -> Solves f (a j)) by (intros j Hj; exact (HRes (ar j (v j)))).
      assert (Pr1 : Pair M m f (st n) a) by (split; [exact Em|]; intros j Hj; split; [now apply Sc|]; split; [now apply Sa|repeat split; intros; reflexivity]).
      assert (Pr2 : Pair M m f a (c n)) by (split; [exact Em|]; intros j Hj; split; [now apply Sa|]; split; [now apply Sc|]; destruct (Sc n j Hn Hj) as (_ & _ & SI); exact SI).
      assert (Fa : From A M m h y0 a). { intros j i Hj Hi. cbn [a a_x a_xdot]. unfold v at 1. do 2 f_equal. apply Sum_ext. intros l Hl. f_equal. symmetry. now apply Hk. }
      pose proof (Bg f nu h (st n) a (fun i => at_m x i n) y0 Pr1 HO Hnu (Rlt_le _ _ Hh) Hsn (Fst n Hn) Fa) as B1.
      pose proof (Bl f nu h a (c n) y0 (y (n + 1)%nat) (h * (D)) Pr2 HO Hnu (Rlt_le _ _ Hh) Hsn (Rmult_le_pos _ _ (Rlt_le _ _ Hh) HDd) Fa (fun j i Hj Hi => proj1 (Df n i Hn Hi) j Hj) (fun i Hi => proj2 (Df n i Hn Hi))) as B2.
      set (e1 := fun i => y0 i + h * Sum M (fun l => b l * a_xdot (a l) i)) in *.
      eapply Rle_trans; [|apply Rplus_le_compat; [exact B1|exact B2]]. eapply Rle_trans; [|apply norm_triangle; exact HP]. apply Req_le. apply norm_ext. intros i Hi. destruct HCo as (_ & C2 & _). rewrite <- (C2 n i Hn ltac:(lia)). fold h. unfold e1, st. cbn [stage a_xdot]. ring. }
  assert (Gr : forall n, (n <= ivals t)%nat -> dst x y n <= exp (C * nu * (node t n - node t 0)) * (dst x y 0%nat + (node t n - node t 0) * (C * D))).
  { induction n as [|n IH]; intros Hn; [rewrite Rminus_eq_0, Rmult_0_r, exp_0; lra|]. specialize (IH ltac:(lia)). specialize (Step n ltac:(lia)). replace (S n) with (n + 1)%nat by lia. pose proof (step_pos t n HA ltac:(lia)) as Hh. pose proof (proj1 (bounds_in t n HA ltac:(lia))) as Ht.
    set (E := dst x y n) in *. set (E0 := dst x y 0%nat) in *. assert (HE0 : 0 <= E0) by apply norm_pos. assert (HE : 0 <= E) by apply norm_pos. set (h := step t n) in *. set (T := node t n - node t 0) in *.
    replace (node t (n + 1) - node t 0) with (T + h) by (unfold T, h, step; ring). rewrite (Rmult_plus_distr_l (C * nu)), exp_plus. set (X := exp (C * nu * T)) in *. assert (HX : 1 <= X) by (eapply Rle_trans; [|apply exp_1_le]; assert (0 <= C * nu * T) by (repeat apply Rmult_le_pos; unfold T; lra); lra).
    assert (HY : 1 + Cg * (h * nu) <= exp (C * nu * h)). { eapply Rle_trans; [|apply exp_1_le]. assert (0 <= h * nu) by (apply Rmult_le_pos; lra). assert (Cg * (h * nu) <= C * (h * nu)) by (apply Rmult_le_compat_r; [assumption|unfold C; lra]). lra. }
    assert (HY1 : 1 <= exp (C * nu * h)) by (assert (0 <= Cg * (h * nu)) by (repeat apply Rmult_le_pos; lra); lra). set (Y := exp (C * nu * h)) in *.
    assert (HL2 : Cl * (h * (D)) <= h * (C * D)). { replace (Cl * (h * (D))) with (h * (Cl * D)) by ring. apply Rmult_le_compat_l; [lra|]. apply Rmult_le_compat_r; [exact HD|unfold C; lra]. }
    assert (0 <= h * (C * D)) by (repeat apply Rmult_le_pos; lra). assert (0 <= T * (C * D)) by (repeat apply Rmult_le_pos; unfold T; lra). set (R0 := E0 + T * (C * D)) in *. assert (HR0 : 0 <= R0) by (unfold R0; lra).
    assert (B1 : (1 + Cg * (h * nu)) * E <= Y * (X * R0)) by (apply Rmult_le_compat; [assert (0 <= Cg * (h * nu)) by (repeat apply Rmult_le_pos; lra); lra|exact HE|exact HY|exact IH]).
    assert (B2 : h * (C * D) <= X * Y * (h * (C * D))). { rewrite <- (Rmult_1_l (h * (C * D))) at 1. apply Rmult_le_compat_r; [assumption|]. nra. }
    replace (E0 + (T + h) * (C * D)) with (R0 + h * (C * D)) by (unfold R0; ring). lra. }
  split; [exact Gr|]. intros n j i Hn Hj Hi. specialize (Gr n ltac:(lia)). pose proof (step_pos t n HA Hn) as Hh. specialize (Hms n Hn) as Hsn. pose proof (proj1 (bounds_in t n HA Hn)) as Ht. set (E := dst x y n) in *. set (E0 := dst x y 0%nat) in *. assert (HE : 0 <= E) by apply norm_pos.
  assert (Pr : Pair M m f (st n) (c n)) by (split; [exact Em|]; intros j' Hj'; now apply Sc).
  assert (Bst : Rabs (stage_x t M A x K n j i - a_x (c n j) i) <= Cs * (Ci * E + step t n * (D))).
  { apply (Bs f nu (step t n) (st n) (c n) (fun i => at_m x i n) (Ci * E + step t n * (D)) Pr HO Hnu (Rlt_le _ _ Hh) Hsn); [apply Rplus_le_le_0_compat; apply Rmult_le_pos; lra|now apply Fst| |exact Hj|exact Hi].
    intros j' i' Hj' Hi'. destruct (Df n i' Hn Hi') as [Df1 _]. specialize (Df1 j' Hj'). pose proof (Bi (fun i => at_m x i n - y n i) i' Hi') as B. cbv beta in B. fold E in B. 
    replace (at_m x i' n + step t n * Sum M (fun l => A j' l * a_xdot (c n l) i') - a_x (c n j') i') with ((at_m x i' n - y n i') + (y n i' + step t n * Sum M (fun l => A j' l * a_xdot (c n l) i') - a_x (c n j') i')) by ring. eapply Rle_trans; [apply Rabs_triang|]. lra. }
  eapply Rle_trans; [exact Bst|]. set (h := step t n) in *. set (T := node t n - node t 0) in *. replace (node t (n + 1) - node t 0) with (T + h) by (unfold T, h, step; ring). set (X := exp (C * nu * T)) in *. assert (HX : 1 <= X) by (eapply Rle_trans; [|apply exp_1_le]; assert (0 <= C * nu * T) by (repeat apply Rmult_le_pos; unfold T; lra); lra).
  assert (HhD : 0 <= h * D) by (apply Rmult_le_pos; lra).
  assert (B1 : Cs * (Ci * E) <= C * E) by (rewrite <- Rmult_assoc; apply Rmult_le_compat_r; [exact HE|unfold C; lra]). assert (B2 : Cs * (h * (D)) <= C * (h * D)). { replace (Cs * (h * (D))) with (Cs * (h * D)) by ring. apply Rmult_le_compat_r; [exact HhD|unfold C; lra]. }
  apply Rle_trans with (C * (E + h * D)); [lra|]. apply Rmult_le_compat_l; [lra|]. replace (X * (E0 + (T + h) * (C * D))) with (X * (E0 + T * (C * D)) + X * C * (h * D)) by ring. apply Rplus_le_compat; [exact Gr|]. rewrite <- (Rmult_1_l (h * D)) at 1. apply Rmult_le_compat_r; [exact HhD|]. nra.
Qed.
End Grid.
