(** Examples for the solvability and the accuracy of collocation (C95, C96). *)
From Coq Require Import Reals Lra.
From Coquelicot Require Import Coquelicot.
From Verif Require Import PyBase IndexModel DMModel StructModel StructsModel IneqModel DaeModel NumModel NumInst PolynomialModel PiecewiseModel PdqModel SchemeModel
  PolySpec PdqSpec SchemeSpec PolyMath PolynomialBase PdqThms SchemeThms SchemeThms2 SchemeThms3 SchemeThms4 SchemeExamples OrderSpec OrderMath OrderThms OrderExamples ConvSpec ConvThms.
Open Scope R_scope.

(** ** [x' = a x, y' = a y] *)
Lemma lf_lip a : LipDae (lf a 0 0 a) (Rabs a).
Proof.
  intros v w Hv Hw _ e He i Hi. cbn in Hi. pose proof (Hv i Hi) as V. pose proof (Hw i Hi) as W. specialize (He i Hi).
  replace (a_xdot v i - a_xdot w i) with (a * (a_x v i - a_x w i)); [rewrite Rabs_mult; apply Rmult_le_compat_l; [apply Rabs_pos|exact He]|]. destruct i as [|[|i]]; [| |lia]; cbn in V, W; lra.
Qed.
Lemma lf_res a : Resolvable (lf a 0 0 a) (fun v i => a * a_x v i) (fun _ _ => 0).
Proof. intros v r Hr. cbn in Hr. destruct r as [|[|r]]; [| |lia]; cbn; ring. Qed.
(** One point [c]: the stage coefficient is [c], the weight is 1. *)
Lemma one_rk c : RungeKutta [c] (fun _ _ => c) (fun _ => 1).
Proof.
  intros q (l & Hl & Hq). assert (exists a, forall s, q s = a) as (a & Ha). { destruct l as [|a [|]]; [exists 0|exists a|simpl in Hl; lia]; intros s; rewrite Hq; simpl; ring. }
  assert (I1 : forall z, is_RInt q 0 z (z * a)). { intros z. apply (int_ext (fun _ => a)); [intros; now rewrite Ha|]. evar_last; [apply (is_RInt_const (V := R_CompleteNormedModule) 0 z a)|unfold scal; simpl; unfold mult; simpl; ring]. }
  split; [intros i Hi; simpl in Hi; assert (i = 0%nat) as -> by lia|]; (evar_last; [apply I1|]); unfold node; simpl; rewrite Ha; ring.
Qed.
Lemma euler_bound : CoefBound [1] 1.
Proof. exists (fun _ _ => 1), (fun _ => 1). split; [apply one_rk|]. simpl. rewrite Rabs_R1. split; [intros|]; lra. Qed.
Lemma midpoint_bound : CoefBound [1 / 2] 1.
Proof. exists (fun _ _ => 1 / 2), (fun _ => 1). split; [apply one_rk|]. simpl. rewrite Rabs_R1, Rabs_pos_eq by lra. split; [intros|]; lra. Qed.
Lemma step01 n : (n < ivals [0; 1]%R)%nat -> n = 0%nat /\ step [0; 1] n = 1.
Proof. intros Hn. assert (n = 0%nat) as -> by (unfold ivals in Hn; simpl in Hn; lia). split; [reflexivity|]. unfold step, node. simpl. lra. Qed.
Lemma quarter : Rabs (-1 / 4) = 1 / 4. Proof. rewrite Rabs_left by lra. lra. Qed.
Lemma short_quarter : ShortSteps [0; 1] 1 (Rabs (-1 / 4)).
Proof. rewrite quarter. split; [lra|]. intros n Hn. rewrite (proj2 (step01 n Hn)). lra. Qed.

(** [x' = - x / 4]: each step of implicit Euler has a solution, whatever the initial state. *)
Notation qf := (lf (-1 / 4) 0 0 (-1 / 4)).
Example exists_ex x0 : exists x K Z s e, VarsOk qf 1 1 false x K Z (non 1) (non 1) /\ (forall i, (i < 2)%nat -> at_m x i 0 = x0 i) /\
  scheme_ (lpts 1) qf [0; 1] 1 "m" None false x K Z (non 1) (non 1) = Ok s /\ veccat_master (sc_eq s) = Ok e /\ forall v, In v e -> v = 0.
Proof. apply (solution_exists (lpts 1) qf [0; 1] 1 "m" [1] None false (lpts_ok 1) lt_len (lf_ok _ _ _ _) eq_refl lt_asc 1 _ euler_bound short_quarter (lf_lip _) _ _ _ _ _ (lf_res _)); [split; reflexivity|split; reflexivity|discriminate]. Qed.
(** It is the one from (1, 2) to (4/5, 8/5). *)
Example unique_ex x K Z s e : VarsOk qf 1 1 false x K Z (non 1) (non 1) -> at_m x 0 0 = 1 -> at_m x 1 0 = 2 ->
  scheme_ (lpts 1) qf [0; 1] 1 "m" None false x K Z (non 1) (non 1) = Ok s -> veccat_master (sc_eq s) = Ok e -> (forall v, In v e -> v = 0) -> at_m x 0 1 = 4 / 5 /\ at_m x 1 1 = 8 / 5.
Proof.
  intros HV X0 X1 Es Ee Hz. destruct (lstep 1 (-1 / 4) 0 0 (-1 / 4) 1 2 (4 / 5) (8 / 5) (-1 / 5) (-2 / 5)) as (s' & e' & Es' & Ee' & Hz'); try lra.
  destruct (solution_unique (lpts 1) qf [0; 1] 1 "m" [1] None false (lpts_ok 1) lt_len (lf_ok _ _ _ _) eq_refl lt_asc 1 _ euler_bound short_quarter (lf_lip _) x K Z (non 1) (non 1) _ _ _ HV (lvars _ _ _ _ _ _ _ _ _ _) s s' e e' Es Ee Hz Es' Ee' Hz') as (U & _).
  - intros i Hi. cbn in Hi. destruct i as [|[|i]]; [exact X0|exact X1|lia].
  - rewrite (U 1%nat 0%nat), (U 1%nat 1%nat) by (unfold ivals; cbn; lia). split; reflexivity.
Qed.

(** The true solution *)
Definition qs (i : nat) (s : R) : R := vec 1 2 i * exp (- (s / 4)).
Definition qd (i : nat) (s : R) : R := - (vec 1 2 i * exp (- (s / 4)) / 4).
Lemma qs_solves : SolvesDae qf [0; 1] qd qs ez ez (fun _ => 0) None.
Proof. intros s r _ Hr. cbn in Hr. destruct r as [|[|r]]; [| |lia]; cbn; unfold qd, qs; simpl vec; field. Qed.
Lemma qs_close i : (i < 2)%nat -> Close [0; 1] 1 (1 / 8) (qs i) (qd i).
Proof.
  intros Hi n Hn. destruct (step01 n Hn) as [-> _]. unfold node. simpl. split.
  - intros s Hs. apply (is_RInt_derive (V := R_CompleteNormedModule) (qs i) (qd i)).
    + intros z _. unfold qs, qd. auto_derive; [exact I|]. unfold Rdiv. ring.
    + intros z _. unfold qd. apply (ex_derive_continuous (K := R_AbsRing) (V := R_NormedModule)). auto_derive. exact I.
  - exists (fun _ => - (vec 1 2 i / 4)). split; [apply PolyLt_const|]. intros s Hs. unfold qd.
    pose proof (exp_ineq1_le (- (s / 4))) as E1. pose proof (exp_increasing (- (s / 4)) 0 ltac:(lra)) as E2. rewrite exp_0 in E2.
    assert (0 <= vec 1 2 i <= 2) by (destruct i as [|[|]]; simpl; lra || lia). set (w := exp _) in *. replace (_ - _) with (vec 1 2 i / 4 * (1 - w)) by field. rewrite Rabs_pos_eq by nra. nra.
Qed.
(** Both components at time 1 are within [exp (1/2) / 4] of the true ones. *)
Example error_ex x K Z s e : VarsOk qf 1 1 false x K Z (non 1) (non 1) -> at_m x 0 0 = 1 -> at_m x 1 0 = 2 ->
  scheme_ (lpts 1) qf [0; 1] 1 "m" None false x K Z (non 1) (non 1) = Ok s -> veccat_master (sc_eq s) = Ok e -> (forall v, In v e -> v = 0) ->
  Rabs (at_m x 0 1 - exp (- (1 / 4))) <= exp (1 / 2) / 4.
Proof.
  intros HV X0 X1 Es Ee Hz.
  destruct (error_bound (lpts 1) qf [0; 1] 1 "m" [1] None false (lpts_ok 1) lt_len (lf_ok _ _ _ _) eq_refl lt_asc 1 _ euler_bound short_quarter (lf_lip _) x K Z (non 1) (non 1) HV s e Es Ee Hz) with (D := 1 / 8) (d := 0) (xd := qd) (xs := qs) (zs := ez) (us := ez) (pv := fun _ : nat => 0) as [B _].
  - intros j Hj. simpl in Hj. assert (j = 0%nat) as -> by lia. unfold node. simpl. lra.
  - lra.
  - lra.
  - exact qs_solves.
  - split; cbn; intros; lia.
  - exact qs_close.
  - intros i Hi. cbn in Hi. unfold qs, node. simpl. replace (- (0 / 4)) with 0 by field. rewrite exp_0. destruct i as [|[|i]]; [rewrite X0|rewrite X1|lia]; simpl; (replace (_ - _) with 0 by ring); rewrite Rabs_R0; lra.
  - specialize (B 1%nat 0%nat ltac:(unfold ivals; cbn; lia) ltac:(cbn; lia)). unfold qs in B. rewrite quarter in B. unfold node in B. simpl in B. rewrite Rmult_1_l in B. eapply Rle_trans; [exact B|]. replace (2 * 1 * (1 / 4) * (1 - 0)) with (1 / 2) by field. pose proof (exp_pos (1 / 2)). nra.
Qed.

(** ** Steps that are not short *)
(** [x' = x, y' = y] by implicit Euler with a step of 1: from (1, 1) there is no solution, and
    from (0, 0) more than one. [step * alpha * L] is 1 here. *)
Theorem long_steps_refuted : LipDae (lf 1 0 0 1) 1 /\ CoefBound [1] 1 /\ Resolvable (lf 1 0 0 1) (fun v i => 1 * a_x v i) (fun _ _ => 0) /\
  (forall x K Z s e, VarsOk (lf 1 0 0 1) 1 1 false x K Z (non 1) (non 1) -> at_m x 0 0 = 1 -> scheme_ (lpts 1) (lf 1 0 0 1) [0; 1] 1 "m" None false x K Z (non 1) (non 1) = Ok s ->
     veccat_master (sc_eq s) = Ok e -> ~ forall v, In v e -> v = 0) /\
  (forall k, exists s e, lsch 1 1 0 0 1 0 0 k k k k = Ok s /\ veccat_master (sc_eq s) = Ok e /\ forall v, In v e -> v = 0).
Proof.
  split; [pose proof (lf_lip 1) as H; now rewrite Rabs_R1 in H|]. split; [exact euler_bound|]. split; [apply lf_res|]. split.
  - intros x K Z s e HV X0 Es Ee Hz. destruct (main_eqs (lpts 1) (lf 1 0 0 1) [0; 1] 1 "m" [1] None false x K Z (non 1) (non 1) (lpts_ok 1) lt_len (lf_ok _ _ _ _) eq_refl HV s e Es Ee Hz) as (A & b & HR & (HC & _) & _).
    assert (H0 : (0 < ivals [0; 1]%R)%nat) by (unfold ivals; simpl; lia). specialize (HC 0%nat 0%nat 0%nat H0 ltac:(lia) ltac:(cbn; lia)). cbn in HC. unfold stage_x in HC. rewrite (proj2 (step01 0%nat H0)) in HC. cbn in HC.
    pose proof (rk_unique [1] A b _ _ (nd1 1) HR (one_rk 1)) as U. rewrite (proj2 (U 0%nat ltac:(simpl; lia)) 0%nat ltac:(simpl; lia)), X0 in HC. lra.
  - intros k. apply lstep; lra.
Qed.

(** ** An integrator *)
Example integrator_unique_ex rf nan z0 rf' nan' z0' out out' : RootFinder rf -> RootFinder rf' ->
  integrator_ rf nan (lpts 1) qf [0; 1] 1 "m" None (vec 1 2) z0 (non 1) (non 1) = Ok out -> integrator_ rf' nan' (lpts 1) qf [0; 1] 1 "m" None (vec 1 2) z0' (non 1) (non 1) = Ok out' -> at_m (io_xf out) 0 0 = at_m (io_xf out') 0 0.
Proof.
  intros Hrf Hrf' E E'. refine (proj1 (integrator_unique (lpts 1) qf [0; 1] 1 "m" [1] None (lpts_ok 1) lt_len (lf_ok _ _ _ _) eq_refl eq_refl lt_asc 1 _ euler_bound short_quarter (lf_lip _) (vec 1 2) (non 1) (non 1) _ _ rf nan z0 out rf' nan' z0' out' Hrf Hrf' E E') 0%nat 0%nat _ _); try (split; reflexivity); unfold ivals; cbn; lia.
Qed.
Example integrator_error_ex rf nan z0 out : RootFinder rf -> integrator_ rf nan (lpts 1) qf [0; 1] 1 "m" None (vec 1 2) z0 (non 1) (non 1) = Ok out -> Rabs (at_m (io_xf out) 0 0 - exp (- (1 / 4))) <= exp (1 / 2) / 4.
Proof.
  intros Hrf E. unshelve epose proof (integrator_error (lpts 1) qf [0; 1] 1 "m" [1] None (lpts_ok 1) lt_len (lf_ok _ _ _ _) eq_refl eq_refl lt_asc 1 _ euler_bound short_quarter (lf_lip _) (vec 1 2) (non 1) (non 1) _ _ rf nan z0 out (1 / 8) qd qs ez ez (fun _ => 0) _ _ Hrf E qs_solves _ qs_close _ 0%nat 0%nat _ _) as B; try (split; reflexivity); try (unfold ivals; cbn; lia).
  - intros j Hj. simpl in Hj. assert (j = 0%nat) as -> by lia. unfold node. simpl. lra.
  - lra.
  - intros i Hi. unfold qs, node. simpl. replace (- (0 / 4)) with 0 by field. rewrite exp_0. ring.
  - unfold qs in B. rewrite quarter in B. unfold node in B. simpl in B. rewrite Rmult_1_l in B. eapply Rle_trans; [exact B|]. replace (2 * 1 * (1 / 4) * (1 - 0)) with (1 / 2) by field. pose proof (exp_pos (1 / 2)). nra.
Qed.
