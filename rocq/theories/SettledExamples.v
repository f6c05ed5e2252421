(** Examples for schemes whose equations determine the solution (C110). *)
From Coq Require Import Reals Lra Lia List.
From Coquelicot Require Import Coquelicot.
From Verif Require Import PyBase IndexModel DMModel DMProofs StructModel StructSpec PowerModel EntryModel StructsModel IneqModel DaeModel StructsSpec StructsThms11 NumModel NumInst NumSpec PolynomialModel PiecewiseModel PdqModel SchemeModel
  PolySpec PiecewiseSpec PdqSpec SchemeSpec PolyMath PolynomialBase PolynomialThms PolynomialThms2 PiecewiseThms PdqThms PdqThms2 SchemeThms SchemeThms2 SchemeThms3 SchemeThms4 SchemeThms5 SchemeExamples OrderSpec OrderMath OrderThms OrderExamples ConvSpec ConvThms ConvExamples GridSpec GridThms GridExamples RevSpec RevThms RevThms2 RevExamples StiffSpec StiffThms StiffExamples
  MonoSpec MonoThms MonoThms2 MonoThms3 MonoThms4 MonoExamples SettledSpec SettledThms.
Import ListNotations.
Open Scope R_scope.

(** All examples have [x' = a x] with [a] = -1000 and steps of length 1 or 2: too long for C95, C98, C99, C106. *)
Lemma bf_settled_euler t a : a <= 0 -> Asc t -> Settled (bf a) t [1].
Proof.
  intros Ha HA. right. exists S1, a. split; [exact one_posdef|]. split; [apply bf_onesided|]. right. split; [apply ortho_0|]. split; [simpl; auto|]. intros n Hn. pose proof (step_pos t n HA Hn). nra.
Qed.
Lemma bf_settled_mid t a : a <= 0 -> Asc t -> Settled (bf a) t [1 / 2].
Proof.
  intros Ha HA. right. exists S1, a. split; [exact one_posdef|]. split; [apply bf_onesided|]. left. split; [exact legendre1|]. intros n Hn. pose proof (step_pos t n HA Hn). nra.
Qed.
Lemma t012_asc : Asc [0; 1; 2].
Proof. intros i j H. simpl in H. destruct i as [|[|i]]; destruct j as [|[|[|j]]]; try lia; unfold node; simpl; lra. Qed.
Definition cx : mat R := Mat 1 3 (fun _ n => match n with 0%nat => 1 | 1%nat => / 1001 | _ => / 1001 / 1001 end).
Definition cK : mat R := Mat 1 2 (fun _ n => match n with 0%nat => - 1000 / 1001 | _ => - 1000 / 1001 / 1001 end).
Lemma c_integrator : exists out, integrator_ (try_root (known cx cK (non 2))) 0 (lpts 1) (bf (- 1000)) [0; 1; 2] 1 "m" None (fun _ => 1) (fun _ => 0) (non 2) (non 1) = Ok out /\ at_m (io_xf out) 0 1 = / 1001 / 1001.
Proof.
  destruct (known_integrator (lpts 1) (bf (- 1000)) [0; 1; 2] 1 "m" [1] None (fun _ => 1) (non 2) (non 1) cx cK (non 2) (lpts_ok 1) ltac:(simpl; lia) (bf_ok _) eq_refl eq_refl (fun _ _ => eq_refl) eq_refl) with (A := fun (_ _ : nat) => 1) (b := fun _ : nat => 1) (nan := 0) (z0 := fun _ : nat => 0) as (out & E & H).
  - repeat split.
  - apply one_rk.
  - assert (St : forall n, (n < ivals [0; 1; 2]%R)%nat -> step [0; 1; 2] n = 1) by (intros n Hn; unfold ivals in Hn; simpl in Hn; destruct n as [|[|n]]; try lia; unfold step, node; simpl; lra).
    split; [|split; [|discriminate]].
    + intros n j r Hn Hj Hr. unfold stage, stage_x. cbn [bf f_dae a_xdot a_x]. rewrite St by exact Hn. unfold ivals in Hn. simpl in Hn. assert (j = 0%nat) as -> by lia. destruct n as [|[|n]]; try lia; cbn; lra.
    + intros n i Hn Hi. rewrite St by exact Hn. unfold ivals in Hn. simpl in Hn. destruct n as [|[|n]]; try lia; cbn; lra.
  - intros i Hi. reflexivity.
  - exists out. split; [exact E|]. rewrite H by (unfold ivals; cbn; lia). reflexivity.
Qed.
(** From 1 over [0, 1], and from there over [1, 2], whatever root finders are used *)
Example settled_split_ex rf1 nan1 z1 out1 rf2 nan2 z2 out2 : RootFinder rf1 -> RootFinder rf2 ->
  integrator_ rf1 nan1 (lpts 1) (bf (- 1000)) [0; 1] 1 "m" None (fun _ => 1) z1 (non 1) (non 1) = Ok out1 -> integrator_ rf2 nan2 (lpts 1) (bf (- 1000)) [1; 2] 1 "m" None (fun i => at_m (io_xf out1) i 0) z2 (non 1) (non 1) = Ok out2 ->
  at_m (io_xf out2) 0 0 = / 1001 / 1001 /\ exists out, integrator_ (try_root (known cx cK (non 2))) 0 (lpts 1) (bf (- 1000)) [0; 1; 2] 1 "m" None (fun _ => 1) (fun _ => 0) (non 2) (non 1) = Ok out /\ io_qf out 0%nat = io_qf out1 0%nat + io_qf out2 0%nat.
Proof.
  intros Hrf1 Hrf2 E1 E2. destruct c_integrator as (out & E & X).
  destruct (settled_split (lpts 1) (bf (- 1000)) [0; 1; 2] 1 "m" [1] None (lpts_ok 1) (bf_ok _) eq_refl eq_refl t012_asc (bf_settled_euler [0; 1; 2] (- 1000) ltac:(lra) t012_asc) (fun _ => 1) (non 2) (non 1) ltac:(split; reflexivity) ltac:(split; reflexivity) 1
    (try_root (known cx cK (non 2))) 0 (fun _ => 0) out rf1 nan1 z1 out1 rf2 nan2 z2 out2 ltac:(unfold ivals; simpl; lia) (try_root_ok _) Hrf1 Hrf2 E E1 E2) as (_ & _ & H & _ & _ & HZ).
  split; [rewrite <- X; symmetry; apply (H 0%nat 0%nat); [cbn; lia|unfold ivals; simpl; lia]|]. exists out. split; [exact E|]. apply (HZ (bf_z _)). cbn. lia.
Qed.
(** Such results exist. *)
Example settled_split_exist : exists rf1 out1 rf2 out2, RootFinder rf1 /\ RootFinder rf2 /\
  integrator_ rf1 0 (lpts 1) (bf (- 1000)) [0; 1] 1 "m" None (fun _ => 1) (fun _ => 0) (non 1) (non 1) = Ok out1 /\ integrator_ rf2 0 (lpts 1) (bf (- 1000)) [1; 2] 1 "m" None (fun i => at_m (io_xf out1) i 0) (fun _ => 0) (non 1) (non 1) = Ok out2.
Proof.
  destruct (bf_step (- 1000) 1 [0; 1] (fun _ => 1) 1 (1 / 1001) (- 1000 / 1001) (fun _ => 0) eq_refl lt_len eq_refl) as (out1 & E1 & X1); [unfold step, node; simpl; lra|lra|lra|].
  destruct (bf_step (- 1000) 1 [1; 2] (fun i => at_m (io_xf out1) i 0) (1 / 1001) (1 / 1001 / 1001) (- 1000 / 1001 / 1001) (fun _ => 0) X1 ltac:(simpl; lia) eq_refl) as (out2 & E2 & _); [unfold step, node; simpl; lra|lra|lra|].
  eexists _, out1, _, out2. split; [apply try_root_ok|]. split; [apply try_root_ok|]. split; [exact E1|exact E2].
Qed.

(** In a time that runs twice as fast: [x' = - 500 x] over [0, 2] *)
Lemma bf_carries : Carries (bf (- 500)) (bf (- 1000)) (fun _ _ => 1) (fun _ => 0) 2 0.
Proof.
  repeat (split; [reflexivity|]). intros a b (M1 & M2 & _) Hs. specialize (M1 0%nat ltac:(cbn; lia)). specialize (M2 0%nat ltac:(cbn; lia)). cbn in M1, M2. specialize (Hs 0%nat ltac:(cbn; lia)). cbn in Hs.
  split; intros r Hr; cbn; rewrite ?M1, M2; lra.
Qed.
Example settled_move_ex rf nan z0 out : RootFinder rf -> integrator_ rf nan (lpts 1) (bf (- 500)) (clock 2 0 [0; 1]) 1 "m" None (fun _ => 0 + 1 * 1 + 0) z0 (non 1) (non 1) = Ok out -> at_m (io_xf out) 0 0 = 1 / 1001.
Proof.
  intros Hrf E. destruct (bf_step (- 1000) 1 [0; 1] (fun _ => 1) 1 (1 / 1001) (- 1000 / 1001) (fun _ => 0) eq_refl lt_len eq_refl) as (o & E0 & X); [unfold step, node; simpl; lra|lra|lra|].
  destruct (settled_move (lpts 1) (bf (- 500)) (bf (- 1000)) [0; 1] 1 "m" [1] None None (non 1) (non 1) (lpts_ok 1) lt_len (bf_ok _) (bf_ok _) eq_refl eq_refl eq_refl eq_refl lt_asc (fun _ _ => 1) (fun _ => 0) 2 0 ltac:(lra) bf_carries ltac:(cbn; intros; lia)
    (bf_settled_euler (clock 2 0 [0; 1]) (- 500) ltac:(lra) (clock_asc 2 0 [0; 1] ltac:(lra) lt_asc)) (fun _ => 1) ltac:(split; reflexivity) ltac:(split; reflexivity) _ 0 (fun _ => 0) o rf nan z0 out (try_root_ok _) Hrf E0 E) as (_ & H & _).
  rewrite (H 0%nat 0%nat) by (unfold ivals; cbn; lia). cbn. rewrite X. lra.
Qed.

(** Midpoint rule, [x' = 1000 x] from 1 to -501/499, and back by the dissipative [x' = - 1000 x] *)
Example settled_back_ex : exists out, integrator_ (try_root (known (bx 1 (- 501 / 499)) (bK (- 1000 / 499)) (non 1))) 0 (lpts (1 / 2)) (bf 1000) [0; 1] 1 "m" None (fun _ => 1) (fun _ => 0) (non 1) (non 1) = Ok out /\ at_m (io_xf out) 0 0 = - 501 / 499 /\
  (exists rf' out', RootFinder rf' /\ integrator_ rf' 0 (lpts (1 / 2)) (bf (- 1000)) bt 1 "m" None (fun i => at_m (io_xf out) i 0) (fun _ => 0) (non 1) (non 1) = Ok out') /\
  forall rf' nan' z0' out', RootFinder rf' -> integrator_ rf' nan' (lpts (1 / 2)) (bf (- 1000)) bt 1 "m" None (fun i => at_m (io_xf out) i 0) z0' (non 1) (non 1) = Ok out' -> at_m (io_xf out') 0 0 = 1 /\ io_qf out' 0%nat = - io_qf out 0%nat.
Proof.
  destruct (bf_step 1000 (1 / 2) [0; 1] (fun _ => 1) 1 (- 501 / 499) (- 1000 / 499) (fun _ => 0) eq_refl lt_len eq_refl) as (out & E & X); [unfold step, node; simpl; lra|lra|lra|].
  exists out. split; [exact E|]. split; [exact X|]. split.
  - destruct (bf_step (- 1000) (1 / 2) bt (fun i => at_m (io_xf out) i 0) (- 501 / 499) 1 (1000 / 499) (fun _ => 0) X ltac:(simpl; lia) eq_refl bt_step) as (out' & E' & _); [lra|lra|]. eexists. exists out'. split; [apply try_root_ok|exact E'].
  - intros rf' nan' z0' out' Hrf' E'.
    destruct (settled_back (lpts (1 / 2)) (bf 1000) (bf (- 1000)) [0; 1] 1 "m" [1 / 2] None None (non 1) (non 1) (non 1) (lpts_ok _) mid_symmetric lt_len (bf_ok _) (bf_ok _) eq_refl eq_refl eq_refl eq_refl lt_asc (-1) 1 ltac:(lra) (bf_back _ _) ltac:(reflexivity)
      (bf_settled_mid bt (- 1000) ltac:(lra) (back_asc (bf 1000) (bf (- 1000)) [0; 1] lt_len eq_refl eq_refl lt_asc (-1) 1 ltac:(lra))) (fun _ => 1) ltac:(split; reflexivity) ltac:(split; reflexivity) ltac:(split; reflexivity) ltac:(intros i j Hi; cbn in Hi; lia)
      _ 0 (fun _ => 0) out rf' nan' z0' out' (try_root_ok _) Hrf' E E') as (_ & _ & _ & H & HZ).
    split; [exact (H 0%nat ltac:(cbn; lia))|]. apply (HZ (bf_z _)). cbn. lia.
Qed.

(** ** Not settled: [x' = 2 x] with the midpoint rule and a step of length 1 from 0 *)
Theorem unsettled_refuted : exists rf rf' out out', RootFinder rf /\ RootFinder rf' /\ integrator_ rf 0 (lpts (1 / 2)) (bf 2) [0; 1] 1 "m" None (fun _ => 0) (fun _ => 0) (non 1) (non 1) = Ok out /\
  integrator_ rf' 0 (lpts (1 / 2)) (bf 2) [0; 1] 1 "m" None (fun _ => 0) (fun _ => 0) (non 1) (non 1) = Ok out' /\ at_m (io_xf out) 0 0 <> at_m (io_xf out') 0 0.
Proof.
  destruct (bf_step 2 (1 / 2) [0; 1] (fun _ => 0) 0 0 0 (fun _ => 0) eq_refl lt_len eq_refl) as (o & E & X); [unfold step, node; simpl; lra|lra|lra|].
  destruct (bf_step 2 (1 / 2) [0; 1] (fun _ => 0) 0 1 1 (fun _ => 0) eq_refl lt_len eq_refl) as (o' & E' & X'); [unfold step, node; simpl; lra|lra|lra|].
  eexists _, _, o, o'. split; [apply try_root_ok|]. split; [apply try_root_ok|]. split; [exact E|]. split; [exact E'|]. rewrite X, X'. lra.
Qed.
