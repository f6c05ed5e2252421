(** Examples for dissipative dynamics (C108). *)
From Coq Require Import Reals Lra Lia List.
From Coquelicot Require Import Coquelicot.
From Verif Require Import PyBase IndexModel DMModel DMProofs StructModel StructSpec PowerModel EntryModel StructsModel IneqModel DaeModel StructsSpec StructsThms11 NumModel NumInst NumSpec PolynomialModel PiecewiseModel PdqModel SchemeModel
  PolySpec PiecewiseSpec PdqSpec SchemeSpec PolyMath PolynomialBase PolynomialThms PolynomialThms2 PiecewiseThms PdqThms PdqThms2 SchemeThms SchemeThms2 SchemeThms3 SchemeThms4 SchemeThms5 SchemeExamples OrderSpec OrderMath OrderThms OrderExamples ConvSpec ConvThms ConvExamples GridSpec GridThms GridExamples RevSpec RevThms RevThms2 RevExamples StiffSpec StiffThms StiffExamples
  MonoSpec MonoThms MonoThms2 MonoThms3 MonoThms4.
Import ListNotations.
Open Scope R_scope.

Example points_ex : (0 < g1 < 1) /\ (forall c, In c [1 / 3; 1] -> 0 < c <= 1).
Proof.
  split; [refine (gauss_inside [g1; g2] _ legendre2 _); simpl; auto|]. intros c Hc. apply (radau_inside [1 / 3; 1] c radau2); [simpl; auto|exact Hc].
Qed.

(** ** [x' = a x] *)
Notation S1 := (fun _ _ : nat => 1).
Lemma one_posdef : PosDef 1 S1. Proof. exists 1. split; [lra|]. intros v. unfold quad. simpl. lra. Qed.
Lemma bf_onesided a : OneSided (bf a) S1 a.
Proof.
  intros v w Hv Hw _. pose proof (Hv 0%nat ltac:(cbn; lia)) as V. pose proof (Hw 0%nat ltac:(cbn; lia)) as W. cbn in V, W. unfold quad. cbn. replace (a_xdot v 0%nat - a_xdot w 0%nat) with (a * (a_x v 0%nat - a_x w 0%nat)) by lra. lra.
Qed.
Lemma bf_res a : Resolvable (bf a) (fun v _ => a * a_x v 0%nat) (fun _ _ => 0).
Proof. intros v r Hr. cbn in Hr. assert (r = 0%nat) as -> by lia. cbn. ring. Qed.
Lemma bf_z a : DeterminesZ (bf a). Proof. intros v w _ _ _ _ _ i Hi. cbn in Hi. lia. Qed.
Lemma mid_moderate a : a < 2 -> Moderate [0; 1] [1 / 2] a.
Proof. intros Ha. left. split; [exact legendre1|]. intros n Hn. rewrite (proj2 (step01 n Hn)). lra. Qed.
Lemma euler_moderate a : a < 1 / 2 -> Moderate [0; 1] [1] a.
Proof. intros Ha. right. split; [apply ortho_0|]. split; [simpl; auto|]. intros n Hn. rewrite (proj2 (step01 n Hn)). lra. Qed.

(** [x' = - 1000 x] with one step of length 1: too long for C95, whose bound is 1/2000 *)
Example stiff_exists x0 : ~ ShortSteps [0; 1] 1 (Rabs (- 1000)) /\ exists x K Z s e, VarsOk (bf (- 1000)) (ivals [0; 1]) 1 false x K Z (non 1) (non 1) /\ (forall i, (i < 1)%nat -> at_m x i 0 = x0 i) /\
  scheme_ (lpts (1 / 2)) (bf (- 1000)) [0; 1] 1 "m" None false x K Z (non 1) (non 1) = Ok s /\ veccat_master (sc_eq s) = Ok e /\ AllZero e.
Proof.
  split.
  - intros [_ H]. assert (H0 : (0 < ivals [0; 1]%R)%nat) by (unfold ivals; simpl; lia). specialize (H 0%nat H0). rewrite (proj2 (step01 0%nat H0)) in H. rewrite (Rabs_left (- 1000)) in H by lra. lra.
  - apply (mono_exists (lpts (1 / 2)) (bf (- 1000)) [0; 1] 1 "m" [1 / 2] None false (lpts_ok _) lt_len (bf_ok _) eq_refl lt_asc S1 (- 1000) one_posdef (bf_onesided _) (mid_moderate (- 1000) ltac:(lra)) _ _ _ _ _ _ (bf_res _) (bf_lip _)); [split; reflexivity|split; reflexivity|discriminate].
Qed.
Example stiff_unique x K Z s e : VarsOk (bf (- 1000)) (ivals [0; 1]) 1 false x K Z (non 1) (non 1) -> at_m x 0 0 = 1 ->
  scheme_ (lpts 1) (bf (- 1000)) [0; 1] 1 "m" None false x K Z (non 1) (non 1) = Ok s -> veccat_master (sc_eq s) = Ok e -> AllZero e -> at_m x 0 1 = 1 / 1001 /\ at_m (sc_q s) 0 1 = - 1000 / 1001.
Proof.
  intros HV X0 Es Ee Hz. destruct (bsolves (- 1000) 1 1 (1 / 1001) (- 1000 / 1001)) as (s' & e' & Es' & Ee' & Hz'); [lra|lra|].
  destruct (mono_scheme_unique (lpts 1) (bf (- 1000)) [0; 1] 1 "m" [1] None false (lpts_ok _) lt_len (bf_ok _) eq_refl lt_asc S1 (- 1000) one_posdef (bf_onesided _) (euler_moderate (- 1000) ltac:(lra)) x K Z (non 1) (non 1) _ _ _ HV (bvars _ _ _ _) s s' e e' Es Ee Hz Es' Ee' Hz') as (U1 & _ & _ & U4).
  - intros i Hi. cbn in Hi. assert (i = 0%nat) as -> by lia. rewrite X0. reflexivity.
  - destruct (U4 (bf_z _)) as (_ & Q & _). rewrite (U1 1%nat 0%nat), (Q 1%nat 0%nat) by (unfold ivals; simpl; lia). split; [reflexivity|].
    destruct (scheme_all (lpts 1) (bf (- 1000)) [0; 1] 1 "m" [1] None false _ _ _ _ _ (lpts_ok _) lt_len (bf_ok _) eq_refl (bvars _ 1 (1 / 1001) (- 1000 / 1001)) _ _ (one_rk 1)) as (s1 & e1 & E1 & _ & _ & _ & _ & _ & Q0 & Qn & _). rewrite Es' in E1. injection E1 as <-.
    assert (H0 : (0 < ivals [0; 1]%R)%nat) by (unfold ivals; simpl; lia). specialize (Qn 0%nat 0%nat H0 ltac:(cbn; lia)). specialize (Q0 0%nat ltac:(cbn; lia)). change (0 + 1)%nat with 1%nat in Qn. rewrite Qn, Q0, (proj2 (step01 0%nat H0)). unfold stage, stage_x. cbn [Sum bf f_quad a_x]. rewrite (proj2 (step01 0%nat H0)). cbn. lra.
Qed.
Example stiff_integrator rf nan z0 out : RootFinder rf -> integrator_ rf nan (lpts 1) (bf (- 1000)) [0; 1] 1 "m" None (fun _ => 1) z0 (non 1) (non 1) = Ok out -> at_m (io_xf out) 0 0 = 1 / 1001.
Proof.
  intros Hrf E. destruct (bf_step (- 1000) 1 [0; 1] (fun _ => 1) 1 (1 / 1001) (- 1000 / 1001) (fun _ => 0) eq_refl lt_len eq_refl) as (out' & E' & X'); [unfold step, node; simpl; lra|lra|lra|].
  refine (eq_trans (proj1 (mono_integrator_unique (lpts 1) (bf (- 1000)) [0; 1] 1 "m" [1] None (non 1) (non 1) (lpts_ok _) lt_len (bf_ok _) eq_refl lt_asc eq_refl _ _ S1 (- 1000) one_posdef (bf_onesided _) (euler_moderate (- 1000) ltac:(lra)) (fun _ => 1) rf nan z0 out _ _ _ out' Hrf (try_root_ok _) E E') 0%nat 0%nat _ _) X').
  - split; reflexivity.
  - split; reflexivity.
  - unfold ivals. simpl. lia.
  - cbn. lia.
Qed.

(** ** The bound 2 is sharp: [x' = 2 x] with the midpoint rule and a step of length 1 *)
Theorem legendre_bound_refuted : OneSided (bf 2) S1 2 /\ PosDef 1 S1 /\ Ortho [1 / 2] 1 /\ Resolvable (bf 2) (fun v _ => 2 * a_x v 0%nat) (fun _ _ => 0) /\ LipDae (bf 2) (Rabs 2) /\
  (forall x K Z s e, VarsOk (bf 2) (ivals [0; 1]) 1 false x K Z (non 1) (non 1) -> at_m x 0 0 <> 0 -> scheme_ (lpts (1 / 2)) (bf 2) [0; 1] 1 "m" None false x K Z (non 1) (non 1) = Ok s -> veccat_master (sc_eq s) = Ok e -> ~ AllZero e) /\
  (forall k, exists s e, bsch (1 / 2) 2 0 k k = Ok s /\ veccat_master (sc_eq s) = Ok e /\ AllZero e).
Proof.
  split; [apply bf_onesided|]. split; [exact one_posdef|]. split; [exact legendre1|]. split; [apply bf_res|]. split; [apply bf_lip|]. split; [|intros k; apply bsolves; lra].
  intros x K Z s e HV X0 Es Ee Hz. destruct (scheme_all (lpts (1 / 2)) (bf 2) [0; 1] 1 "m" [1 / 2] None false x K Z (non 1) (non 1) (lpts_ok _) lt_len (bf_ok _) eq_refl HV _ _ (one_rk (1 / 2))) as (s1 & e1 & E1 & Ee1 & Hz1 & _).
  rewrite Es in E1. injection E1 as <-. rewrite Ee in Ee1. injection Ee1 as <-. apply Hz1 in Hz as (HC & _). assert (H0 : (0 < ivals [0; 1]%R)%nat) by (unfold ivals; simpl; lia).
  specialize (HC 0%nat 0%nat 0%nat H0 ltac:(lia) ltac:(cbn; lia)). unfold stage, stage_x in HC. cbn [bf f_dae a_xdot a_x] in HC. rewrite (proj2 (step01 0%nat H0)) in HC. cbn in HC. lra.
Qed.
