(** Examples for first-order convergence independent of stiffness (C117). *)
From Coq Require Import Reals Lra Lia List.
From Coquelicot Require Import Coquelicot.
From Verif Require Import PyBase IndexModel DMModel DMProofs StructModel StructSpec PowerModel EntryModel StructsModel IneqModel DaeModel StructsSpec StructsThms11 NumModel NumInst NumSpec PolynomialModel PiecewiseModel PdqModel SchemeModel
  PolySpec PiecewiseSpec PdqSpec SchemeSpec PolyMath PolynomialBase PolynomialThms PolynomialThms2 PiecewiseThms PdqThms PdqThms2 SchemeThms SchemeThms2 SchemeThms3 SchemeThms4 SchemeThms5 SchemeExamples OrderSpec OrderMath OrderThms OrderExamples ConvSpec ConvThms ConvExamples GridSpec GridThms GridExamples RevSpec RevThms RevThms2 RevExamples StiffSpec StiffThms StiffExamples
  MonoSpec MonoThms MonoThms2 MonoThms3 MonoThms4 MonoExamples SuperSpec SuperThms DissSpec DissThms DissThms2 DissThms3 DissThms4 DissExamples ErrSpec ErrThms DissErrThms SensSpec SensThms SensThms2 SensExamples Sens2Spec SensThms3 Sens2Examples RefineSpec RefineThms RefineThms2 RefineThms3 RefineExamples StiffRefThms StiffRefThms2.
Import ListNotations.

(** ** [x' = lam (x - t) + u - t / 2] with [u = 1 + t / 2]: [x = t] for every [lam], [z = 3 x + u], [q' = x + u] *)
Definition wf (lam : R) : daefun R := DaeFun 1 1 1 0 0 2 1 (fun _ => true) (fun v r => match r with O => a_xdot v 0%nat - (lam * (a_x v 0%nat - a_t v) + (a_u v 0%nat - a_t v / 2)) | _ => a_z v 0%nat - 3 * a_x v 0%nat - a_u v 0%nat end) (fun v _ => a_x v 0%nat + a_u v 0%nat).
Lemma wf_ok lam : DaeOk (wf lam).
Proof. split; [|split]; cbn; [intros v w r (H1 & H2 & H4 & H5 & _ & Ht & _)|intros v w r (_ & H2 & _ & H5 & _)|discriminate]; cbn in *; rewrite ?Ht, ?(H1 0%nat), (H2 0%nat), ?(H4 0%nat), (H5 0%nat) by lia; reflexivity. Qed.
Lemma wf_diff lam v w : Solves (wf lam) v -> Solves (wf lam) w -> a_t v = a_t w -> a_xdot v 0%nat - a_xdot w 0%nat = lam * (a_x v 0%nat - a_x w 0%nat) + (a_u v 0%nat - a_u w 0%nat) /\ a_z v 0%nat - a_z w 0%nat = 3 * (a_x v 0%nat - a_x w 0%nat) + (a_u v 0%nat - a_u w 0%nat).
Proof. intros Hv Hw Et. pose proof (Hv 0%nat ltac:(cbn; lia)) as V. pose proof (Hw 0%nat ltac:(cbn; lia)) as W. pose proof (Hv 1%nat ltac:(cbn; lia)) as V'. pose proof (Hw 1%nat ltac:(cbn; lia)) as W'. cbn in V, W, V', W'. rewrite Et in V. lra. Qed.
Lemma wf_onesided lam : lam <= 0 -> OneSided (wf lam) S1 0.
Proof. intros Hl v w Hv Hw (Hu & _ & Ht & _). unfold quad. cbn. rewrite (proj1 (wf_diff lam v w Hv Hw Ht)), (Hu 0%nat) by (cbn; lia). pose proof (Rle_0_sqr (a_x v 0%nat - a_x w 0%nat)) as Hs. unfold Rsqr in Hs. nra. Qed.
Lemma wf_lip lam : LipDae (wf lam) (Rabs lam).
Proof. intros v w Hv Hw (Hu & _ & Ht & _) e He i Hi. cbn in Hi. assert (i = 0%nat) as -> by lia. rewrite (proj1 (wf_diff lam v w Hv Hw Ht)), (Hu 0%nat), Rminus_eq_0, Rplus_0_r, Rabs_mult by (cbn; lia). apply Rmult_le_compat_l; [apply Rabs_pos|]. apply He. cbn. lia. Qed.
Lemma wf_res lam : Resolvable (wf lam) (fun v _ => lam * (a_x v 0%nat - a_t v) + (a_u v 0%nat - a_t v / 2)) (fun v _ => 3 * a_x v 0%nat + a_u v 0%nat).
Proof. intros v r Hr. destruct r; cbn; ring. Qed.
Lemma wf_lipin lam : LipInput (wf lam) 1.
Proof. intros v w Hv Hw Hx d (Hu & _ & Ht & _) i Hi. cbn in Hi. assert (i = 0%nat) as -> by lia. rewrite (proj1 (wf_diff lam v w Hv Hw Ht)), (Hx 0%nat) by (cbn; lia). specialize (Hu 0%nat ltac:(cbn; lia)). rewrite Rminus_eq_0, Rmult_0_r, Rplus_0_l, Rmult_1_l. exact Hu. Qed.
Lemma wf_lipz lam : LipZin (wf lam) 3 1.
Proof. intros v w Hv Hw e d He (Hu & _ & Ht & _) i Hi. cbn in Hi. assert (i = 0%nat) as -> by lia. rewrite (proj2 (wf_diff lam v w Hv Hw Ht)). specialize (Hu 0%nat ltac:(cbn; lia)). specialize (He 0%nat ltac:(cbn; lia)). apply Rabs_le_between in Hu. apply Rabs_le_between in He. apply Rabs_le. lra. Qed.
Lemma wf_lipq lam : LipQin (wf lam) 1 1.
Proof. intros v w Hv Hw e d He (Hu & _) i Hi. cbn. specialize (Hu 0%nat ltac:(cbn; lia)). specialize (He 0%nat ltac:(cbn; lia)). apply Rabs_le_between in Hu. apply Rabs_le_between in He. apply Rabs_le. lra. Qed.
Lemma wf_solves lam t : SolvesDae (wf lam) t rxd rxs rzs rus (fun _ => 0) None.
Proof. intros v r Hv Hr. destruct r; cbn; unfold rxd, rxs, rzs, rus; field. Qed.
Lemma one_gr : GaussRadau [1]. Proof. right. split; [apply ortho_0|simpl; auto]. Qed.
Lemma r_lip : LipOn 0 1 2 (rxd 0%nat) /\ LipOn 0 1 2 (rus 0%nat) /\ LipOn 0 1 2 (rqd 0%nat).
Proof.
  assert (Hl : forall k h, 0 <= k <= 2 -> (forall v w, h v - h w = k * (v - w)) -> LipOn 0 1 2 h) by (intros k h Hk Hh v w _ _; rewrite Hh, Rabs_mult, (Rabs_pos_eq k) by lra; apply Rmult_le_compat_r; [apply Rabs_pos|lra]).
  split; [|split]; [apply (Hl 0); [lra|intros; unfold rxd; ring]|apply (Hl (1 / 2)); [lra|intros; unfold rus; field]|apply (Hl (3 / 2)); [lra|intros; unfold rqd; field]].
Qed.

(** One constant for all [lam <= 0] and all grids *)
Example stiff_rate_ex : exists C, 0 <= C /\ forall lam t dl u x K Z s e, lam <= 0 -> 0 <= dl -> FineGrid t 0 1 dl -> TakenFrom (wf lam) t u (non 1) rus (fun _ => 0) -> at_m x 0 0 = 0 -> VarsOk (wf lam) (ivals t) 1 false x K Z u (non 1) -> scheme_ (lpts 1) (wf lam) t 1 "m" None false x K Z u (non 1) = Ok s -> veccat_master (sc_eq s) = Ok e -> AllZero e ->
  Rabs (at_m x 0 (ivals t) - 1) <= C * dl /\ Rabs (at_m (sc_q s) 0 (ivals t) - 7 / 4) <= C * dl.
Proof.
  destruct (stiff_rate [1] 1 S1 (nd1 1) ltac:(simpl; lia) one_gr one_posdef 0 1 3 1 1 1 2 1 ltac:(lra) ltac:(lra) ltac:(lra) ltac:(lra) ltac:(lra) ltac:(lra) ltac:(lra) ltac:(lra)) as (C & HC & B). exists C. split; [exact HC|].
  intros lam t dl u x K Z s e Hl Hdl HG HTf X0 HV Es Ee Hz. pose proof HG as (_ & _ & _ & Eb & _). destruct r_lip as (Lx & Ls & Lr).
  destruct (B (lpts 1) (wf lam) 1%nat "m"%string None 0 1 (Rabs lam) _ _ (lpts_ok 1) (wf_ok lam) eq_refl eq_refl ltac:(lra) (wf_onesided lam Hl) (wf_res lam) (wf_lip lam) (wf_lipin lam) (wf_lipz lam) (wf_lipq lam) rxd rxs rzs rus (fun _ => 0) rqs rqd (wf_solves lam [0; 1])) with (t := t) (dl := dl) (u := u) (p := non 1) (rep := false) (x := x) (K := K) (Z := Z) (s := s) (e := e) as (G1 & _ & _ & _ & G2 & _); try assumption.
  - intros i Hi. assert (i = 0%nat) as -> by lia. split; [exact r_follows|exact Lx].
  - intros i Hi. cbn in Hi. assert (i = 0%nat) as -> by lia. exact Ls.
  - intros i Hi. cbn in Hi. assert (i = 0%nat) as -> by lia. split; [exact rq_follows|exact Lr].
  - reflexivity.
  - lra.
  - intros i Hi. assert (i = 0%nat) as -> by lia. rewrite X0. unfold rxs. rewrite Rminus_eq_0, Rabs_R0. exact Hdl.
  - specialize (G1 (ivals t) 0%nat ltac:(lia) ltac:(lia)). specialize (G2 (ivals t) 0%nat ltac:(lia) ltac:(cbn; lia)). rewrite Eb in G1, G2. unfold rxs, rqs in *. replace (1 + 3 / 4 * (1 * 1) - (0 + 3 / 4 * (0 * 0))) with (7 / 4) in G2 by field. split; assumption.
Qed.
(** There are such results for all [lam <= 0], on arbitrarily fine grids. *)
Example stiff_rate_results lam dl : lam <= 0 -> 0 < dl -> exists t u x K Z s e, FineGrid t 0 1 dl /\ TakenFrom (wf lam) t u (non 1) rus (fun _ => 0) /\ at_m x 0 0 = 0 /\ VarsOk (wf lam) (ivals t) 1 false x K Z u (non 1) /\ scheme_ (lpts 1) (wf lam) t 1 "m" None false x K Z u (non 1) = Ok s /\ veccat_master (sc_eq s) = Ok e /\ AllZero e.
Proof.
  intros Hlam Hd. destruct (archimed_cor1 dl Hd) as (N & Hs & HN). pose proof (unif_fine N ltac:(lia)) as HG. set (t := unif N) in *. set (u := Mat 1 (ivals t) (fun _ n => rus 0%nat (node t n))). pose proof HG as (HA & HL & _ & _ & Hst).
  assert (HM : Moderate t [1] 0) by (right; split; [apply ortho_0|split; [simpl; auto|intros; lra]]).
  destruct (mono_exists (lpts 1) (wf lam) t 1 "m" [1] None false (lpts_ok 1) HL (wf_ok _) eq_refl HA S1 0 one_posdef (wf_onesided lam Hlam) HM _ _ _ u (non 1) (fun _ => 0) (wf_res lam) (wf_lip lam)) as (x & K & Z & s & e & HV & X0 & Es & Ee & Hz); [split; reflexivity|split; reflexivity|discriminate|].
  exists t, u, x, K, Z, s, e. split; [apply (fine_weaken t 0 1 _ HG); lra|]. split; [|split; [apply X0; cbn; lia|]; repeat (split; [assumption|]); exact Hz].
  split; [|cbn; intros; lia]. intros i n Hi Hn. exists (node t n). pose proof (step_pos t n HA Hn) as Hh. unfold step in Hh. split; [lra|reflexivity].
Qed.
(** One step of implicit Euler with the control of the middle: one bound for all [lam <= 0] *)
Example stiff_fed_ex : exists C, forall lam x K Z s e, lam <= 0 -> at_m x 0 0 = 0 -> VarsOk (wf lam) (ivals [0; 1]) 1 false x K Z (cu (5 / 4)) (non 1) -> scheme_ (lpts 1) (wf lam) [0; 1] 1 "m" None false x K Z (cu (5 / 4)) (non 1) = Ok s -> veccat_master (sc_eq s) = Ok e -> AllZero e -> Rabs (at_m x 0 1 - 1) <= C * (1 / 4).
Proof.
  destruct (stiff_fed [1] 1 S1 (nd1 1) ltac:(simpl; lia) one_gr one_posdef) as (C & al & la & HC & _ & _ & B). exists C. intros lam x K Z s e Hl X0 HV Es Ee Hz.
  assert (HMs : MildSteps [0; 1] 0) by (split; [lra|]; intros; lra).
  assert (HF : NearFed (wf lam) [0; 1] (1 / 4) None None (cu (5 / 4)) (non 1) rus (fun _ => 0)). { split; [|split; cbn; intros; lia]. intros i n v _ Hn Hv. destruct (step01 n Hn) as [-> _]. unfold node in Hv. simpl in Hv. cbn. unfold rus. apply Rabs_le. lra. }
  assert (HCl : forall i, (i < 1)%nat -> Close [0; 1] 1 0 (rxs i) (rxd i)). { intros i Hi n Hn. destruct (step01 n Hn) as [-> _]. split; [intros v Hv; apply (is_RInt_derive (V := R_CompleteNormedModule) (fun s => s) (fun _ => 1)); [intros; auto_derive; trivial|intros; apply continuous_const]|]. exists (fun _ => 1). split; [apply (PolyLt_const 0)|]. intros v _. unfold rxd. rewrite Rminus_eq_0, Rabs_R0. lra. }
  destruct (B (lpts 1) (wf lam) [0; 1] 1%nat "m"%string 0 (Rabs lam) _ _ 1 (1 / 4) 0 None None rxd rxs rzs rus (fun _ => 0) (cu (5 / 4)) (non 1) (lpts_ok 1) lt_len (wf_ok lam) eq_refl eq_refl lt_asc (wf_onesided lam Hl) HMs (wf_res lam) (wf_lip lam) Rle_0_1 ltac:(lra) ltac:(lra) (wf_lipin lam) (wf_solves lam [0; 1]) HF HCl false x K Z s e HV Es Ee Hz) as (G & _).
  specialize (G 1%nat ltac:(unfold ivals; simpl; lia)). rewrite !norm_1 in G. change (node [0; 1] 1) with 1 in G. change (node [0; 1] 0) with 0 in G. rewrite X0 in G. unfold rxs in G. rewrite Rminus_eq_0, Rabs_R0, !Rmult_0_r, Rmult_0_l, exp_0 in G. lra.
Qed.
Example stiff_fed_results lam : lam <= 0 -> exists x K Z s e, at_m x 0 0 = 0 /\ VarsOk (wf lam) (ivals [0; 1]) 1 false x K Z (cu (5 / 4)) (non 1) /\ scheme_ (lpts 1) (wf lam) [0; 1] 1 "m" None false x K Z (cu (5 / 4)) (non 1) = Ok s /\ veccat_master (sc_eq s) = Ok e /\ AllZero e.
Proof.
  intros Hl. assert (HM : Moderate [0; 1] [1] 0) by (right; split; [apply ortho_0|split; [simpl; auto|intros; lra]]).
  destruct (mono_exists (lpts 1) (wf lam) [0; 1] 1 "m" [1] None false (lpts_ok 1) lt_len (wf_ok _) eq_refl lt_asc S1 0 one_posdef (wf_onesided lam Hl) HM _ _ _ (cu (5 / 4)) (non 1) (fun _ => 0) (wf_res lam) (wf_lip lam)) as (x & K & Z & s & e & HV & X0 & Es & Ee & Hz); [split; reflexivity|split; reflexivity|discriminate|].
  exists x, K, Z, s, e. split; [apply X0; cbn; lia|]. repeat (split; [assumption|]). exact Hz.
Qed.
