(** Examples for errors that do not depend on stiffness (C109). *)
From Coq Require Import Reals Lra Lia List.
From Coquelicot Require Import Coquelicot.
From Verif Require Import PyBase IndexModel DMModel DMProofs StructModel StructSpec PowerModel EntryModel StructsModel IneqModel DaeModel StructsSpec StructsThms11 NumModel NumInst NumSpec PolynomialModel PiecewiseModel PdqModel SchemeModel
  PolySpec PiecewiseSpec PdqSpec SchemeSpec PolyMath PolynomialBase PolynomialThms PolynomialThms2 PiecewiseThms PdqThms PdqThms2 SchemeThms SchemeThms2 SchemeThms3 SchemeThms4 SchemeThms5 SchemeExamples OrderSpec OrderMath OrderThms OrderExamples ConvSpec ConvThms ConvExamples GridSpec GridThms GridExamples RevSpec RevThms RevThms2 RevExamples StiffSpec StiffThms StiffExamples
  MonoSpec MonoThms MonoThms2 MonoThms3 MonoThms4 MonoExamples SuperSpec SuperThms DissSpec DissThms DissThms2 DissThms3 DissThms4.
Import ListNotations.
Open Scope R_scope.

(** ** [x' = lam (x - t ^ 2) + 2 t], with the solution [x = t ^ 2]: stiff for large [- lam] *)
Definition pf (lam : R) : daefun R := DaeFun 1 0 0 0 0 1 1 (fun _ => true) (fun v _ => a_xdot v 0%nat - (lam * (a_x v 0%nat - a_t v * a_t v) + 2 * a_t v)) (fun v _ => a_x v 0%nat).
Lemma pf_ok lam : DaeOk (pf lam).
Proof. split; [|split]; cbn; [intros v w r (H1 & H2 & _ & _ & _ & H3 & _)|intros v w r (_ & H2 & _)|discriminate]; cbn in *; rewrite ?(H1 0%nat), (H2 0%nat), ?H3 by lia; reflexivity. Qed.
Lemma pf_diff lam v w : Solves (pf lam) v -> Solves (pf lam) w -> SameInput (pf lam) v w -> a_xdot v 0%nat - a_xdot w 0%nat = lam * (a_x v 0%nat - a_x w 0%nat).
Proof. intros Hv Hw (_ & _ & Ht & _). pose proof (Hv 0%nat ltac:(cbn; lia)) as V. pose proof (Hw 0%nat ltac:(cbn; lia)) as W. cbn in V, W. rewrite Ht in V. lra. Qed.
Lemma pf_onesided lam : lam <= 0 -> OneSided (pf lam) S1 0.
Proof. intros Hl v w Hv Hw SI. unfold quad. cbn. rewrite (pf_diff lam v w Hv Hw SI). pose proof (Rle_0_sqr (a_x v 0%nat - a_x w 0%nat)) as Hs. unfold Rsqr in Hs. nra. Qed.
Lemma pf_lip lam : LipDae (pf lam) (Rabs lam).
Proof. intros v w Hv Hw SI e He i Hi. cbn in Hi. assert (i = 0%nat) as -> by lia. rewrite (pf_diff lam v w Hv Hw SI), Rabs_mult. apply Rmult_le_compat_l; [apply Rabs_pos|]. apply He. cbn. lia. Qed.
Lemma pf_res lam : Resolvable (pf lam) (fun v _ => lam * (a_x v 0%nat - a_t v * a_t v) + 2 * a_t v) (fun _ _ => 0).
Proof. intros v r Hr. cbn in Hr. assert (r = 0%nat) as -> by lia. cbn. ring. Qed.
Lemma norm_1 v : norm 1 S1 v = Rabs (v 0%nat).
Proof. unfold norm, quad. cbn. replace (0 + (0 + 1 * (v 0%nat * v 0%nat))) with (Rsqr (v 0%nat)) by (unfold Rsqr; ring). apply sqrt_Rsqr_abs. Qed.
Lemma pf_close : Close [0; 1] 1 1 (fun s => s * s) (fun s => 2 * s).
Proof.
  intros n Hn. destruct (step01 n Hn) as [-> _]. split.
  - intros s Hs. apply (is_RInt_derive (V := R_CompleteNormedModule) (fun s => s * s) (fun s => 2 * s)); [intros x _; auto_derive; [trivial|ring]|intros x _; apply (continuous_scal_r (K := R_AbsRing) (V := R_NormedModule)), continuous_id].
  - exists (fun _ => 1). split; [exists [1]; split; [simpl; lia|intros; simpl; ring]|]. intros s Hs. unfold node in Hs. simpl in Hs. apply Rabs_le. lra.
Qed.
(** One step of implicit Euler: one bound for all [lam] *)
Example stiff_ex : exists C, forall lam x K Z s e, lam <= 0 -> VarsOk (pf lam) (ivals [0; 1]) 1 false x K Z (non 1) (non 1) -> scheme_ (lpts 1) (pf lam) [0; 1] 1 "m" None false x K Z (non 1) (non 1) = Ok s -> veccat_master (sc_eq s) = Ok e -> AllZero e ->
  Rabs (at_m x 0 1 - 1) <= Rabs (at_m x 0 0) + C.
Proof.
  destruct (stiff_error [1] 1 S1 (nd1 1) ltac:(simpl; lia) ltac:(right; split; [apply ortho_0|simpl; auto]) one_posdef) as (C & HC & B). exists C. intros lam x K Z s e Hl HV Es Ee Hz.
  destruct (B (lpts 1) (pf lam) [0; 1] 1%nat "m"%string None 0 (Rabs lam) (fun v _ => lam * (a_x v 0%nat - a_t v * a_t v) + 2 * a_t v) (fun _ _ => 0) 1 (fun _ s => 2 * s) (fun _ s => s * s) (fun _ _ => 0) (fun _ _ => 0) (fun _ => 0) (non 1) (non 1) (lpts_ok 1) lt_len (pf_ok lam) eq_refl eq_refl lt_asc (pf_onesided lam Hl)) as [B1 _].
  - split; [lra|]. intros. lra.
  - apply pf_res.
  - apply pf_lip.
  - lra.
  - intros v r Hv Hr. cbn. ring.
  - split; cbn; intros; lia.
  - intros i Hi. exact pf_close.
  - destruct (B1 false x K Z s e HV Es Ee Hz) as [G _]. specialize (G 1%nat ltac:(unfold ivals; simpl; lia)). rewrite !norm_1 in G. unfold node in G. simpl in G. rewrite Rmult_0_r, Rmult_0_l, exp_0 in G. replace (1 * 1) with 1 in G by ring. replace (at_m x 0 0 - 0 * 0) with (at_m x 0 0) in G by ring. lra.
Qed.
(** With other points errors may grow: [x' = - 8 x] with the point 1/4, from 1 to 5/3. *)
Theorem other_points_refuted : OneSided (bf (- 8)) S1 0 /\ PosDef 1 S1 /\ Resolvable (bf (- 8)) (fun v _ => (- 8) * a_x v 0%nat) (fun _ _ => 0) /\ LipDae (bf (- 8)) (Rabs (- 8)) /\ SolvesDae (bf (- 8)) [0; 1] (fun _ _ => 0) (fun _ _ => 0) (fun _ _ => 0) (fun _ _ => 0) (fun _ => 0) None /\
  Close [0; 1] 1 0 (fun _ => 0) (fun _ => 0) /\ exists y1 k s e, bsch (1 / 4) (- 8) 1 y1 k = Ok s /\ veccat_master (sc_eq s) = Ok e /\ AllZero e /\ Rabs (at_m (bx 1 y1) 0 0) < Rabs (at_m (bx 1 y1) 0 1).
Proof.
  split; [|split; [exact one_posdef|split; [apply bf_res|split; [apply bf_lip|split; [|split]]]]].
  - intros v w Hv Hw SI. eapply Rle_trans; [exact (bf_onesided (- 8) v w Hv Hw SI)|]. unfold quad. cbn. pose proof (Rle_0_sqr (a_x v 0%nat - a_x w 0%nat)) as Hs. unfold Rsqr in Hs. nra.
  - intros v r Hv Hr. cbn. ring.
  - intros n Hn. split; [intros s _; evar_last; [apply (is_RInt_const (V := R_CompleteNormedModule) _ s 0)|unfold scal; simpl; unfold mult; simpl; ring]|]. exists (fun _ => 0). split; [exists []; split; [simpl; lia|intros; reflexivity]|]. intros s _. rewrite Rminus_0_r, Rabs_R0. lra.
  - destruct (bsolves (- 8) (1 / 4) 1 (- 5 / 3) (- 8 / 3)) as (s & e & Es & Ee & Hz); [lra|lra|]. exists (- 5 / 3), (- 8 / 3), s, e. repeat (split; [assumption|]). cbn. rewrite Rabs_R1, Rabs_left by lra. lra.
Qed.
