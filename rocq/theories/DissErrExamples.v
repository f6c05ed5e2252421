(** Examples for errors of algebraic states and quadratures that do not depend on stiffness (C112). *)
From Coq Require Import Reals Lra Lia List.
From Coquelicot Require Import Coquelicot.
From Verif Require Import PyBase IndexModel DMModel DMProofs StructModel StructSpec PowerModel EntryModel StructsModel IneqModel DaeModel StructsSpec StructsThms11 NumModel NumInst NumSpec PolynomialModel PiecewiseModel PdqModel SchemeModel
  PolySpec PiecewiseSpec PdqSpec SchemeSpec PolyMath PolynomialBase PolynomialThms PolynomialThms2 PiecewiseThms PdqThms PdqThms2 SchemeThms SchemeThms2 SchemeThms3 SchemeThms4 SchemeThms5 SchemeExamples OrderSpec OrderMath OrderThms OrderExamples ConvSpec ConvThms ConvExamples GridSpec GridThms GridExamples RevSpec RevThms RevThms2 RevExamples StiffSpec StiffThms StiffExamples
  MonoSpec MonoThms MonoThms2 MonoThms3 MonoThms4 MonoExamples SuperSpec SuperThms DissSpec DissThms DissThms2 DissThms3 DissThms4 DissExamples ErrSpec ErrThms DissErrThms.
Import ListNotations.

(** ** [x' = lam (x - t ^ 2) + 2 t], [0 = z - 3 x], [q' = x], with the solution [x = t ^ 2], [z = 3 t ^ 2], [q = t ^ 3 / 3] *)
Definition zf (lam : R) : daefun R := DaeFun 1 1 0 0 0 2 1 (fun _ => true) (fun v r => match r with O => a_xdot v 0%nat - (lam * (a_x v 0%nat - a_t v * a_t v) + 2 * a_t v) | _ => a_z v 0%nat - 3 * a_x v 0%nat end) (fun v _ => a_x v 0%nat).
Lemma zf_ok lam : DaeOk (zf lam).
Proof. split; [|split]; cbn; [intros v w r (H1 & H2 & H4 & _ & _ & H3 & _)|intros v w r (_ & H2 & _)|discriminate]; cbn in *; rewrite ?(H1 0%nat), (H2 0%nat), ?(H4 0%nat), ?H3 by lia; reflexivity. Qed.
Lemma zf_diff lam v w : Solves (zf lam) v -> Solves (zf lam) w -> SameInput (zf lam) v w -> a_xdot v 0%nat - a_xdot w 0%nat = lam * (a_x v 0%nat - a_x w 0%nat) /\ a_z v 0%nat - a_z w 0%nat = 3 * (a_x v 0%nat - a_x w 0%nat).
Proof.
  intros Hv Hw (_ & _ & Ht & _). pose proof (Hv 0%nat ltac:(cbn; lia)) as V. pose proof (Hw 0%nat ltac:(cbn; lia)) as W. pose proof (Hv 1%nat ltac:(cbn; lia)) as V'. pose proof (Hw 1%nat ltac:(cbn; lia)) as W'. cbn in V, W, V', W'. rewrite Ht in V. lra.
Qed.
Lemma zf_onesided lam : lam <= 0 -> OneSided (zf lam) S1 0.
Proof. intros Hl v w Hv Hw SI. unfold quad. cbn. rewrite (proj1 (zf_diff lam v w Hv Hw SI)). pose proof (Rle_0_sqr (a_x v 0%nat - a_x w 0%nat)) as Hs. unfold Rsqr in Hs. nra. Qed.
Lemma zf_lip lam : LipDae (zf lam) (Rabs lam).
Proof. intros v w Hv Hw SI e He i Hi. cbn in Hi. assert (i = 0%nat) as -> by lia. rewrite (proj1 (zf_diff lam v w Hv Hw SI)), Rabs_mult. apply Rmult_le_compat_l; [apply Rabs_pos|]. apply He. cbn. lia. Qed.
Lemma zf_lipz lam : LipZ (zf lam) 3.
Proof. intros v w Hv Hw SI e He i Hi. cbn in Hi. assert (i = 0%nat) as -> by lia. rewrite (proj2 (zf_diff lam v w Hv Hw SI)), Rabs_mult, (Rabs_pos_eq 3) by lra. apply Rmult_le_compat_l; [lra|]. apply He. cbn. lia. Qed.
Lemma zf_lipq lam : LipQ (zf lam) 1.
Proof. intros v w _ _ _ e He i Hi. cbn. rewrite Rmult_1_l. apply He. cbn. lia. Qed.
Lemma zf_res lam : Resolvable (zf lam) (fun v _ => lam * (a_x v 0%nat - a_t v * a_t v) + 2 * a_t v) (fun v _ => 3 * a_x v 0%nat).
Proof. intros v r Hr. destruct r; cbn; ring. Qed.
Lemma zf_closeq : Close [0; 1] 1 1 (fun s => s * s * s / 3) (fun s => s * s).
Proof.
  intros n Hn. destruct (step01 n Hn) as [-> _]. split.
  - intros s Hs. apply (is_RInt_derive (V := R_CompleteNormedModule) (fun s => s * s * s / 3) (fun s => s * s)); [intros x _; auto_derive; [trivial|field]|intros x _; apply (continuous_mult (K := R_AbsRing)); apply continuous_id].
  - exists (fun _ => 0). split; [exists []; split; [simpl; lia|intros; simpl; ring]|]. intros s Hs. unfold node in Hs. simpl in Hs. apply Rabs_le. nra.
Qed.
Lemma zf_solves lam : SolvesDae (zf lam) [0; 1] (fun _ s => 2 * s) (fun _ s => s * s) (fun _ s => 3 * (s * s)) (fun _ _ => 0) (fun _ => 0) None.
Proof. intros v r Hv Hr. destruct r; cbn; ring. Qed.
(** One step of implicit Euler from the exact initial value: one bound for all [lam], for the algebraic state, the quadrature and the trajectory *)
Example stiff_outputs_ex : exists C, forall lam x K Z s e pp, lam <= 0 -> at_m x 0 0 = 0 -> VarsOk (zf lam) (ivals [0; 1]) 1 false x K Z (non 1) (non 1) -> scheme_ (lpts 1) (zf lam) [0; 1] 1 "m" None false x K Z (non 1) (non 1) = Ok s -> veccat_master (sc_eq s) = Ok e -> AllZero e -> piecewise_X s x K = Ok pp ->
  Rabs (at_m Z 0 0 - 3 * (node (sc_tc s) 0 * node (sc_tc s) 0)) <= C /\ Rabs (at_m (sc_q s) 0 1 - 1 / 3) <= C /\ forall v, 0 < v <= 1 -> Rabs (ppval pp "left" 0 v - v * v) <= C.
Proof.
  destruct (stiff_outputs [1] 1 S1 (nd1 1) ltac:(simpl; lia) ltac:(right; split; [apply ortho_0|simpl; auto]) one_posdef) as (C & al & HC & Ha & B). destruct (stiff_dense [1] 1 S1 (nd1 1) ltac:(simpl; lia) ltac:(right; split; [apply ortho_0|simpl; auto]) one_posdef) as (C' & c & HC' & Hc & B').
  assert (P1 : 0 <= C * (0 + 1 * (C * 1))) by nra. assert (P2 : 0 <= al * (1 * (C * (1 * (0 + 1 * (C * 1))))) + (1 + al) * 1) by (rewrite !Rmult_1_l, !Rmult_1_r, Rplus_0_l in *; nra). assert (P3 : 0 <= c * (C' + 1)) by nra.
  exists (3 * (C * (1 * (0 + 1 * (C * 1)))) + (al * (1 * (C * (1 * (0 + 1 * (C * 1))))) + (1 + al) * 1) + c * (C' + 1)). intros lam x K Z s e pp Hl X0 HV Es Ee Hz Epp.
  assert (HMs : MildSteps [0; 1] 0) by (split; [lra|intros; lra]). assert (HFe : FedBy (zf lam) [0; 1] (non 1) (non 1) (fun _ _ => 0) (fun _ => 0)) by (split; cbn; intros; lia).
  destruct (B (lpts 1) (zf lam) [0; 1] 1%nat "m"%string None 0 (Rabs lam) _ _ 1 (fun _ s => 2 * s) (fun _ s => s * s) (fun _ s => 3 * (s * s)) (fun _ _ => 0) (fun _ => 0) (non 1) (non 1) (lpts_ok 1) lt_len (zf_ok lam) eq_refl eq_refl lt_asc (zf_onesided lam Hl) HMs (zf_res lam) (zf_lip lam) Rle_0_1 (zf_solves lam) HFe (fun i Hi => pf_close) 3 1 1 (fun _ s => s * s * s / 3) (fun _ s => s * s) (zf_lipz lam) Rle_0_1 Rle_0_1 (zf_lipq lam) (fun i Hi => zf_closeq) ltac:(intros; reflexivity)) as [B1 _].
  destruct (B' (lpts 1) (zf lam) [0; 1] 1%nat "m"%string None 0 (Rabs lam) _ _ 1 (fun _ s => 2 * s) (fun _ s => s * s) (fun _ s => 3 * (s * s)) (fun _ _ => 0) (fun _ => 0) (non 1) (non 1) (lpts_ok 1) lt_len (zf_ok lam) eq_refl eq_refl lt_asc (zf_onesided lam Hl) HMs (zf_res lam) (zf_lip lam) Rle_0_1 (zf_solves lam) HFe (fun i Hi => pf_close)) as [B1' _].
  destruct (B1 false x K Z s e HV Es Ee Hz) as (G1 & G2 & _). pose proof (B1' false x K Z s e pp HV Es Ee Hz Epp) as G3. specialize (G1 0%nat 0%nat 0%nat ltac:(unfold ivals; simpl; lia) ltac:(lia) ltac:(cbn; lia)). specialize (G2 1%nat 0%nat ltac:(unfold ivals; simpl; lia) ltac:(cbn; lia)).
  assert (N0 : norm 1 S1 (fun i => at_m x i 0 - node [0; 1] 0 * node [0; 1] 0) = 0) by (rewrite norm_1, X0; unfold node; simpl; rewrite Rmult_0_r, Rminus_0_r; apply Rabs_R0).
  rewrite N0 in G1, G2. cbn [Nat.add Nat.mul] in G1. change (node [0; 1] 1) with 1 in G1, G2. change (node [0; 1] 0) with 0 in G1, G2. rewrite !Rmult_0_r, Rmult_0_l, exp_0, Rminus_0_r in G1. rewrite !Rmult_0_r, !Rmult_0_l, exp_0, !Rminus_0_r in G2.
  split; [lra|]. split; [replace (1 * 1 * 1 / 3 - 0 / 3) with (1 / 3) in G2 by field; lra|].
  intros v Hv. specialize (G3 0%nat 0%nat v ltac:(unfold ivals; simpl; lia) ltac:(lia)). rewrite N0 in G3. cbn [Nat.add] in G3. unfold step in G3. cbn [Nat.add] in G3. change (node [0; 1] 1) with 1 in G3. change (node [0; 1] 0) with 0 in G3. specialize (G3 Hv). rewrite !Rmult_0_r, Rmult_0_l, exp_0, Rminus_0_r in G3.
  replace (c * (1 * (0 + 1 * (C' * 1)) + 1 * 1)) with (c * (C' + 1)) in G3 by ring. lra.
Qed.
(** There are such results for all [lam]. *)
Definition zx (lam : R) : mat R := Mat 1 2 (fun _ k => match k with O => 0 | _ => (2 - lam) / (1 - lam) end).
Definition zK (lam : R) : mat R := Mat 1 1 (fun _ _ => (2 - lam) / (1 - lam)).
Definition zZ (lam : R) : mat R := Mat 1 1 (fun _ _ => 3 * ((2 - lam) / (1 - lam))).
Example zf_results lam : lam <= 0 -> exists s e pp, at_m (zx lam) 0 0 = 0 /\ VarsOk (zf lam) (ivals [0; 1]) 1 false (zx lam) (zK lam) (zZ lam) (non 1) (non 1) /\ scheme_ (lpts 1) (zf lam) [0; 1] 1 "m" None false (zx lam) (zK lam) (zZ lam) (non 1) (non 1) = Ok s /\
  veccat_master (sc_eq s) = Ok e /\ AllZero e /\ piecewise_X s (zx lam) (zK lam) = Ok pp.
Proof.
  intros Hl. assert (HV : VarsOk (zf lam) (ivals [0; 1]) 1 false (zx lam) (zK lam) (zZ lam) (non 1) (non 1)) by (repeat split).
  destruct (scheme_all (lpts 1) (zf lam) [0; 1] 1 "m" [1] None false (zx lam) (zK lam) (zZ lam) (non 1) (non 1) (lpts_ok 1) lt_len (zf_ok lam) eq_refl HV _ _ (one_rk 1)) as (s & e & Es & Ee & Hz & _).
  assert (H0 : AllZero e).
  { apply Hz. split; [|split; [|discriminate]].
    - intros n j r Hn Hj Hr. destruct (step01 n Hn) as [-> St]. unfold stage, stage_x. assert (j = 0%nat) as -> by lia. destruct r; cbn [zf f_dae a_xdot a_x a_z a_t]; rewrite St; unfold stage_t; rewrite ?St; cbn; field; lra.
    - intros n i Hn Hi. destruct (step01 n Hn) as [-> St]. rewrite St. cbn. field. lra. }
  destruct (solution_trajectory (lpts 1) (zf lam) [0; 1] 1 "m" [1] None false (zx lam) (zK lam) (zZ lam) (non 1) (non 1) (lpts_ok 1) lt_len (zf_ok lam) eq_refl HV lt_asc (gr_inside [1] ltac:(right; split; [apply ortho_0|simpl; auto])) s e Es Ee H0) as (pp & _ & Epp & _).
  exists s, e, pp. repeat (split; [first [reflexivity|assumption]|]). exact Epp.
Qed.
