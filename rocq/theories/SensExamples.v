(** Examples for the dependence of collocation on its inputs (C113). *)
From Coq Require Import Reals Lra Lia List.
From Coquelicot Require Import Coquelicot.
From Verif Require Import PyBase IndexModel DMModel DMProofs StructModel StructSpec PowerModel EntryModel StructsModel IneqModel DaeModel StructsSpec StructsThms11 NumModel NumInst NumSpec PolynomialModel PiecewiseModel PdqModel SchemeModel
  PolySpec PiecewiseSpec PdqSpec SchemeSpec PolyMath PolynomialBase PolynomialThms PolynomialThms2 PiecewiseThms PdqThms PdqThms2 SchemeThms SchemeThms2 SchemeThms3 SchemeThms4 SchemeThms5 SchemeExamples OrderSpec OrderMath OrderThms OrderExamples ConvSpec ConvThms ConvExamples GridSpec GridThms GridExamples RevSpec RevThms RevThms2 RevExamples StiffSpec StiffThms StiffExamples
  MonoSpec MonoThms MonoThms2 MonoThms3 MonoThms4 MonoExamples SuperSpec SuperThms DissSpec DissThms DissThms2 DissThms3 DissThms4 DissExamples ErrSpec ErrThms DissErrThms SensSpec SensThms SensThms2.
Import ListNotations.

(** ** [x' = lam x + u], [0 = z - 3 x - u], [q' = x + u] *)
Definition uf (lam : R) : daefun R := DaeFun 1 1 1 0 0 2 1 (fun _ => true) (fun v r => match r with O => a_xdot v 0%nat - (lam * a_x v 0%nat + a_u v 0%nat) | _ => a_z v 0%nat - 3 * a_x v 0%nat - a_u v 0%nat end) (fun v _ => a_x v 0%nat + a_u v 0%nat).
Lemma uf_ok lam : DaeOk (uf lam).
Proof. split; [|split]; cbn; [intros v w r (H1 & H2 & H4 & H5 & _)|intros v w r (_ & H2 & _ & H5 & _)|discriminate]; cbn in *; rewrite ?(H1 0%nat), (H2 0%nat), ?(H4 0%nat), (H5 0%nat) by lia; reflexivity. Qed.
Lemma uf_diff lam v w : Solves (uf lam) v -> Solves (uf lam) w -> a_xdot v 0%nat - a_xdot w 0%nat = lam * (a_x v 0%nat - a_x w 0%nat) + (a_u v 0%nat - a_u w 0%nat) /\ a_z v 0%nat - a_z w 0%nat = 3 * (a_x v 0%nat - a_x w 0%nat) + (a_u v 0%nat - a_u w 0%nat).
Proof. intros Hv Hw. pose proof (Hv 0%nat ltac:(cbn; lia)) as V. pose proof (Hw 0%nat ltac:(cbn; lia)) as W. pose proof (Hv 1%nat ltac:(cbn; lia)) as V'. pose proof (Hw 1%nat ltac:(cbn; lia)) as W'. cbn in V, W, V', W'. lra. Qed.
Lemma uf_onesided lam : lam <= 0 -> OneSided (uf lam) S1 0.
Proof. intros Hl v w Hv Hw (Hu & _). unfold quad. cbn. rewrite (proj1 (uf_diff lam v w Hv Hw)), (Hu 0%nat) by (cbn; lia). pose proof (Rle_0_sqr (a_x v 0%nat - a_x w 0%nat)) as Hs. unfold Rsqr in Hs. nra. Qed.
Lemma uf_lip lam : LipDae (uf lam) (Rabs lam).
Proof. intros v w Hv Hw (Hu & _) e He i Hi. cbn in Hi. assert (i = 0%nat) as -> by lia. rewrite (proj1 (uf_diff lam v w Hv Hw)), (Hu 0%nat), Rminus_eq_0, Rplus_0_r, Rabs_mult by (cbn; lia). apply Rmult_le_compat_l; [apply Rabs_pos|]. apply He. cbn. lia. Qed.
Lemma uf_res lam : Resolvable (uf lam) (fun v _ => lam * a_x v 0%nat + a_u v 0%nat) (fun v _ => 3 * a_x v 0%nat + a_u v 0%nat).
Proof. intros v r Hr. destruct r; cbn; ring. Qed.
Lemma uf_lipin lam : LipInput (uf lam) 1.
Proof. intros v w Hv Hw Hx d (Hu & _) i Hi. cbn in Hi. assert (i = 0%nat) as -> by lia. rewrite (proj1 (uf_diff lam v w Hv Hw)), (Hx 0%nat) by (cbn; lia). specialize (Hu 0%nat ltac:(cbn; lia)). rewrite Rminus_eq_0, Rmult_0_r, Rplus_0_l, Rmult_1_l. exact Hu. Qed.
Lemma uf_lipz lam : LipZin (uf lam) 3 1.
Proof. intros v w Hv Hw e d He (Hu & _) i Hi. cbn in Hi. assert (i = 0%nat) as -> by lia. rewrite (proj2 (uf_diff lam v w Hv Hw)). specialize (Hu 0%nat ltac:(cbn; lia)). specialize (He 0%nat ltac:(cbn; lia)). apply Rabs_le_between in Hu. apply Rabs_le_between in He. apply Rabs_le. lra. Qed.
Lemma uf_lipq lam : LipQin (uf lam) 1 1.
Proof. intros v w Hv Hw e d He (Hu & _) i Hi. cbn. specialize (Hu 0%nat ltac:(cbn; lia)). specialize (He 0%nat ltac:(cbn; lia)). apply Rabs_le_between in Hu. apply Rabs_le_between in He. apply Rabs_le. lra. Qed.
Definition cu (v : R) : mat R := Mat 1 1 (fun _ _ => v).
(** One step of implicit Euler under two controls: one bound for all [lam] *)
Example sens_ex : exists C, forall lam d v x K Z s e v' x' K' Z' s' e', lam <= 0 -> Rabs (v - v') <= d -> at_m x 0 0 = at_m x' 0 0 ->
  VarsOk (uf lam) (ivals [0; 1]) 1 false x K Z (cu v) (non 1) -> scheme_ (lpts 1) (uf lam) [0; 1] 1 "m" None false x K Z (cu v) (non 1) = Ok s -> veccat_master (sc_eq s) = Ok e -> AllZero e ->
  VarsOk (uf lam) (ivals [0; 1]) 1 false x' K' Z' (cu v') (non 1) -> scheme_ (lpts 1) (uf lam) [0; 1] 1 "m" None false x' K' Z' (cu v') (non 1) = Ok s' -> veccat_master (sc_eq s') = Ok e' -> AllZero e' ->
  Rabs (at_m x 0 1 - at_m x' 0 1) <= C * d /\ Rabs (at_m Z 0 0 - at_m Z' 0 0) <= C * d /\ Rabs (at_m (sc_q s) 0 1 - at_m (sc_q s') 0 1) <= C * d.
Proof.
  destruct (sens_scheme [1] 1 S1 (nd1 1) ltac:(simpl; lia) ltac:(right; split; [apply ortho_0|simpl; auto]) one_posdef) as (C & al & HC & Ha & B).
  exists (C + (3 * (C * C) + 1) + al * (C * C + 1)). intros lam d v x K Z s e v' x' K' Z' s' e' Hl Hv X0 HV Es Ee Hz HV' Es' Ee' Hz'. assert (Hd0 : 0 <= d) by (pose proof (Rabs_pos (v - v')); lra).
  assert (HMs : MildSteps [0; 1] 0) by (split; [lra|]; intros; lra).
  assert (HN : NearInputs (uf lam) [0; 1] d None None (cu v) (non 1) (cu v') (non 1)) by (split; [intros i n _ _; exact Hv|]; split; cbn; intros; lia).
  destruct (B (lpts 1) (uf lam) [0; 1] 1%nat "m"%string 0 (Rabs lam) _ _ 1 d None None false false x K Z (cu v) (non 1) s e x' K' Z' (cu v') (non 1) s' e' (lpts_ok 1) lt_len (uf_ok lam) eq_refl eq_refl eq_refl lt_asc (uf_onesided lam Hl) HMs (uf_res lam) (uf_lip lam) Rle_0_1 Hd0 (uf_lipin lam) HN HV Es Ee Hz HV' Es' Ee' Hz') as (G1 & _ & G3 & G4).
  assert (N0 : norm 1 S1 (fun i => at_m x i 0 - at_m x' i 0) = 0) by (rewrite norm_1, X0, Rminus_eq_0; apply Rabs_R0). rewrite N0 in *.
  specialize (G1 1%nat ltac:(unfold ivals; simpl; lia)). specialize (G3 3 1 (uf_lipz lam) 0%nat 0%nat 0%nat ltac:(unfold ivals; simpl; lia) ltac:(lia) ltac:(cbn; lia)). destruct (G4 1 1 Rle_0_1 Rle_0_1 (uf_lipq lam)) as [G5 _]. specialize (G5 1%nat 0%nat ltac:(unfold ivals; simpl; lia) ltac:(cbn; lia)).
  rewrite norm_1 in G1. cbn [Nat.add Nat.mul] in G3. change (node [0; 1] 1) with 1 in *. change (node [0; 1] 0) with 0 in *. rewrite !Rmult_0_r, Rmult_0_l, exp_0, ?Rminus_0_r in G1, G3, G5.
  assert (P1 : 0 <= C * d) by now apply Rmult_le_pos. assert (P2 : 0 <= C * C * d) by (apply Rmult_le_pos; [now apply Rmult_le_pos|exact Hd0]). assert (P3 : 0 <= al * (C * C + 1) * d) by (apply Rmult_le_pos; [apply Rmult_le_pos; [exact Ha|]; pose proof (Rmult_le_pos C C HC HC); lra|exact Hd0]).
  split; [|split]; [eapply Rle_trans; [exact G1|]|eapply Rle_trans; [exact G3|]|eapply Rle_trans; [exact G5|]]; lra.
Qed.
(** There are such results for all [lam] and controls. *)
Definition ux (lam v : R) : mat R := Mat 1 2 (fun _ k => match k with O => 0 | _ => v / (1 - lam) end).
Definition uK (lam v : R) : mat R := Mat 1 1 (fun _ _ => v / (1 - lam)).
Definition uZ (lam v : R) : mat R := Mat 1 1 (fun _ _ => 3 * (v / (1 - lam)) + v).
Example uf_results lam v : lam < 1 -> exists s e, at_m (ux lam v) 0 0 = 0 /\ VarsOk (uf lam) (ivals [0; 1]) 1 false (ux lam v) (uK lam v) (uZ lam v) (cu v) (non 1) /\ scheme_ (lpts 1) (uf lam) [0; 1] 1 "m" None false (ux lam v) (uK lam v) (uZ lam v) (cu v) (non 1) = Ok s /\ veccat_master (sc_eq s) = Ok e /\ AllZero e.
Proof.
  intros Hl. assert (HV : VarsOk (uf lam) (ivals [0; 1]) 1 false (ux lam v) (uK lam v) (uZ lam v) (cu v) (non 1)) by (repeat split).
  destruct (scheme_all (lpts 1) (uf lam) [0; 1] 1 "m" [1] None false (ux lam v) (uK lam v) (uZ lam v) (cu v) (non 1) (lpts_ok 1) lt_len (uf_ok lam) eq_refl HV _ _ (one_rk 1)) as (s & e & Es & Ee & Hz & _).
  exists s, e. repeat (split; [first [reflexivity|assumption]|]). apply Hz. split; [|split; [|discriminate]].
  - intros n j r Hn Hj Hr. destruct (step01 n Hn) as [-> St]. unfold stage, stage_x. assert (j = 0%nat) as -> by lia. destruct r; cbn [uf f_dae a_xdot a_x a_z a_u]; rewrite St; cbn; field; lra.
  - intros n i Hn Hi. destruct (step01 n Hn) as [-> St]. rewrite St. cbn. field. lra.
Qed.
