(** Examples for the dependence of collocation on its inputs for short steps (C114). *)
From Coq Require Import Reals Lra Lia List.
From Coquelicot Require Import Coquelicot.
From Verif Require Import PyBase IndexModel DMModel DMProofs StructModel StructSpec PowerModel EntryModel StructsModel IneqModel DaeModel StructsSpec StructsThms11 NumModel NumInst NumSpec PolynomialModel PiecewiseModel PdqModel SchemeModel
  PolySpec PiecewiseSpec PdqSpec SchemeSpec PolyMath PolynomialBase PolynomialThms PolynomialThms2 PiecewiseThms PdqThms PdqThms2 SchemeThms SchemeThms2 SchemeThms3 SchemeThms4 SchemeThms5 SchemeExamples OrderSpec OrderMath OrderThms OrderExamples ConvSpec ConvThms ConvExamples GridSpec GridThms GridExamples RevSpec RevThms RevThms2 RevExamples StiffSpec StiffThms StiffExamples
  MonoSpec MonoThms MonoThms2 MonoThms3 MonoThms4 MonoExamples SuperSpec SuperThms DissSpec DissThms DissThms2 DissThms3 DissThms4 DissExamples ErrSpec ErrThms DissErrThms SensSpec SensThms SensThms2 SensExamples Sens2Spec SensThms3.
Import ListNotations.

Lemma uf_lipx lam : LipXin (uf lam) (Rabs lam) 1.
Proof.
  intros v w Hv Hw e d He (Hu & _) i Hi. cbn in Hi. assert (i = 0%nat) as -> by lia. rewrite (proj1 (uf_diff lam v w Hv Hw)). specialize (Hu 0%nat ltac:(cbn; lia)). specialize (He 0%nat ltac:(cbn; lia)).
  eapply Rle_trans; [apply Rabs_triang|]. rewrite Rabs_mult. apply Rplus_le_compat; [apply Rmult_le_compat_l; [apply Rabs_pos|exact He]|lra].
Qed.
(** [x' = x / 2 + u] (growing), one step of implicit Euler: the difference of the final states is at most [exp 1 * (e0 + d)]; it is [2 (e0 + d)] in truth. *)
Example sens_short_ex v x K Z s e v' x' K' Z' s' e' d e0 : Rabs (v - v') <= d -> Rabs (at_m x 0 0 - at_m x' 0 0) <= e0 ->
  VarsOk (uf (1 / 2)) (ivals [0; 1]) 1 false x K Z (cu v) (non 1) -> scheme_ (lpts 1) (uf (1 / 2)) [0; 1] 1 "m" None false x K Z (cu v) (non 1) = Ok s -> veccat_master (sc_eq s) = Ok e -> AllZero e ->
  VarsOk (uf (1 / 2)) (ivals [0; 1]) 1 false x' K' Z' (cu v') (non 1) -> scheme_ (lpts 1) (uf (1 / 2)) [0; 1] 1 "m" None false x' K' Z' (cu v') (non 1) = Ok s' -> veccat_master (sc_eq s') = Ok e' -> AllZero e' ->
  Rabs (at_m x 0 1 - at_m x' 0 1) <= exp 1 * (e0 + d) /\ Rabs (at_m K 0 0 - at_m K' 0 0) <= exp 1 * (e0 + d) + d.
Proof.
  intros Hv X0 HV Es Ee Hz HV' Es' Ee' Hz'. assert (Hd0 : 0 <= d) by (pose proof (Rabs_pos (v - v')); lra). assert (He0 : 0 <= e0) by (pose proof (Rabs_pos (at_m x 0 0 - at_m x' 0 0)); lra).
  assert (HN : NearInputs (uf (1 / 2)) [0; 1] d None None (cu v) (non 1) (cu v') (non 1)) by (split; [intros i n _ _; exact Hv|]; split; cbn; intros; lia).
  assert (HS : ShortSteps [0; 1] 1 (Rabs (1 / 2))) by (rewrite Rabs_pos_eq by lra; split; [lra|]; intros n Hn; destruct (step01 n Hn) as [-> ->]; lra).
  assert (Hal : CoefBound [1] 1) by (eexists _, _; split; [apply (one_rk 1)|]; split; [intros j Hj|]; simpl; rewrite ?Rplus_0_l, Rabs_R1; lra).
  assert (HU : InUnit [1]) by (intros j Hj; simpl in Hj; assert (j = 0%nat) as -> by lia; unfold node; simpl; lra).
  destruct (sens_short (lpts 1) (uf (1 / 2)) [0; 1] 1 "m" [1] None None (lpts_ok 1) lt_len (uf_ok _) eq_refl eq_refl lt_asc HU 1 (Rabs (1 / 2)) 1 d e0 Hal HS (uf_lipx _) Rle_0_1 Hd0 false false x K Z (cu v) (non 1) s e x' K' Z' (cu v') (non 1) s' e' HN HV Es Ee Hz HV' Es' Ee' Hz' He0) as (G1 & _ & G3 & _).
  - intros i Hi. cbn in Hi. assert (i = 0%nat) as -> by lia. exact X0.
  - specialize (G1 1%nat 0%nat ltac:(unfold ivals; simpl; lia) ltac:(cbn; lia)). specialize (G3 0%nat 0%nat 0%nat ltac:(unfold ivals; simpl; lia) ltac:(lia) ltac:(cbn; lia)). cbn [Nat.add Nat.mul] in G3. change (node [0; 1] 1) with 1 in *. change (node [0; 1] 0) with 0 in *.
    rewrite (Rabs_pos_eq (1 / 2)) in G1, G3 by lra. replace (2 * 1 * (1 / 2) * (1 - 0)) with 1 in G1, G3 by field. split; lra.
Qed.
(** There are such results. *)
Example short_results v v' : exists x K Z s e x' K' Z' s' e', VarsOk (uf (1 / 2)) (ivals [0; 1]) 1 false x K Z (cu v) (non 1) /\ scheme_ (lpts 1) (uf (1 / 2)) [0; 1] 1 "m" None false x K Z (cu v) (non 1) = Ok s /\ veccat_master (sc_eq s) = Ok e /\ AllZero e /\
  VarsOk (uf (1 / 2)) (ivals [0; 1]) 1 false x' K' Z' (cu v') (non 1) /\ scheme_ (lpts 1) (uf (1 / 2)) [0; 1] 1 "m" None false x' K' Z' (cu v') (non 1) = Ok s' /\ veccat_master (sc_eq s') = Ok e' /\ AllZero e' /\ at_m x 0 1 - at_m x' 0 1 = 2 * (v - v').
Proof.
  destruct (uf_results (1 / 2) v ltac:(lra)) as (s & e & _ & H). destruct (uf_results (1 / 2) v' ltac:(lra)) as (s' & e' & _ & H'). exists (ux (1 / 2) v), (uK (1 / 2) v), (uZ (1 / 2) v), s, e, (ux (1 / 2) v'), (uK (1 / 2) v'), (uZ (1 / 2) v'), s', e'. destruct H as (? & ? & ? & ?). destruct H' as (? & ? & ? & ?). repeat (split; [assumption|]). cbn. field.
Qed.
