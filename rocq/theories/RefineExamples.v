(** Examples for inexact inputs and refined grids (C115). *)
From Coq Require Import Reals Lra Lia List.
From Coquelicot Require Import Coquelicot.
From Verif Require Import PyBase IndexModel DMModel DMProofs StructModel StructSpec PowerModel EntryModel StructsModel IneqModel DaeModel StructsSpec StructsThms11 NumModel NumInst NumSpec PolynomialModel PiecewiseModel PdqModel SchemeModel
  PolySpec PiecewiseSpec PdqSpec SchemeSpec PolyMath PolynomialBase PolynomialThms PolynomialThms2 PiecewiseThms PdqThms PdqThms2 SchemeThms SchemeThms2 SchemeThms3 SchemeThms4 SchemeThms5 SchemeExamples OrderSpec OrderMath OrderThms OrderExamples ConvSpec ConvThms ConvExamples GridSpec GridThms GridExamples RevSpec RevThms RevThms2 RevExamples StiffSpec StiffThms StiffExamples
  MonoSpec MonoThms MonoThms2 MonoThms3 MonoThms4 MonoExamples SuperSpec SuperThms DissSpec DissThms DissThms2 DissThms3 DissThms4 DissExamples ErrSpec ErrThms DissErrThms SensSpec SensThms SensThms2 SensExamples Sens2Spec SensThms3 Sens2Examples RefineSpec RefineThms RefineThms2 RefineThms3.
Import ListNotations.

(** ** [x' = - x / 2 + u] with [u = 1 + t / 2]: [x = t], [z = 3 x + u], [q' = x + u] *)
Definition rxd : nat -> R -> R := fun _ _ => 1.
Definition rxs : nat -> R -> R := fun _ s => s.
Definition rus : nat -> R -> R := fun _ s => 1 + s / 2.
Definition rzs : nat -> R -> R := fun _ s => 3 * s + (1 + s / 2).
Definition rqd : nat -> R -> R := fun _ s => s + (1 + s / 2).
Definition rqs : nat -> R -> R := fun _ s => s + 3 / 4 * (s * s).
Lemma r_solves t : SolvesDae (uf (- 1 / 2)) t rxd rxs rzs rus (fun _ => 0) None.
Proof. intros v r Hv Hr. destruct r; cbn; unfold rxd, rxs, rzs, rus; field. Qed.
Lemma r_follows : Follows 0 1 (rxs 0%nat) (rxd 0%nat).
Proof. intros v Hv. apply (is_RInt_derive (V := R_CompleteNormedModule) (fun s => s) (fun _ => 1)); [intros; auto_derive; trivial|intros; apply continuous_const]. Qed.
Lemma rq_follows : Follows 0 1 (rqs 0%nat) (rqd 0%nat).
Proof. intros v Hv. unfold rqs, rqd. apply (is_RInt_derive (V := R_CompleteNormedModule) (fun s => s + 3 / 4 * (s * s)) (fun s => s + (1 + s / 2))); [intros; auto_derive; [trivial|field]|]. intros z _. apply continuity_pt_filterlim. reg. Qed.
Lemma r_cont : ContOn 0 1 (rxd 0%nat) /\ ContOn 0 1 (rus 0%nat) /\ ContOn 0 1 (rqd 0%nat).
Proof. repeat split; intros v _; unfold rxd, rus, rqd; reg. Qed.
Lemma r_unit : InUnit [1]. Proof. intros j Hj. simpl in Hj. assert (j = 0%nat) as -> by lia. unfold node. simpl. lra. Qed.

(** One step of implicit Euler with the control of the middle: the inputs are off by 1/4, the state by 1/6. *)
Example fed_error_ex x K Z s e : at_m x 0 0 = 0 -> VarsOk (uf (- 1 / 2)) (ivals [0; 1]) 1 false x K Z (cu (5 / 4)) (non 1) -> scheme_ (lpts 1) (uf (- 1 / 2)) [0; 1] 1 "m" None false x K Z (cu (5 / 4)) (non 1) = Ok s -> veccat_master (sc_eq s) = Ok e -> AllZero e -> Rabs (at_m x 0 1 - 1) <= exp 1 / 4.
Proof.
  intros X0 HV Es Ee Hz. assert (Ha : Rabs (- 1 / 2) = 1 / 2) by (rewrite Rabs_left; lra).
  assert (HS : ShortSteps [0; 1] 1 (Rabs (- 1 / 2))) by (rewrite Ha; split; [lra|]; intros n Hn; destruct (step01 n Hn) as [-> ->]; lra).
  assert (HF : NearFed (uf (- 1 / 2)) [0; 1] (1 / 4) None None (cu (5 / 4)) (non 1) rus (fun _ => 0)). { split; [|split; cbn; intros; lia]. intros i n v _ Hn Hv. destruct (step01 n Hn) as [-> _]. unfold node in Hv. simpl in Hv. cbn. unfold rus. apply Rabs_le. lra. }
  assert (HCl : forall i, (i < 1)%nat -> Close [0; 1] 1 0 (rxs i) (rxd i)). { intros i Hi n Hn. destruct (step01 n Hn) as [-> _]. split; [intros v Hv; apply (is_RInt_derive (V := R_CompleteNormedModule) (fun s => s) (fun _ => 1)); [intros; auto_derive; trivial|intros; apply continuous_const]|]. exists (fun _ => 1). split; [apply (PolyLt_const 0)|]. intros v _. unfold rxd. rewrite Rminus_eq_0, Rabs_R0. lra. }
  destruct (fed_error (lpts 1) (uf (- 1 / 2)) [0; 1] 1 "m" [1] None None (lpts_ok 1) lt_len (uf_ok _) eq_refl lt_asc r_unit 1 (Rabs (- 1 / 2)) 1 (1 / 4) 0 0 euler_bound HS (uf_lipx _) Rle_0_1 ltac:(lra) ltac:(lra) ltac:(lra) rxd rxs rzs rus (fun _ => 0) (cu (5 / 4)) (non 1) (r_solves _) HF HCl false x K Z s e HV Es Ee Hz) as (G & _).
  - intros i Hi. cbn in Hi. assert (i = 0%nat) as -> by lia. rewrite X0. change (Rabs (0 - 0) <= 0). rewrite Rminus_eq_0, Rabs_R0. lra.
  - specialize (G 1%nat 0%nat ltac:(unfold ivals; simpl; lia) ltac:(cbn; lia)). change (node [0; 1] 1) with 1 in G. change (node [0; 1] 0) with 0 in G. rewrite Ha in G. unfold rxs in G. replace (2 * 1 * (1 / 2) * (1 - 0)) with 1 in G by field. lra.
Qed.
Example fed_results : exists x K Z s e, at_m x 0 0 = 0 /\ VarsOk (uf (- 1 / 2)) (ivals [0; 1]) 1 false x K Z (cu (5 / 4)) (non 1) /\ scheme_ (lpts 1) (uf (- 1 / 2)) [0; 1] 1 "m" None false x K Z (cu (5 / 4)) (non 1) = Ok s /\ veccat_master (sc_eq s) = Ok e /\ AllZero e /\ at_m x 0 1 = 5 / 6.
Proof. destruct (uf_results (- 1 / 2) (5 / 4) ltac:(lra)) as (s & e & H0 & H1 & H2 & H3 & H4). exists (ux (- 1 / 2) (5 / 4)), (uK (- 1 / 2) (5 / 4)), (uZ (- 1 / 2) (5 / 4)), s, e. repeat (split; [assumption|]). cbn. field. Qed.

(** Refined grids: the final state, algebraic state and quadrature approach 1, 9/2 and 7/4. *)
Example refine_ex eps : 0 < eps -> exists dl, 0 < dl /\ forall t u x K Z s e, FineGrid t 0 1 dl -> TakenFrom (uf (- 1 / 2)) t u (non 1) rus (fun _ => 0) -> at_m x 0 0 = 0 -> VarsOk (uf (- 1 / 2)) (ivals t) 1 false x K Z u (non 1) -> scheme_ (lpts 1) (uf (- 1 / 2)) t 1 "m" None false x K Z u (non 1) = Ok s -> veccat_master (sc_eq s) = Ok e -> AllZero e ->
  Rabs (at_m x 0 (ivals t) - 1) <= eps /\ Rabs (at_m (sc_q s) 0 (ivals t) - 7 / 4) <= eps.
Proof.
  intros He. destruct r_cont as (C1 & C2 & C3).
  assert (Hx : forall i, (i < 1)%nat -> Follows 0 1 (rxs i) (rxd i) /\ ContOn 0 1 (rxd i)) by (intros i Hi; assert (i = 0%nat) as -> by lia; split; [exact r_follows|exact C1]).
  assert (Hu : forall i, (i < 1)%nat -> ContOn 0 1 (rus i)) by (intros i Hi; assert (i = 0%nat) as -> by lia; exact C2).
  assert (Hq : forall i, (i < 1)%nat -> Follows 0 1 (rqs i) (rqd i) /\ ContOn 0 1 (rqd i)) by (intros i Hi; assert (i = 0%nat) as -> by lia; split; [exact rq_follows|exact C3]).
  destruct (refine_scheme (lpts 1) (uf (- 1 / 2)) 1 "m" [1] None 0 1 (lpts_ok 1) r_unit (uf_ok _) eq_refl ltac:(lra) _ 1 (Rabs_pos _) ltac:(lra) (uf_lipx _) rxd rxs rzs rus (fun _ => 0) (r_solves _) Hx Hu eps He) as (d1 & P1 & B1).
  destruct (refine_outputs (lpts 1) (uf (- 1 / 2)) 1 "m" [1] None 0 1 (lpts_ok 1) r_unit (uf_ok _) eq_refl ltac:(lra) _ 1 (Rabs_pos _) ltac:(lra) (uf_lipx _) rxd rxs rzs rus (fun _ => 0) (r_solves _) Hx Hu 3 1 1 1 rqs rqd ltac:(lra) ltac:(lra) ltac:(lra) ltac:(lra) (uf_lipz _) (uf_lipq _) Hq (fun _ _ _ _ => eq_refl) eps He) as (d2 & P2 & B2).
  pose proof (Rmin_l d1 d2) as M1. pose proof (Rmin_r d1 d2) as M2. assert (Mp : 0 < Rmin d1 d2) by now apply Rmin_pos. exists (Rmin d1 d2). split; [exact Mp|]. intros t u x K Z s e HG HTf X0 HV Es Ee Hz. pose proof HG as (_ & _ & _ & Eb & _).
  assert (X0' : forall i, (i < 1)%nat -> Rabs (at_m x i 0 - rxs i 0) = 0) by (intros i Hi; assert (i = 0%nat) as -> by lia; rewrite X0; unfold rxs; rewrite Rminus_eq_0; apply Rabs_R0).
  destruct (B1 t u (non 1) false x K Z s e (fine_weaken t 0 1 _ HG d1 M1) HTf HV Es Ee Hz) as (G1 & _); [intros i Hi; rewrite X0' by exact Hi; lra|]. destruct (B2 t u (non 1) false x K Z s e (fine_weaken t 0 1 _ HG d2 M2) HTf HV Es Ee Hz) as (_ & G2 & _); [intros i Hi; rewrite X0' by exact Hi; lra|].
  specialize (G1 (ivals t) 0%nat ltac:(lia) ltac:(cbn; lia)). specialize (G2 (ivals t) 0%nat ltac:(lia) ltac:(cbn; lia)). rewrite Eb in G1, G2. unfold rxs, rqs in *. replace (1 + 3 / 4 * (1 * 1) - (0 + 3 / 4 * (0 * 0))) with (7 / 4) in G2 by field. split; assumption.
Qed.
(** There are arbitrarily fine grids, and results on them. *)
Definition unif (N : nat) : list R := map (fun k => INR k / INR N) (seq 0 (S N)).
Lemma unif_node N k : (k <= N)%nat -> node (unif N) k = INR k / INR N.
Proof. intros Hk. unfold node, unif. rewrite (nth_indep _ 0 (INR 0 / INR N)) by (rewrite map_length, seq_length; lia). rewrite (map_nth (fun k => INR k / INR N)), seq_nth by lia. reflexivity. Qed.
Lemma unif_fine N : (1 <= N)%nat -> FineGrid (unif N) 0 1 (/ INR N).
Proof.
  intros HN. assert (L : length (unif N) = S N) by (unfold unif; now rewrite map_length, seq_length). assert (HI : 0 < INR N) by (apply (lt_INR 0); lia). assert (Hi : 0 < / INR N) by now apply Rinv_0_lt_compat.
  split; [intros i j Hij; rewrite !unif_node by lia; apply Rmult_lt_compat_r; [exact Hi|apply lt_INR; lia]|]. split; [lia|]. unfold ivals. rewrite L. replace (S N - 1)%nat with N by lia. rewrite !unif_node by lia. split; [simpl; unfold Rdiv; ring|]. split; [field; lra|].
  intros n Hn. unfold step. rewrite !unif_node, plus_INR by lia. simpl. right. field. lra.
Qed.
Example refine_results dl : 0 < dl -> exists t u x K Z s e, FineGrid t 0 1 dl /\ TakenFrom (uf (- 1 / 2)) t u (non 1) rus (fun _ => 0) /\ at_m x 0 0 = 0 /\ VarsOk (uf (- 1 / 2)) (ivals t) 1 false x K Z u (non 1) /\ scheme_ (lpts 1) (uf (- 1 / 2)) t 1 "m" None false x K Z u (non 1) = Ok s /\ veccat_master (sc_eq s) = Ok e /\ AllZero e.
Proof.
  intros Hd. destruct (archimed_cor1 dl Hd) as (N & Hs & HN). pose proof (unif_fine N ltac:(lia)) as HG. set (t := unif N) in *. set (u := Mat 1 (ivals t) (fun _ n => rus 0%nat (node t n))). pose proof HG as (HA & HL & _ & _ & Hst).
  assert (Ha : Rabs (- 1 / 2) = 1 / 2) by (rewrite Rabs_left; lra). assert (HI1 : / INR N <= 1) by (rewrite <- Rinv_1; apply Rinv_le_contravar; [lra|apply (le_INR 1); lia]).
  assert (HS : ShortSteps t 1 (Rabs (- 1 / 2))) by (rewrite Ha; split; [lra|]; intros n Hn; specialize (Hst n Hn); lra).
  destruct (solution_exists (lpts 1) (uf (- 1 / 2)) t 1 "m" [1] None false (lpts_ok 1) HL (uf_ok _) eq_refl HA 1 _ euler_bound HS (uf_lip _) _ _ u (non 1) (fun _ => 0) (uf_res _)) as (x & K & Z & s & e & HV & X0 & Es & Ee & Hz); [split; reflexivity|split; reflexivity|discriminate|].
  exists t, u, x, K, Z, s, e. split; [apply (fine_weaken t 0 1 _ HG); lra|]. split; [|split; [apply X0; cbn; lia|]; repeat (split; [assumption|]); exact Hz].
  split; [|cbn; intros; lia]. intros i n Hi Hn. exists (node t n). pose proof (step_pos t n HA Hn) as Hh. unfold step in Hh. split; [lra|reflexivity].
Qed.
(** The error of the final state is of first order in the steps. *)
Example rate_ex : exists C dl0, 0 <= C /\ 0 < dl0 /\ forall t dl u x K Z s e, 0 <= dl <= dl0 -> FineGrid t 0 1 dl -> TakenFrom (uf (- 1 / 2)) t u (non 1) rus (fun _ => 0) -> at_m x 0 0 = 0 -> VarsOk (uf (- 1 / 2)) (ivals t) 1 false x K Z u (non 1) -> scheme_ (lpts 1) (uf (- 1 / 2)) t 1 "m" None false x K Z u (non 1) = Ok s -> veccat_master (sc_eq s) = Ok e -> AllZero e -> Rabs (at_m x 0 (ivals t) - 1) <= C * dl.
Proof.
  destruct (rate_scheme (lpts 1) (uf (- 1 / 2)) 1 "m" [1] None 0 1 (lpts_ok 1) r_unit (uf_ok _) eq_refl ltac:(lra) _ 1 (Rabs_pos _) ltac:(lra) (uf_lipx _) 3 1 1 1 ltac:(lra) ltac:(lra) ltac:(lra) ltac:(lra) (uf_lipz _) (uf_lipq _) 2 ltac:(lra)) as (C & dl0 & HC & H0 & B). exists C, dl0. split; [exact HC|]. split; [exact H0|]. intros t dl u x K Z s e Hdl HG HTf X0 HV Es Ee Hz. pose proof HG as (_ & _ & _ & Eb & _).
  assert (Hl : forall k h, 0 <= k <= 2 -> (forall v w, h v - h w = k * (v - w)) -> LipOn 0 1 2 h) by (intros k h Hk Hh v w _ _; rewrite Hh, Rabs_mult, (Rabs_pos_eq k) by lra; apply Rmult_le_compat_r; [apply Rabs_pos|lra]).
  assert (Lx : LipOn 0 1 2 (rxd 0%nat)) by (apply (Hl 0); [lra|intros; unfold rxd; ring]). assert (Ls : LipOn 0 1 2 (rus 0%nat)) by (apply (Hl (1 / 2)); [lra|intros; unfold rus; field]). assert (Lr : LipOn 0 1 2 (rqd 0%nat)) by (apply (Hl (3 / 2)); [lra|intros; unfold rqd; field]).
  destruct (B rxd rxs rzs rus (fun _ => 0) rqs rqd (r_solves _)) with (t := t) (dl := dl) (u := u) (p := non 1) (rep := false) (x := x) (K := K) (Z := Z) (s := s) (e := e) as (G & _); try assumption.
  - intros i Hi. cbn in Hi. assert (i = 0%nat) as -> by lia. split; [exact r_follows|exact Lx].
  - intros i Hi. cbn in Hi. assert (i = 0%nat) as -> by lia. exact Ls.
  - intros i Hi. cbn in Hi. assert (i = 0%nat) as -> by lia. split; [exact rq_follows|exact Lr].
  - reflexivity.
  - intros i Hi. cbn in Hi. assert (i = 0%nat) as -> by lia. rewrite X0. unfold rxs. rewrite Rminus_eq_0, Rabs_R0. lra.
  - specialize (G (ivals t) 0%nat ltac:(lia) ltac:(cbn; lia)). rewrite Eb in G. exact G.
Qed.
