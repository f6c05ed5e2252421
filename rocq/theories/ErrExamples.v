(** Examples for the errors of all results of collocation (C100). *)
From Coq Require Import Reals Lra.
From Coquelicot Require Import Coquelicot.
From Verif Require Import PyBase IndexModel DMModel StructModel StructsModel IneqModel DaeModel NumModel NumInst PolynomialModel PiecewiseModel PdqModel SchemeModel
  PolySpec PiecewiseSpec PdqSpec SchemeSpec PolyMath PolynomialBase PiecewiseThms PdqThms SchemeThms SchemeThms2 SchemeThms3 SchemeThms4 SchemeExamples OrderSpec OrderMath OrderThms OrderExamples ConvSpec ConvThms ConvExamples ErrSpec ErrThms.
Open Scope R_scope.

(** [x' = - x / 4, 0 = z - x, q' = x] *)
Definition ef : daefun R := DaeFun 1 1 0 0 0 2 1 (fun _ => true)
  (fun v r => match r with 0%nat => a_xdot v 0%nat + a_x v 0%nat / 4 | _ => a_z v 0%nat - a_x v 0%nat end) (fun v _ => a_x v 0%nat).
Lemma ef_ok : DaeOk ef.
Proof. split; [|split]; cbn; [intros v w r (H1 & H2 & H3 & _)|intros v w r (_ & H2 & _)|discriminate]; cbn in *; [destruct r; rewrite ?H1, ?H2, ?H3 by lia; reflexivity|rewrite H2 by lia; reflexivity]. Qed.
Lemma ef_lip : LipDae ef (1 / 4).
Proof.
  intros v w Hv Hw _ e He i Hi. cbn in Hi. assert (i = 0%nat) as -> by lia. pose proof (Hv 0%nat ltac:(cbn; lia)) as V. pose proof (Hw 0%nat ltac:(cbn; lia)) as W. specialize (He 0%nat ltac:(cbn; lia)). cbn in V, W.
  replace (a_xdot v 0%nat - a_xdot w 0%nat) with (- (1 / 4 * (a_x v 0%nat - a_x w 0%nat))) by lra. rewrite Rabs_Ropp, Rabs_mult, Rabs_pos_eq by lra. lra.
Qed.
Lemma ef_lipz : LipZ ef 1.
Proof.
  intros v w Hv Hw _ e He i Hi. cbn in Hi. assert (i = 0%nat) as -> by lia. pose proof (Hv 1%nat ltac:(cbn; lia)) as V. pose proof (Hw 1%nat ltac:(cbn; lia)) as W. specialize (He 0%nat ltac:(cbn; lia)). cbn in V, W.
  replace (a_z v 0%nat - a_z w 0%nat) with (a_x v 0%nat - a_x w 0%nat) by lra. lra.
Qed.
Lemma ef_lipq : LipQ ef 1.
Proof. intros v w _ _ _ e He i Hi. cbn. specialize (He 0%nat ltac:(cbn; lia)). lra. Qed.
(** Constant polynomials: one point decides. *)
Lemma one_lebesgue c : Lebesgue [c] 1.
Proof.
  intros q b (l & Hl & Hq) Hb s _. specialize (Hb 0%nat ltac:(simpl; lia)). rewrite Hq in Hb |- *. destruct l as [|a [|]]; simpl in *; [lra| |lia]. rewrite Rmult_0_r in Hb |- *. lra.
Qed.

(** Implicit Euler from 1 to 4/5 *)
Definition ex_ : mat R := Mat 1 2 (fun _ n => match n with 0%nat => 1 | _ => 4 / 5 end).
Definition eK : mat R := Mat 1 1 (fun _ _ => - (1 / 5)).
Definition eZ : mat R := Mat 1 1 (fun _ _ => 4 / 5).
Lemma e_vars : VarsOk ef (ivals [0; 1]) 1 false ex_ eK eZ (non 1) (non 1). Proof. repeat split. Qed.
Lemma one_coefs A b : RungeKutta [1] A b -> A 0%nat 0%nat = 1 /\ b 0%nat = 1.
Proof. intros H. destruct (rk_unique [1] A b _ _ (nd1 1) H (one_rk 1) 0%nat ltac:(simpl; lia)) as [U1 U2]. split; [apply (U2 0%nat); simpl; lia|exact U1]. Qed.
Lemma e_eqs A b : RungeKutta [1] A b -> CollocationEqs ef [0; 1] [1] 1 A b false None ex_ eK eZ (non 1) (non 1).
Proof.
  intros HR. destruct (one_coefs A b HR) as [HA HB]. split; [|split; [|discriminate]].
  - intros n j r Hn Hj Hr. destruct (step01 n Hn) as [-> Hs]. assert (j = 0%nat) as -> by lia. cbn in Hr. destruct r as [|[|r]]; [| |lia]; cbn; unfold stage_x; rewrite Hs; cbn; rewrite HA; lra.
  - intros n i Hn Hi. destruct (step01 n Hn) as [-> Hs]. rewrite Hs. cbn. rewrite HB. lra.
Qed.
Lemma e_solves : exists s e, scheme_ (lpts 1) ef [0; 1] 1 "m" None false ex_ eK eZ (non 1) (non 1) = Ok s /\ veccat_master (sc_eq s) = Ok e /\ forall v, In v e -> v = 0.
Proof.
  destruct (scheme_equations (lpts 1) ef [0; 1] 1 "m" [1] None false ex_ eK eZ (non 1) (non 1) (lpts_ok 1) lt_len ef_ok eq_refl e_vars) as (s & A & b & e & Es & HR & _ & _ & _ & _ & _ & _ & Ee & He). exists s, e. split; [exact Es|]. split; [exact Ee|]. apply He. now apply e_eqs.
Qed.

(** The true solution, [q = 4 - 4 exp (- t / 4)] *)
Definition es (_ : nat) (s : R) : R := exp (- (s / 4)).
Definition ed (_ : nat) (s : R) : R := - (exp (- (s / 4)) / 4).
Definition eq_ (_ : nat) (s : R) : R := 4 - 4 * exp (- (s / 4)).
Lemma es_solves : SolvesDae ef [0; 1] ed es es ez (fun _ => 0) None.
Proof. intros s r _ Hr. cbn in Hr. destruct r as [|[|r]]; [| |lia]; cbn; unfold ed, es; field. Qed.
Lemma e_between s : 0 <= s <= 1 -> 3 / 4 <= exp (- (s / 4)) <= 1.
Proof. intros Hs. pose proof (exp_ineq1_le (- (s / 4))) as E1. split; [lra|]. rewrite <- exp_0. destruct (Rle_lt_or_eq_dec 0 s (proj1 Hs)) as [H|<-]; [left; apply exp_increasing; lra|right; f_equal; field]. Qed.
Lemma es_close i : (i < 1)%nat -> Close [0; 1] 1 (1 / 16) (es i) (ed i).
Proof.
  intros _ n Hn. destruct (step01 n Hn) as [-> _]. unfold node. simpl. split.
  - intros s Hs. apply (is_RInt_derive (V := R_CompleteNormedModule) (es i) (ed i)).
    + intros z _. unfold es, ed. auto_derive; [exact I|]. unfold Rdiv. ring.
    + intros z _. unfold ed. apply (ex_derive_continuous (K := R_AbsRing) (V := R_NormedModule)). auto_derive. exact I.
  - exists (fun _ => - (1 / 4)). split; [apply PolyLt_const|]. intros s Hs. unfold ed. pose proof (e_between s ltac:(lra)). rewrite Rabs_pos_eq; lra.
Qed.
Lemma eq_close i : (i < 1)%nat -> Close [0; 1] 1 (1 / 4) (eq_ i) (es i).
Proof.
  intros _ n Hn. destruct (step01 n Hn) as [-> _]. unfold node. simpl. split.
  - intros s Hs. apply (is_RInt_derive (V := R_CompleteNormedModule) (eq_ i) (es i)).
    + intros z _. unfold es, eq_. auto_derive; [exact I|]. unfold Rdiv. field.
    + intros z _. unfold es. apply (ex_derive_continuous (K := R_AbsRing) (V := R_NormedModule)). auto_derive. exact I.
  - exists (fun _ => 1). split; [apply PolyLt_const|]. intros s Hs. unfold es. pose proof (e_between s ltac:(lra)). rewrite Rabs_left1; lra.
Qed.
Lemma e_short : ShortSteps [0; 1] 1 (1 / 4).
Proof. split; [lra|]. intros n Hn. rewrite (proj2 (step01 n Hn)). lra. Qed.
Lemma e_unit : InUnit [1]. Proof. intros j Hj. simpl in Hj. assert (j = 0%nat) as -> by lia. unfold node. simpl. lra. Qed.

(** The integrator with a rootfinder that finds this solution *)
Definition esol : list R := dm_nz (mat_dm ex_) ++ dm_nz (mat_dm eK) ++ dm_nz (mat_dm eZ).
Lemma e_integrator : exists out pp dp, integrate_ (try_root esol) 0 (lpts 1) ef [0; 1] 1 "m" None true (fun _ => 1) (fun _ => 0) (non 1) (non 1) = Ok (out, pp) /\ pp_derivative pp = Ok dp.
Proof.
  assert (Su : Shaped (non 1) (f_nu ef) (ivals [0; 1])) by (split; reflexivity). assert (Sp : Shaped (non 1) (f_np ef) 1) by (split; reflexivity).
  destruct (integrator_eq (lpts 1) ef [0; 1] 1 "m" [1] None (lpts_ok 1) lt_len ef_ok eq_refl eq_refl (try_root esol) 0 (fun _ => 1) (fun _ => 0) (non 1) (non 1) Su Sp) as (s0 & var & w0 & e0 & Es & Ev & Lw & E0 & EI).
  destruct (integrator_square (lpts 1) ef [0; 1] 1 "m" [1] None (lpts_ok 1) lt_len ef_ok eq_refl eq_refl (fun _ => 1) (non 1) (non 1) Su Sp s0 var Es Ev w0 Lw) as (e0' & E0' & _ & Hsq). rewrite E0 in E0'. injection E0' as <-. apply proj2 in Hsq. specialize (Hsq ltac:(intros r _; reflexivity)).
  destruct (integrator_roots (lpts 1) ef [0; 1] 1 "m" [1] None (lpts_ok 1) lt_len ef_ok eq_refl eq_refl (fun _ => 1) (non 1) (non 1) Su Sp s0 var ex_ eK eZ Es Ev e_vars) as (A & b & e & HR & Ee & He).
  assert (Hz : forall v, In v e -> v = 0) by (apply He; split; [now apply e_eqs|intros; reflexivity]).
  assert (HU := unknowns 1 1 1 1 (mzeros 1 2) (mzeros 1 1) (mzeros 1 1) var).
  destruct (integrator_var (lpts 1) ef [0; 1] 1 "m" [1] None (lpts_ok 1) lt_len ef_ok eq_refl) as (s0' & var' & Es' & Ev' & Hv). rewrite Es in Es'. injection Es' as <-. rewrite Ev in Ev'. injection Ev' as <-.
  destruct HU as (Hsz & _ & _ & Hrt); try (split; reflexivity); [exact Hv|].
  assert (Er : try_root esol (eq_fun (lpts 1) ef [0; 1] 1 "m" None (so_c var) (fun _ => 1) (non 1) (non 1)) w0 = Ok esol).
  { unfold try_root, esol. rewrite Ee. rewrite Lw, Hsz, !app_length, !mat_dm_len. cbn [ex_ eK eZ nr nc Nat.mul Nat.add Nat.eqb andb]. replace (forallb _ e) with true; [reflexivity|]. symmetry. apply forallb_forall. intros v Hv'. rewrite (Hz v Hv'). destruct (Req_EM_T 0 0); [reflexivity|lra]. }
  rewrite Hsq, Nat.eqb_refl, Er in EI. cbn [negb] in EI. change ((0 <? f_np ef)%nat && (0 <? f_nq ef)%nat) with false in EI. cbn [rbind] in EI.
  assert (Hrt' : sol_parts (so_c var) esol = Ok (dm_mat (mat_dm ex_), dm_mat (mat_dm eK), dm_mat (mat_dm eZ))) by (apply Hrt; split; reflexivity). rewrite Hrt' in EI. cbn [rbind] in EI.
  destruct (scheme_equations (lpts 1) ef [0; 1] 1 "m" [1] None false (dm_mat (mat_dm ex_)) (dm_mat (mat_dm eK)) (dm_mat (mat_dm eZ)) (non 1) (non 1) (lpts_ok 1) lt_len ef_ok eq_refl) as (s & _ & _ & _ & E & _); [repeat split|]. rewrite E in EI. cbn [rbind] in EI.
  match type of EI with _ = Ok ?o => pose (out := o) end. change (integrator_ (try_root esol) 0 (lpts 1) ef [0; 1] 1 "m" None (fun _ => 1) (fun _ => 0) (non 1) (non 1) = Ok out) in EI.
  destruct (integrator_outputs (lpts 1) ef [0; 1] 1 "m" [1] None (lpts_ok 1) lt_len ef_ok eq_refl eq_refl (try_root esol) 0 (fun _ => 1) (fun _ => 0) (non 1) (non 1) Su Sp out (try_root_ok _) EI) as (s' & A' & b' & HV & Es' & HR' & HC & _).
  destruct (eqs_zero (lpts 1) ef [0; 1] 1 "m" [1] None (lpts_ok 1) lt_len ef_ok eq_refl (non 1) (non 1) _ _ _ s' A' b' HV Es' HR' HC) as (e' & Ee' & Hz').
  destruct (solution_trajectory (lpts 1) ef [0; 1] 1 "m" [1] None false _ _ _ (non 1) (non 1) (lpts_ok 1) lt_len ef_ok eq_refl HV lt_asc e_unit s' e' Es' Ee' Hz') as (pp & dp & Epp & Edp & _).
  exists out, pp, dp. split; [|exact Edp]. unfold integrate_. rewrite EI. cbn [rbind negb]. rewrite Es'. cbn [rbind]. rewrite Epp. reflexivity.
Qed.
(** The bounds, for every rootfinder; [1 / 8 exp (1 / 2) < 1 / 4] *)
Lemma exp_half : exp (1 / 2) <= 2.
Proof. pose proof (exp_ineq1_le (- (1 / 2))) as H. rewrite exp_Ropp in H. pose proof (exp_pos (1 / 2)). assert (exp (1 / 2) * / exp (1 / 2) = 1) by (apply Rinv_r; lra). nra. Qed.
Example errors_ex rf nan z0 out pp dp : RootFinder rf -> integrate_ rf nan (lpts 1) ef [0; 1] 1 "m" None true (fun _ => 1) z0 (non 1) (non 1) = Ok (out, pp) -> pp_derivative pp = Ok dp ->
  (forall v, 0 < v <= 1 -> Rabs (ppval pp "left" 0 v - exp (- (v / 4))) <= v / 4 /\ Rabs (ppval dp "left" 0 v + exp (- (v / 4)) / 4) <= 1 / 4) /\
  Rabs (at_m (io_Z out) 0 0 - exp (- (node (io_tc out) 0 / 4))) <= 1 / 2 /\ Rabs (io_qf out 0 - (4 - 4 * exp (- (1 / 4)))) <= 1.
Proof.
  intros Hrf Ei Ed. assert (Su : Shaped (non 1) (f_nu ef) (ivals [0; 1])) by (split; reflexivity). assert (Sp : Shaped (non 1) (f_np ef) 1) by (split; reflexivity).
  assert (HF : FedBy ef [0; 1] (non 1) (non 1) ez (fun _ => 0)) by (split; cbn; intros; lia).
  assert (E0 : forall i, (i < f_nx ef)%nat -> es i (node [0; 1] 0) = 1). { intros i _. unfold es, node. simpl. rewrite <- exp_0. f_equal. field. }
  assert (Eo : integrator_ rf nan (lpts 1) ef [0; 1] 1 "m" None (fun _ => 1) z0 (non 1) (non 1) = Ok out).
  { clear - Ei. unfold integrate_ in Ei. destruct (integrator_ _ _ _ _ _ _ _ _ _ _ _ _) as [o|]; [|discriminate]. cbn [rbind negb] in Ei. destruct (scheme_ _ _ _ _ _ _ _ _ _ _ _ _) as [s|]; [|discriminate]. cbn [rbind] in Ei. destruct (piecewise_X _ _ _); [|discriminate]. cbn [rbind] in Ei. now injection Ei as -> _. }
  pose proof exp_half as H2. pose proof (exp_pos (1 / 2)) as H3. assert (N0 : node [0; 1] 0 = 0) by reflexivity. assert (N1 : node [0; 1] 1 = 1) by reflexivity.
  assert (H4 : exp (2 * 1 * (1 / 4) * (1 - 0)) = exp (1 / 2)) by (f_equal; lra). assert (H1 : (0 < ivals [0; 1]%R)%nat) by (unfold ivals; simpl; lia).
  split; [|split].
  - intros v Hv. destruct (integrate_error (lpts 1) ef [0; 1] 1 "m" [1] None (lpts_ok 1) lt_len ef_ok eq_refl eq_refl lt_asc e_unit 1 (1 / 4) euler_bound e_short ef_lip (fun _ => 1) (non 1) (non 1) Su Sp (1 / 16) ed es es ez (fun _ => 0) ltac:(lra) es_solves HF es_close E0 rf nan z0 Hrf 1 out pp dp ltac:(lra) (one_lebesgue 1) Ei Ed 0%nat 0%nat v H1 ltac:(cbn; lia)) as [B1 B2].
    { simpl Nat.add. rewrite N0, N1. lra. }
    simpl Nat.add in B1, B2. rewrite N0, ?N1, H4 in B1, B2. unfold es in B1. unfold ed in B2. split; [eapply Rle_trans; [exact B1|]|replace (_ + _) with (ppval dp "left" 0 v - - (exp (- (v / 4)) / 4)) by ring; eapply Rle_trans; [exact B2|]].
    + replace (0 - 0) with 0 by ring. nra.
    + nra.
  - pose proof (integrator_algebraic_error (lpts 1) ef [0; 1] 1 "m" [1] None (lpts_ok 1) lt_len ef_ok eq_refl eq_refl lt_asc e_unit 1 (1 / 4) euler_bound e_short ef_lip (fun _ => 1) (non 1) (non 1) Su Sp (1 / 16) ed es es ez (fun _ => 0) ltac:(lra) es_solves HF es_close E0 rf nan z0 Hrf 1 out ef_lipz Eo 0%nat 0%nat 0%nat H1 ltac:(lia) ltac:(cbn; lia)) as B.
    simpl Nat.add in B. simpl Nat.mul in B. rewrite N0, N1, H4 in B. unfold es in B. eapply Rle_trans; [exact B|]. nra.
  - pose proof (integrator_quadrature_error (lpts 1) ef [0; 1] 1 "m" [1] None (lpts_ok 1) lt_len ef_ok eq_refl eq_refl lt_asc e_unit 1 (1 / 4) euler_bound e_short ef_lip (fun _ => 1) (non 1) (non 1) Su Sp (1 / 16) ed es es ez (fun _ => 0) ltac:(lra) es_solves HF es_close E0 rf nan z0 Hrf 1 (1 / 4) eq_ es out ltac:(lra) ltac:(lra) ef_lipq eq_close ltac:(intros; reflexivity) Eo 0%nat ltac:(cbn; lia)) as B.
    change (node [0; 1] (ivals [0; 1])) with 1 in B. rewrite N0, H4 in B. unfold eq_ in B. replace (- (0 / 4)) with 0 in B by field. rewrite exp_0 in B. replace (io_qf out 0 - (4 - 4 * exp (- (1 / 4)))) with (io_qf out 0 - (4 - 4 * exp (- (1 / 4)) - (4 - 4 * 1))) by ring. eapply Rle_trans; [exact B|]. nra.
Qed.
Example errors_met : exists rf out pp dp, RootFinder rf /\ integrate_ rf 0 (lpts 1) ef [0; 1] 1 "m" None true (fun _ => 1) (fun _ => 0) (non 1) (non 1) = Ok (out, pp) /\ pp_derivative pp = Ok dp /\ Rabs (ppval pp "left" 0 1 - exp (- (1 / 4))) <= 1 / 4.
Proof. destruct e_integrator as (out & pp & dp & E & Ed). exists (try_root esol), out, pp, dp. split; [apply try_root_ok|]. split; [exact E|]. split; [exact Ed|]. apply (proj1 (errors_ex _ _ _ _ _ _ (try_root_ok _) E Ed) 1). lra. Qed.
Example scheme_errors_ex : exists s e pp dp, scheme_ (lpts 1) ef [0; 1] 1 "m" None false ex_ eK eZ (non 1) (non 1) = Ok s /\ veccat_master (sc_eq s) = Ok e /\ (forall v, In v e -> v = 0) /\ piecewise_X s ex_ eK = Ok pp /\ pp_derivative pp = Ok dp /\ VarsOk ef 1 1 false ex_ eK eZ (non 1) (non 1).
Proof.
  destruct e_solves as (s & e & Es & Ee & Hz). destruct (solution_trajectory (lpts 1) ef [0; 1] 1 "m" [1] None false _ _ _ (non 1) (non 1) (lpts_ok 1) lt_len ef_ok eq_refl e_vars lt_asc e_unit s e Es Ee Hz) as (pp & dp & Epp & Edp & _). exists s, e, pp, dp. repeat (split; [assumption|]). apply e_vars.
Qed.
