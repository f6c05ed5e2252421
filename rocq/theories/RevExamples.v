(** Examples for running time backwards (C106). *)
From Coq Require Import Reals Lra Lia List.
From Coquelicot Require Import Coquelicot.
From Verif Require Import PyBase IndexModel DMModel DMProofs StructModel StructSpec PowerModel EntryModel StructsModel IneqModel DaeModel StructsSpec StructsThms11 NumModel NumInst NumSpec PolynomialModel PiecewiseModel PdqModel SchemeModel
  PolySpec PiecewiseSpec PdqSpec SchemeSpec PolyMath PolynomialBase PolynomialThms PolynomialThms2 PiecewiseThms PdqThms PdqThms2 SchemeThms SchemeThms2 SchemeThms3 SchemeThms4 SchemeThms5 SchemeExamples OrderSpec OrderMath OrderThms OrderExamples ConvSpec ConvThms ConvExamples GridSpec GridThms GridExamples RevSpec RevThms RevThms2.
Import ListNotations.
Open Scope R_scope.

(** ** Points *)
(** The two Legendre points are symmetric. *)
Notation g1 := (1 / 2 - sqrt 3 / 6).
Notation g2 := (1 / 2 + sqrt 3 / 6).
Lemma sq3 : sqrt 3 * sqrt 3 = 3. Proof. apply sqrt_sqrt. lra. Qed.
Example legendre2 : Ortho [g1; g2] 2.
Proof.
  intros q (l & Hl & Hq). assert (exists a b, forall s, q s = a + b * s) as (a & b & Hab). { destruct l as [|a [|b [|]]]; [exists 0, 0|exists a, 0|exists a, b|simpl in Hl; lia]; intros s; rewrite Hq; simpl; ring. }
  apply (int_ext (fun x => (a + b * x) * (x * x - x + 1 / 6))); [intros x; rewrite Hab; f_equal; simpl; replace ((x - g1) * ((x - g2) * 1)) with (x * x - x + 1 / 4 - sqrt 3 * sqrt 3 / 36) by field; rewrite sq3; field|].
  evar_last; [apply (is_RInt_derive (V := R_CompleteNormedModule) (fun x => a * (x * x * x / 3 - x * x / 2 + x / 6) + b * (x * x * x * x / 4 - x * x * x / 3 + x * x / 12)))|].
  - intros x _. auto_derive; [exact I|field].
  - intros x _. apply (ex_derive_continuous (K := R_AbsRing) (V := R_NormedModule)). auto_derive. exact I.
  - unfold minus, plus, opp. simpl. field.
Qed.
Lemma g_asc : Asc [g1; g2]. Proof. apply pair_asc. pose proof (sqrt_lt_R0 3 ltac:(lra)). lra. Qed.
Example legendre2_symmetric : Symmetric [g1; g2]. Proof. exact (legendre_symmetric _ g_asc legendre2). Qed.
Example legendre2_tableau : exists tb, butcher_points [g1; g2] = Ok tb /\ node (tb_b tb) 0 = node (tb_b tb) 1 /\ at_m (tb_A tb) 0 0 + at_m (tb_A tb) 1 1 = node (tb_b tb) 0.
Proof.
  pose proof (Asc_NoDup _ g_asc) as Hd. destruct (butcher_exact _ Hd) as (tb & E & _). exists tb. split; [exact E|].
  destruct (tableau_symmetric _ tb Hd legendre2_symmetric E 0%nat ltac:(simpl; lia)) as [B H]. split; [exact B|exact (H 0%nat ltac:(simpl; lia))].
Qed.
(** There are no other two points of that order, and 1/3 is the only one that goes with 1. *)
Example legendre2_only l : Asc l -> length l = 2%nat -> Ortho l 2 -> l = [g1; g2].
Proof. intros HA Hl HO. apply gauss_unique; [exact HA|exact g_asc|exact Hl|rewrite Hl; exact HO|exact legendre2]. Qed.
Lemma r_asc : Asc [1 / 3; 1]. Proof. apply pair_asc. lra. Qed.
Example radau2_only l : Asc l -> length l = 2%nat -> In 1 l -> Ortho l 1 -> l = [1 / 3; 1].
Proof. intros HA Hl H1 HO. apply radau_unique; [exact HA|exact r_asc|exact Hl|exact H1|simpl; auto|rewrite Hl; exact HO|exact radau2]. Qed.
Example radau2_not_symmetric : ~ Symmetric [1 / 3; 1].
Proof. apply radau_not_symmetric; [exact r_asc|intros v [<-|[<-|[]]]; lra|simpl; auto]. Qed.
Lemma mid_symmetric : Symmetric [1 / 2]. Proof. intros j Hj. simpl in Hj. assert (j = 0%nat) as -> by lia. unfold node. simpl. lra. Qed.

(** ** The DAE itself *)
Lemma retimed_self f : DaeOk f -> Retimed f f 1 0.
Proof.
  intros (D1 & D2 & _). split; [auto 10|]. intros a b (X1 & X2 & X3 & X4 & X5 & X6 & X7) Ha.
  assert (SA : SameArgs f b a) by (repeat split; auto; [intros i Hi; rewrite X1 by exact Hi; field|rewrite X6; ring]). split; [intros r Hr; rewrite (D1 b a r SA); now apply Ha|intros r Hr; rewrite (D2 b a r SA); field].
Qed.
(** A rotation by the midpoint rule from (1, 0) to (3/5, -4/5): on the grid 1, 0 the same equations
    lead from (3/5, -4/5) to (1, 0), and the quadratures change sign. *)
Example rotation_back : exists s s' e', lsch (1 / 2) 0 1 (-1) 0 1 0 (3 / 5) (-4 / 5) (-2 / 5) (-4 / 5) = Ok s /\
  scheme_ (lpts (1 / 2)) (lf 0 1 (-1) 0) (clock 1 0 (rev [0; 1])) 1 "m" None false (two (3 / 5) (-4 / 5) 1 0) (one (-2 / 5) (-4 / 5)) (non 1) (non 1) (non 1) = Ok s' /\
  veccat_master (sc_eq s') = Ok e' /\ AllZero e' /\ at_m (sc_q s') 0 1 = - at_m (sc_q s) 0 1.
Proof.
  destruct (lstep (1 / 2) 0 1 (-1) 0 1 0 (3 / 5) (-4 / 5) (-2 / 5) (-4 / 5)) as (s & e & Es & Ee & Hz); try lra.
  destruct (reverse_scheme (lpts (1 / 2)) (lf 0 1 (-1) 0) (lf 0 1 (-1) 0) [0; 1] 1 "m" [1 / 2] None None false (two 1 0 (3 / 5) (-4 / 5)) (one (-2 / 5) (-4 / 5)) (non 1) (non 1) (non 1) (two (3 / 5) (-4 / 5) 1 0) (one (-2 / 5) (-4 / 5)) (non 1) (non 1) (non 1)
    (lpts_ok _) mid_symmetric lt_len (lf_ok _ _ _ _) (lf_ok _ _ _ _) eq_refl eq_refl 1 0 ltac:(lra) (retimed_self _ (lf_ok _ _ _ _)) ltac:(reflexivity)) with (s := s) (e := e) as (s' & e' & Es' & Ee' & Hz' & _ & _ & Q & _); try assumption.
  - intros i j Hi Hj. cbn in Hi, Hj. destruct i as [|[|i]]; [| |lia]; destruct j as [|[|j]]; try lia; cbn; field.
  - intros i j Hi Hj. cbn in Hi, Hj. destruct i as [|[|i]]; [| |lia]; cbn; field.
  - intros i j Hi. cbn in Hi. lia.
  - intros i j Hi. cbn in Hi. lia.
  - intros i j Hi. cbn in Hi. lia.
  - repeat split.
  - repeat split.
  - exists s, s', e'. split; [exact Es|]. split; [exact Es'|]. split; [exact Ee'|]. split; [exact Hz'|]. rewrite Q by (unfold ivals; cbn; lia). change (ivals [0%R; 1%R] - 1)%nat with 0%nat. change (ivals [0%R; 1%R]) with 1%nat.
    destruct (tbl_ok (lpts (1 / 2)) 1 "m" [1 / 2] (lpts_ok _)) as (_ & _ & _ & _ & _ & HR).
    destruct (scheme_all (lpts (1 / 2)) (lf 0 1 (-1) 0) [0; 1] 1 "m" [1 / 2] None false (two 1 0 (3 / 5) (-4 / 5)) (one (-2 / 5) (-4 / 5)) (non 1) (non 1) (non 1) (lpts_ok _) lt_len (lf_ok _ _ _ _) eq_refl (lvars _ _ _ _ _ _ _ _ _ _) _ _ HR) as (s1 & _ & E1 & _ & _ & _ & _ & _ & Q0 & _). rewrite Es in E1. injection E1 as <-.
    rewrite Q0 by (cbn; lia). ring.
Qed.

(** ** The integrator *)
(** A root finder that knows a solution makes the integrator return it. *)
Section Known.
Context (cspts : nat -> string -> res (list R)) (f : daefun R) (t : list R) (order : nat) (method : string) (tau : list R) (g : option (R -> mat R)) (x0 : nat -> R) (u p x K Z : mat R).
Context (HP : Points cspts order method tau) (HL : (2 <= length t)%nat) (HD : DaeOk f) (HT : TdpOk f g) (Hsq : f_ndae f = (f_nx f + f_nz f)%nat) (HF : Full f) (Hpq : ((0 <? f_np f) && (0 <? f_nq f))%nat = false).
Notation N := (ivals t).
Context (HV : VarsOk f N order false x K Z u p) (A : nat -> nat -> R) (b : nat -> R) (HR : RungeKutta tau A b) (HC : CollocationEqs f t tau order A b false g x K Z u p) (H0 : forall i, (i < f_nx f)%nat -> at_m x i 0 = x0 i).
Definition known : list R := dm_nz (mat_dm x) ++ dm_nz (mat_dm K) ++ dm_nz (mat_dm Z).
Lemma known_integrator nan z0 : exists out, integrator_ (try_root known) nan cspts f t order method g x0 z0 u p = Ok out /\ forall i n, (i < f_nx f)%nat -> (n < N)%nat -> at_m (io_xf out) i n = at_m x i (n + 1).
Proof.
  pose proof HV as (Sx & SK & SZ & Su & Sp).
  destruct (integrator_eq cspts f t order method tau g HP HL HD HT Hsq (try_root known) nan x0 z0 u p Su Sp) as (s0 & var & w0 & e0 & Es & Ev & Lw & E0 & EI).
  destruct (integrator_square cspts f t order method tau g HP HL HD HT Hsq x0 u p Su Sp s0 var Es Ev w0 Lw) as (e0' & E0' & _ & Hs). rewrite E0 in E0'. injection E0' as <-. apply proj2 in Hs. specialize (Hs HF).
  destruct (integrator_roots cspts f t order method tau g HP HL HD HT Hsq x0 u p Su Sp s0 var x K Z Es Ev HV) as (A' & b' & e & HR' & Ee & He).
  assert (Hz : forall v, In v e -> v = 0) by (apply He; split; [exact (eqs_rk cspts f t order method tau g false x K Z u p HP HD A b A' b' HR HR' HC)|exact H0]).
  destruct (integrator_var cspts f t order method tau g HP HL HD HT) as (s0' & var' & Es' & Ev' & Hv). rewrite Es in Es'. injection Es' as <-. rewrite Ev in Ev'. injection Ev' as <-.
  destruct (unknowns (f_nx f) (f_nz f) N (N * order) (mzeros (f_nx f) (N + 1)) (mzeros (f_nx f) (N * order)) (mzeros (f_nz f) (N * order)) var) as (Hsz & _ & _ & Hrt); try (split; reflexivity); [exact Hv|].
  destruct Sx as [x1 x2], SK as [K1 K2], SZ as [Z1 Z2].
  assert (Er : try_root known (eq_fun cspts f t order method g (so_c var) x0 u p) w0 = Ok known).
  { unfold try_root, known. rewrite Ee. rewrite Lw, Hsz, !app_length, !mat_dm_len, x1, x2, K1, K2, Z1, Z2. replace (_ =? _)%nat with true by (symmetry; apply Nat.eqb_eq; lia). cbn [andb]. replace (forallb _ e) with true; [reflexivity|]. symmetry. apply forallb_forall. intros v Hv'. rewrite (Hz v Hv'). destruct (Req_EM_T 0 0); [reflexivity|lra]. }
  rewrite Hs, Nat.eqb_refl, Er, Hpq in EI. cbn [negb rbind] in EI.
  assert (Hrt' : sol_parts (so_c var) known = Ok (dm_mat (mat_dm x), dm_mat (mat_dm K), dm_mat (mat_dm Z))) by (apply Hrt; split; assumption). rewrite Hrt' in EI. cbn [rbind] in EI.
  destruct (scheme_equations cspts f t order method tau g false (dm_mat (mat_dm x)) (dm_mat (mat_dm K)) (dm_mat (mat_dm Z)) u p HP HL HD HT) as (s & _ & _ & _ & E & _).
  { split; [split; assumption|]. split; [split; assumption|]. split; [split; assumption|]. split; assumption. }
  rewrite E in EI. cbn [rbind] in EI. eexists. split; [exact EI|]. intros i n Hi Hn. cbn [io_xf mcols at_m]. destruct (dm_mat_dense x) as [_ V]. rewrite V by lia. f_equal. lia.
Qed.
End Known.

(** [x' = a x] with the quadrature of [a x] *)
Definition bf (a : R) : daefun R := DaeFun 1 0 0 0 0 1 1 (fun _ => true) (fun v _ => a_xdot v 0%nat - a * a_x v 0%nat) (fun v _ => a * a_x v 0%nat).
Lemma bf_ok a : DaeOk (bf a).
Proof. split; [|split]; cbn; [intros v w r (H1 & H2 & _)|intros v w r (_ & H2 & _)|discriminate]; cbn in *; rewrite ?(H1 0%nat), (H2 0%nat) by lia; reflexivity. Qed.
Lemma bf_back a c : Retimed (bf a) (bf (- a)) (-1) c.
Proof.
  split; [cbn; auto 10|]. intros v w (X1 & X2 & _) Hv. cbn in X1, X2. specialize (X1 0%nat ltac:(lia)). specialize (X2 0%nat ltac:(lia)). split.
  - intros r Hr. specialize (Hv r Hr). cbn in Hv |- *. rewrite X1, X2. lra.
  - intros r Hr. cbn. rewrite X2. field.
Qed.
Lemma bf_lip a : LipDae (bf a) (Rabs a).
Proof. intros v w Hv Hw _ e He i Hi. cbn in Hi. assert (i = 0%nat) as -> by lia. pose proof (Hv 0%nat ltac:(cbn; lia)) as V. pose proof (Hw 0%nat ltac:(cbn; lia)) as W. cbn in V, W. specialize (He 0%nat ltac:(cbn; lia)). replace (a_xdot v 0%nat - a_xdot w 0%nat) with (a * (a_x v 0%nat - a_x w 0%nat)) by lra. rewrite Rabs_mult. apply Rmult_le_compat_l; [apply Rabs_pos|exact He]. Qed.
Definition bx (y0 y1 : R) : mat R := Mat 1 2 (fun _ n => match n with 0%nat => y0 | _ => y1 end).
Definition bK (k : R) : mat R := Mat 1 1 (fun _ _ => k).
(** One step of length 1 with the point [q], slope [k] *)
Lemma bf_step a q t x0 y0 y1 k z0 : x0 0%nat = y0 -> (2 <= length t)%nat -> ivals t = 1%nat -> step t 0 = 1 -> y1 = y0 + k -> k = a * (y0 + q * k) -> exists out,
  integrator_ (try_root (known (bx y0 y1) (bK k) (non 1))) 0 (lpts q) (bf a) t 1 "m" None x0 z0 (non 1) (non 1) = Ok out /\ at_m (io_xf out) 0 0 = y1.
Proof.
  intros E0 HL HN St E1 E2. destruct (known_integrator (lpts q) (bf a) t 1 "m" [q] None x0 (non 1) (non 1) (bx y0 y1) (bK k) (non 1) (lpts_ok q) HL (bf_ok a) eq_refl eq_refl (fun _ _ => eq_refl) eq_refl) with (A := fun (_ _ : nat) => q) (b := fun _ : nat => 1) (nan := 0) (z0 := z0) as (out & E & H).
  - rewrite HN. repeat split.
  - apply one_rk.
  - split; [|split; [|discriminate]]; rewrite HN.
    + intros n j r Hn Hj Hr. assert (n = 0%nat) as -> by lia. cbn. unfold stage_x. rewrite St. cbn. lra.
    + intros n i Hn Hi. assert (n = 0%nat) as -> by lia. rewrite St. cbn. lra.
  - intros i Hi. cbn in Hi. assert (i = 0%nat) as -> by lia. now rewrite E0.
  - exists out. split; [exact E|]. rewrite H by (rewrite ?HN; cbn; lia). reflexivity.
Qed.
Notation bt := (clock (-1) 1 (rev [0; 1])).
Lemma bt_step : step bt 0 = 1. Proof. unfold step, clock, node. simpl. ring. Qed.
Lemma bt_short : ShortSteps bt 1 (1 / 2).
Proof. split; [lra|]. intros n Hn. assert (n = 0%nat) as -> by (unfold ivals in Hn; simpl in Hn; lia). rewrite bt_step. lra. Qed.
Lemma half_lip : LipDae (bf (- (- 1 / 2))) (1 / 2). Proof. replace (1 / 2) with (Rabs (- (- 1 / 2))) at 1; [apply bf_lip|]. rewrite Rabs_pos_eq by lra. lra. Qed.

(** Midpoint rule: from 1 to 3/5 and, whatever root finder is used, back to 1 *)
Example midpoint_back : exists out, integrator_ (try_root (known (bx 1 (3 / 5)) (bK (-2 / 5)) (non 1))) 0 (lpts (1 / 2)) (bf (- 1 / 2)) [0; 1] 1 "m" None (fun _ => 1) (fun _ => 0) (non 1) (non 1) = Ok out /\ at_m (io_xf out) 0 0 = 3 / 5 /\
  (exists rf' out', RootFinder rf' /\ integrator_ rf' 0 (lpts (1 / 2)) (bf (- (- 1 / 2))) bt 1 "m" None (fun i => at_m (io_xf out) i 0) (fun _ => 0) (non 1) (non 1) = Ok out') /\
  forall rf' nan' z0' out', RootFinder rf' -> integrator_ rf' nan' (lpts (1 / 2)) (bf (- (- 1 / 2))) bt 1 "m" None (fun i => at_m (io_xf out) i 0) z0' (non 1) (non 1) = Ok out' -> at_m (io_xf out') 0 0 = 1.
Proof.
  destruct (bf_step (- 1 / 2) (1 / 2) [0; 1] (fun _ => 1) 1 (3 / 5) (-2 / 5) (fun _ => 0)) as (out & E & X); try lra; [simpl; lia|reflexivity|exact (proj2 (step01 0%nat ltac:(unfold ivals; simpl; lia)))|].
  exists out. split; [exact E|]. split; [exact X|]. split.
  - destruct (bf_step (- (- 1 / 2)) (1 / 2) bt (fun i => at_m (io_xf out) i 0) (3 / 5) 1 (2 / 5) (fun _ => 0)) as (out' & E' & _); try lra; [simpl; lia|reflexivity|exact bt_step|].
    eexists. exists out'. split; [apply try_root_ok|exact E'].
  - intros rf' nan' z0' out' Hrf' E'.
    destruct (integrator_back (lpts (1 / 2)) (bf (- 1 / 2)) (bf (- (- 1 / 2))) [0; 1] 1 "m" [1 / 2] None None (non 1) (non 1) (non 1) (lpts_ok _) mid_symmetric lt_len (bf_ok _) (bf_ok _) eq_refl eq_refl eq_refl eq_refl lt_asc (-1) 1 ltac:(lra)) with (al := 1) (L := 1 / 2) (x0 := fun _ : nat => 1) (rf := try_root (known (bx 1 (3 / 5)) (bK (-2 / 5)) (non 1))) (nan := 0) (z0 := fun _ : nat => 0) (out := out) (rf' := rf') (nan' := nan') (z0' := z0') (out' := out') as (_ & _ & _ & H); try assumption.
    + replace (- (- 1 / 2)) with (- (- 1 / 2)) by reflexivity. apply bf_back.
    + reflexivity.
    + exact midpoint_bound.
    + exact bt_short.
    + exact half_lip.
    + split; reflexivity.
    + split; reflexivity.
    + split; reflexivity.
    + intros i j Hi. cbn in Hi. lia.
    + apply try_root_ok.
    + exact (H 0%nat ltac:(cbn; lia)).
Qed.
(** Radau's point 1 (implicit Euler): from 1 to 2/3, and back to 4/3. *)
Theorem radau_back_refuted : exists out out' rf rf', RootFinder rf /\ RootFinder rf' /\ Retimed (bf (- 1 / 2)) (bf (- (- 1 / 2))) (-1) 1 /\ CoefBound [1] 1 /\ ShortSteps bt 1 (1 / 2) /\ LipDae (bf (- (- 1 / 2))) (1 / 2) /\
  integrator_ rf 0 (lpts 1) (bf (- 1 / 2)) [0; 1] 1 "m" None (fun _ => 1) (fun _ => 0) (non 1) (non 1) = Ok out /\
  integrator_ rf' 0 (lpts 1) (bf (- (- 1 / 2))) bt 1 "m" None (fun i => at_m (io_xf out) i 0) (fun _ => 0) (non 1) (non 1) = Ok out' /\ at_m (io_xf out) 0 0 = 2 / 3 /\ at_m (io_xf out') 0 0 = 4 / 3.
Proof.
  destruct (bf_step (- 1 / 2) 1 [0; 1] (fun _ => 1) 1 (2 / 3) (- 1 / 3) (fun _ => 0)) as (out & E & X); try lra; [simpl; lia|reflexivity|exact (proj2 (step01 0%nat ltac:(unfold ivals; simpl; lia)))|].
  destruct (bf_step (- (- 1 / 2)) 1 bt (fun i => at_m (io_xf out) i 0) (2 / 3) (4 / 3) (2 / 3) (fun _ => 0)) as (out' & E' & X'); try lra; [simpl; lia|reflexivity|exact bt_step|].
  exists out, out'. do 2 eexists. split; [apply try_root_ok|]. split; [apply try_root_ok|]. split; [apply bf_back|]. split; [exact euler_bound|]. split; [exact bt_short|]. split; [exact half_lip|]. split; [exact E|]. split; [exact E'|]. split; [exact X|exact X'].
Qed.
