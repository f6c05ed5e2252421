(** Examples for parts of grids and changes of variables (C98, C99). *)
From Coq Require Import Reals Lra.
From Coquelicot Require Import Coquelicot.
From Verif Require Import PyBase IndexModel DMModel DMProofs StructModel StructSpec PowerModel EntryModel StructsModel IneqModel DaeModel StructsSpec StructsThms11 NumModel NumInst NumSpec PolynomialModel PiecewiseModel PdqModel SchemeModel
  PolySpec PiecewiseSpec PdqSpec SchemeSpec PolyMath PolynomialBase PolynomialThms PolynomialThms2 PiecewiseThms PdqThms PdqThms2 SchemeThms SchemeThms2 SchemeThms3 SchemeThms4 SchemeThms5 SchemeExamples OrderSpec OrderMath OrderThms OrderExamples ConvSpec ConvThms ConvExamples GridSpec GridThms.
Open Scope R_scope.

(** ** Parts *)
Lemma ext_first : part ext 0 1 = [0; 1]. Proof. reflexivity. Qed.
Lemma ext_last : part ext 1 2 = [1; 3]. Proof. reflexivity. Qed.
(** [x = t ^ 2] on 0, 1, 3: both parts satisfy their equations, the quadrature over the second one is 8. *)
Example split_ex : exists s1 s2 e1 e2,
  scheme_ expts exf [0; 1] 2 "radau" None false (mcols exx 0 2) (mcols exK 0 2) (mcols (ex0 4) 0 2) (mcols (ex0 2) 0 1) (ex0 1) = Ok s1 /\
  scheme_ expts exf [1; 3] 2 "radau" None false (mcols exx 1 3) (mcols exK 2 4) (mcols (ex0 4) 2 4) (mcols (ex0 2) 1 2) (ex0 1) = Ok s2 /\
  veccat_master (sc_eq s1) = Ok e1 /\ veccat_master (sc_eq s2) = Ok e2 /\ AllZero e1 /\ AllZero e2 /\ at_m (sc_q s1) 0 1 + at_m (sc_q s2) 0 1 = 9.
Proof.
  destruct (split_scheme expts exf ext 2 "radau" extau None false exx exK (ex0 4) (ex0 2) (ex0 1) ex_points ex_dae ex_tdp ex_vars 1 ltac:(unfold ivals, ext; simpl; lia)) as (s & s1 & s2 & e & e1 & e2 & E & E1 & E2 & Ee & Ee1 & Ee2 & Hz & _ & _ & _ & _ & Hq & _).
  destruct scheme_ex as (s' & _ & _ & e' & E' & _ & Ee' & Hz' & _). rewrite E in E'. injection E' as <-. rewrite Ee in Ee'. injection Ee' as <-. apply Hz in Hz' as (Z1 & Z2 & _).
  destruct quadrature_ex as (s' & E' & Q9). rewrite E in E'. injection E' as <-. specialize (Hq 0%nat 1%nat ltac:(cbn; lia) ltac:(unfold ivals, ext; simpl; lia)). change (1 + 1)%nat with 2%nat in Hq. rewrite Q9 in Hq.
  exists s1, s2, e1, e2. repeat (split; [assumption|]). now symmetry.
Qed.

(** ** The integrator on parts *)
Section Sq.
Context (t : list R) (HL : (2 <= length t)%nat) (HA : Asc t).
Notation N := (ivals t).
Definition sqx : mat R := Mat 1 (N + 1) (fun _ n => node t n * node t n).
Definition sqK : mat R := Mat 1 (N * 2) (fun _ k => 2 * stage_t t extau (k / 2) (k mod 2)).
Definition sqsol : list R := dm_nz (mat_dm sqx) ++ dm_nz (mat_dm sqK) ++ dm_nz (mat_dm (ex0 (N * 2))).
Lemma sq_vars u : Shaped u 0 N -> VarsOk exf N 2 false sqx sqK (ex0 (N * 2)) u (ex0 1). Proof. intros Hu. repeat split; apply Hu. Qed.
Lemma sq_sampled u : Sampled exf t extau 2 false exd exs ez ez (fun _ => 0) sqx sqK (ex0 (N * 2)) u (ex0 1).
Proof.
  split; [reflexivity|]. split.
  { intros i n j Hi Hn Hj. unfold sqK, exd. cbn [at_m]. destruct (divmod n 2 j Hj) as [-> ->]. reflexivity. }
  split; [intros i n j Hi; cbn in Hi; lia|]. split; [intros i n s Hi; cbn in Hi; lia|intros i k Hi; cbn in Hi; lia].
Qed.
Lemma sq_c1 i : (i < f_nx exf)%nat -> PiecewiseC1 t 3 (exs i) (exd i).
Proof. intros _ n _. exists (fun s => s * s). split; [exists [0; 0; 1]; split; [simpl; lia|intros s; simpl; ring]|]. split; [reflexivity|]. intros s _. unfold exd. auto_derive; [exact I|ring]. Qed.
(** From [x0 = t[0] ^ 2] the integrator returns the squares of the grid points. *)
Lemma sq_integrator x0 u : x0 0%nat = node t 0 * node t 0 -> Shaped u 0 N -> exists out, integrator_ (try_root sqsol) 0 expts exf t 2 "radau" None x0 (fun _ => 0) u (ex0 1) = Ok out /\
  forall n, (n < N)%nat -> at_m (io_xf out) 0 n = node t (n + 1) * node t (n + 1).
Proof.
  intros Hx0 Su. assert (Sp : Shaped (ex0 1) (f_np exf) 1) by (split; reflexivity).
  destruct (integrator_eq expts exf t 2 "radau" extau None ex_points HL ex_dae ex_tdp eq_refl (try_root sqsol) 0 x0 (fun _ => 0) u (ex0 1) Su Sp) as (s0 & var & w0 & e0 & Es & Ev & Lw & E0 & EI).
  destruct (integrator_square expts exf t 2 "radau" extau None ex_points HL ex_dae ex_tdp eq_refl x0 u (ex0 1) Su Sp s0 var Es Ev w0 Lw) as (e0' & E0' & _ & Hsq). rewrite E0 in E0'. injection E0' as <-. apply proj2 in Hsq. specialize (Hsq ex_full).
  destruct (integrator_roots expts exf t 2 "radau" extau None ex_points HL ex_dae ex_tdp eq_refl x0 u (ex0 1) Su Sp s0 var sqx sqK (ex0 (N * 2)) Es Ev (sq_vars u Su)) as (A & b & e & HR & Ee & He).
  assert (Hz : forall v, In v e -> v = 0).
  { apply He. split; [|intros i Hi; cbn in Hi; assert (i = 0%nat) as -> by lia; cbn; symmetry; exact Hx0].
    pose proof (state_exact expts exf t 2 "radau" extau false sqx sqK (ex0 (N * 2)) u (ex0 1) ex_points HL HA ex_unit exd exs ez ez (fun _ => 0) (sq_sampled u) sq_c1 A b HR) as HS. split; [|split; [|discriminate]].
    - intros n j r Hn Hj Hr. unfold stage. cbn [exf f_dae a_xdot a_t]. destruct (sq_sampled u) as (_ & S2 & _). rewrite S2 by (auto; cbn; lia). unfold exd. ring.
    - intros n i Hn Hi. now apply HS. }
  assert (HU := unknowns 1 0 N (N * 2) (mzeros 1 (N + 1)) (mzeros 1 (N * 2)) (mzeros 0 (N * 2)) var).
  destruct (integrator_var expts exf t 2 "radau" extau None ex_points HL ex_dae ex_tdp) as (s0' & var' & Es' & Ev' & Hv). rewrite Es in Es'. injection Es' as <-. rewrite Ev in Ev'. injection Ev' as <-.
  destruct HU as (Hsz & _ & _ & Hrt); try (split; reflexivity); [exact Hv|].
  assert (Er : try_root sqsol (eq_fun expts exf t 2 "radau" None (so_c var) x0 u (ex0 1)) w0 = Ok sqsol).
  { unfold try_root, sqsol. rewrite Ee. rewrite Lw, Hsz, !app_length, !mat_dm_len. cbn [sqx sqK ex0 nr nc]. replace (_ =? _)%nat with true by (symmetry; apply Nat.eqb_eq; lia). cbn [andb]. replace (forallb _ e) with true; [reflexivity|]. symmetry. apply forallb_forall. intros v Hv'. rewrite (Hz v Hv'). destruct (Req_EM_T 0 0); [reflexivity|lra]. }
  rewrite Hsq, Nat.eqb_refl, Er in EI. cbn [negb] in EI. change ((0 <? f_np exf)%nat && (0 <? f_nq exf)%nat) with false in EI. cbn [rbind] in EI.
  assert (Hrt' : sol_parts (so_c var) sqsol = Ok (dm_mat (mat_dm sqx), dm_mat (mat_dm sqK), dm_mat (mat_dm (ex0 (N * 2))))) by (apply Hrt; split; reflexivity). rewrite Hrt' in EI. cbn [rbind] in EI.
  destruct (scheme_equations expts exf t 2 "radau" extau None false (dm_mat (mat_dm sqx)) (dm_mat (mat_dm sqK)) (dm_mat (mat_dm (ex0 (N * 2)))) u (ex0 1) ex_points HL ex_dae ex_tdp) as (s & _ & _ & _ & E & _); [repeat split; apply Su|]. rewrite E in EI. cbn [rbind] in EI.
  eexists. split; [exact EI|]. intros n Hn. cbn [io_xf mcols at_m]. destruct (dm_mat_dense sqx) as [_ V]. rewrite V by (cbn; lia). cbn. replace (S n) with (n + 1)%nat by lia. reflexivity.
Qed.
End Sq.
Lemma exf_lip : LipDae exf 0.
Proof.
  intros a c Ha Hc HS e He i Hi. cbn in Hi. assert (i = 0%nat) as -> by lia. pose proof (Ha 0%nat ltac:(cbn; lia)) as A. pose proof (Hc 0%nat ltac:(cbn; lia)) as C. cbn in A, C.
  assert (a_t a = a_t c) as Et by (destruct HS as (_ & _ & E & _); exact E). replace (a_xdot a 0%nat - a_xdot c 0%nat) with 0 by lra. rewrite Rabs_R0. lra.
Qed.
Lemma ex_bound : exists al, CoefBound extau al.
Proof.
  destruct (tbl_ok expts 2 "radau" extau ex_points) as (_ & _ & _ & _ & _ & HR).
  exists (Rabs (cA extau 0 0) + Rabs (cA extau 0 1) + Rabs (cA extau 1 0) + Rabs (cA extau 1 1) + Rabs (cb extau 0) + Rabs (cb extau 1)), (cA extau), (cb extau). split; [exact HR|]. change (length extau) with 2%nat. cbn [Sum].
  pose proof (Rabs_pos (cA extau 0 0)). pose proof (Rabs_pos (cA extau 0 1)). pose proof (Rabs_pos (cA extau 1 0)). pose proof (Rabs_pos (cA extau 1 1)). pose proof (Rabs_pos (cb extau 0)). pose proof (Rabs_pos (cb extau 1)).
  split; [|lra]. intros j Hj. destruct j as [|[|j]]; [lra|lra|lia].
Qed.
Lemma short_asc l a b : Asc l -> l = [a; b] -> a < b. Proof. intros H ->. exact (H 0%nat 1%nat ltac:(simpl; lia)). Qed.
Lemma pair_asc a b : a < b -> Asc [a; b]. Proof. intros Hab i j H. simpl in H. assert (i = 0%nat) as -> by lia. assert (j = 1%nat) as -> by lia. exact Hab. Qed.
(** From 0 over [0, 1], then from there over [1, 3]: the same states as over 0, 1, 3 at once *)
Example integrator_split_ex : exists out out1 out2,
  integrator_ (try_root (sqsol ext)) 0 expts exf ext 2 "radau" None (fun _ => 0) (fun _ => 0) (ex0 2) (ex0 1) = Ok out /\
  integrator_ (try_root (sqsol [0; 1])) 0 expts exf [0; 1] 2 "radau" None (fun _ => 0) (fun _ => 0) (mcols (ex0 2) 0 1) (ex0 1) = Ok out1 /\
  integrator_ (try_root (sqsol [1; 3])) 0 expts exf [1; 3] 2 "radau" None (fun i => at_m (io_xf out1) i 0) (fun _ => 0) (mcols (ex0 2) 1 2) (ex0 1) = Ok out2 /\
  io_tc out = io_tc out1 ++ io_tc out2 /\ at_m (io_xf out) 0 1 = at_m (io_xf out2) 0 0 /\ at_m (io_xf out2) 0 0 = 9.
Proof.
  destruct (sq_integrator ext ext_len ex_asc (fun _ => 0) (ex0 2)) as (out & E & X); [unfold ext, node; simpl; ring|split; reflexivity|].
  destruct (sq_integrator [0; 1] lt_len lt_asc (fun _ => 0) (mcols (ex0 2) 0 1)) as (out1 & E1 & X1); [unfold node; simpl; ring|split; reflexivity|].
  destruct (sq_integrator [1; 3] ltac:(simpl; lia) (pair_asc 1 3 ltac:(lra)) (fun i => at_m (io_xf out1) i 0) (mcols (ex0 2) 1 2)) as (out2 & E2 & X2); [rewrite X1 by (unfold ivals; simpl; lia); reflexivity|split; reflexivity|].
  exists out, out1, out2. repeat (split; [assumption|]). destruct ex_bound as [al Hal]. assert (Hss : ShortSteps ext al 0) by (split; [lra|intros; lra]).
  destruct (integrator_split expts exf ext 2 "radau" extau None ex_points ex_dae ex_tdp eq_refl ex_asc al 0 Hal Hss exf_lip (fun _ => 0) (ex0 2) (ex0 1) ltac:(split; reflexivity) ltac:(split; reflexivity) 1 (try_root (sqsol ext)) 0 (fun _ => 0) out (try_root (sqsol [0; 1])) 0 (fun _ => 0) out1 (try_root (sqsol [1; 3])) 0 (fun _ => 0) out2) as (Ht & _ & Hx & _); [unfold ivals, ext; simpl; lia|apply try_root_ok..|exact E|exact E1|exact E2|].
  split; [exact Ht|]. split; [apply (Hx 0%nat 0%nat); [cbn; lia|unfold ivals, ext; simpl; lia]|]. rewrite X2 by (unfold ivals; simpl; lia). unfold node. simpl. ring.
Qed.

(** ** Changes of variables *)
(** [x = 3 y + 5], [t = 1 + 2 s]: [x' = 2 t] becomes [3 / 2 y' = 2 + 4 s]. *)
Definition exg : daefun R := DaeFun 1 0 0 0 0 1 1 (fun _ => true) (fun a _ => 3 / 2 * a_xdot a 0%nat - (2 + 4 * a_t a)) (fun a _ => 3 * a_xdot a 0%nat).
Lemma exg_ok : DaeOk exg.
Proof. split; [|split]; cbn; [intros a b r (H1 & _ & _ & _ & _ & H6 & _)|intros a b r (H1 & _)|discriminate]; cbn in *; rewrite H1 by lia; rewrite ?H6; reflexivity. Qed.
Lemma exg_carries : Carries exg exf (fun _ _ => 1 / 3) (fun _ => - (5 / 3)) (1 / 2) (- (1 / 2)).
Proof.
  repeat (split; [reflexivity|]). intros a b (M1 & M2 & _ & _ & _ & M6 & _) Hs. specialize (M1 0%nat ltac:(cbn; lia)). cbn in M1. specialize (Hs 0%nat ltac:(cbn; lia)). cbn in Hs.
  split; intros r Hr; cbn; rewrite M1; [rewrite M6; lra|lra].
Qed.
(** [t ^ 2] on 0, 1, 3 in the new variables: a solution on -1/2, 0, 1 with the same quadrature *)
Example move_ex : exists s e, scheme_ expts exg [- (1 / 2) + 1 / 2 * 0; - (1 / 2) + 1 / 2 * 1; - (1 / 2) + 1 / 2 * 3] 2 "radau" None false
    (Mat 1 3 (fun _ n => 0 + 1 / 3 * at_m exx 0 n + - (5 / 3))) (Mat 1 4 (fun _ n => (0 + 1 / 3 * at_m exK 0 n) / (1 / 2))) (ex0 4) (ex0 2) (ex0 1) = Ok s /\ veccat_master (sc_eq s) = Ok e /\ AllZero e /\ at_m (sc_q s) 0 2 = 9.
Proof.
  destruct scheme_ex as (s' & _ & _ & e' & E' & _ & Ee' & Hz' & _). destruct quadrature_ex as (s'' & E'' & Q9). rewrite E' in E''. injection E'' as <-.
  destruct (move_scheme expts exg exf ext 2 "radau" extau None None false exx exK (ex0 4) (ex0 2) (ex0 1) ex_points ext_len exg_ok ex_dae eq_refl eq_refl ex_vars (fun _ _ => 1 / 3) (fun _ => - (5 / 3)) (1 / 2) (- (1 / 2)) ltac:(lra) exg_carries) with (s := s') (e := e') as (s & e & E & Ee & Hz & _ & _ & Hq & _); [cbn; intros; lia|assumption..|].
  exists s, e. split; [|split; [exact Ee|split; [exact Hz|]]].
  - rewrite <- E. reflexivity.
  - rewrite Hq by (cbn; try lia; unfold ivals, ext; simpl; lia). exact Q9.
Qed.
(** The integrator in [y] and [s] over -1/2, 0, 1 ends at [(9 - 5) / 3]. *)
Lemma exg_lip : LipDae exg 0.
Proof.
  intros a c Ha Hc HS e He i Hi. cbn in Hi. assert (i = 0%nat) as -> by lia. pose proof (Ha 0%nat ltac:(cbn; lia)) as A. pose proof (Hc 0%nat ltac:(cbn; lia)) as C. cbn in A, C.
  assert (a_t a = a_t c) as Et by (destruct HS as (_ & _ & E & _); exact E). replace (a_xdot a 0%nat - a_xdot c 0%nat) with 0 by lra. rewrite Rabs_R0. lra.
Qed.
Example integrator_move_ex rf nan z0 out : RootFinder rf ->
  integrator_ rf nan expts exg (clock (1 / 2) (- (1 / 2)) ext) 2 "radau" None (fun i => Sum 1 (fun k => 1 / 3 * 0) + - (5 / 3)) z0 (ex0 2) (ex0 1) = Ok out -> at_m (io_xf out) 0 1 = 4 / 3.
Proof.
  intros Hrf E. destruct (sq_integrator ext ext_len ex_asc (fun _ => 0) (ex0 2)) as (o & E0 & X); [unfold ext, node; simpl; ring|split; reflexivity|]. destruct ex_bound as [al Hal].
  assert (Hss : ShortSteps (clock (1 / 2) (- (1 / 2)) ext) al 0) by (split; [lra|intros; lra]).
  destruct (integrator_move expts exg exf ext 2 "radau" extau None None (ex0 2) (ex0 1) ex_points ext_len exg_ok ex_dae eq_refl eq_refl eq_refl eq_refl ex_asc (fun _ _ => 1 / 3) (fun _ => - (5 / 3)) (1 / 2) (- (1 / 2)) ltac:(lra) exg_carries ltac:(cbn; intros; lia) al 0 Hal Hss exg_lip (fun _ => 0) ltac:(split; reflexivity) ltac:(split; reflexivity) (try_root (sqsol ext)) 0 (fun _ => 0) o rf nan z0 out (try_root_ok _) Hrf E0 E) as (_ & Hx & _).
  rewrite Hx by (cbn; try lia; unfold ivals, ext; simpl; lia). cbn. rewrite X by (unfold ivals, ext; simpl; lia). unfold ext, node. simpl. field.
Qed.
