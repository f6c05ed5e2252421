(** Examples and refutations for collocation schemes and integrators (C61-C69, C71). *)
From Coq Require Import Reals Lra FunctionalExtensionality.
From Coquelicot Require Import Coquelicot.
From Verif Require Import PyBase IndexModel DMModel DMProofs StructModel StructSpec StructProofs PowerModel PowerSpec EntryModel StructsModel IneqModel IneqThms DaeModel DaeSpec DaeThms StructsSpec EntrySpec EntryProofs StructsThms5 StructsThms7 StructsThms11 PowerThms NumModel NumInst NumSpec PolynomialModel PiecewiseModel PdqModel SchemeModel
  PolySpec PiecewiseSpec PdqSpec SchemeSpec PolyMath PolynomialBase PolynomialThms PolynomialThms2 PiecewiseThms PdqThms PdqThms2 SchemeThms SchemeThms2 SchemeThms3 SchemeThms4 SchemeThms5 DaeExamples.
Open Scope R_scope.

(** ** A scheme *)
(** [xdot = 2 t], quadrature of xdot, radau points of order 2 on the grid 0, 1, 3. *)
Definition exf : daefun R := DaeFun 1 0 0 0 0 1 1 (fun _ => true) (fun a _ => a_xdot a 0%nat - 2 * a_t a) (fun a _ => a_xdot a 0%nat).
Definition expts (order : nat) (m : string) : res (list R) := Ok [1 / 3; 1].
Definition ext : list R := [0; 1; 3].
Definition extau : list R := [1 / 3; 1].
Lemma ex_points : Points expts 2 "radau" extau.
Proof. split; [reflexivity|]. split; [|split; [reflexivity|lia]]. constructor; [intros [H|[]]; lra|]. constructor; [intros []|constructor]. Qed.
Lemma ex_dae : DaeOk exf.
Proof. split; [|split]; cbn; [intros a b r (H1 & _ & _ & _ & _ & H6 & _)|intros a b r (H1 & _)|discriminate]; cbn in *; rewrite H1 by lia; rewrite ?H6; reflexivity. Qed.
Lemma ex_tdp : TdpOk exf None. Proof. reflexivity. Qed.
Lemma ex_asc : Asc ext. Proof. intros i j H. unfold ext in *. simpl in H. unfold node. destruct i as [|[|[|i]]], j as [|[|[|j]]]; simpl; try lia; lra. Qed.
Lemma ex_unit : InUnit extau. Proof. intros j H. unfold extau in *. simpl in H. unfold node. destruct j as [|[|j]]; simpl; try lia; lra. Qed.
(** The solution [x = t ^ 2] *)
Definition exx : mat R := Mat 1 3 (fun _ n => node ext n * node ext n).
Definition exK : mat R := Mat 1 4 (fun _ k => 2 * stage_t ext extau (k / 2) (k mod 2)).
Definition ex0 (c : nat) : mat R := Mat 0 c (fun _ _ => 0).
Lemma ex_vars : VarsOk exf (ivals ext) 2 false exx exK (ex0 4) (ex0 2) (ex0 1). Proof. repeat split. Qed.
Definition exs (i : nat) (s : R) : R := s * s.
Definition exd (i : nat) (s : R) : R := 2 * s.
Definition ez (i : nat) (s : R) : R := 0.
Lemma ex_sampled : Sampled exf ext extau 2 false exd exs ez ez (fun _ => 0) exx exK (ex0 4) (ex0 2) (ex0 1).
Proof.
  split; [reflexivity|]. split.
  { intros i n j Hi Hn Hj. unfold exK, exd. cbn [at_m]. destruct (divmod n 2 j Hj) as [-> ->]. reflexivity. }
  split; [intros i n j Hi; cbn in Hi; lia|]. split; [intros i n s Hi; cbn in Hi; lia|intros i k Hi; cbn in Hi; lia].
Qed.
Lemma ex_c1 i : (i < f_nx exf)%nat -> PiecewiseC1 ext 3 (exs i) (exd i).
Proof.
  intros _ n _. exists (fun s => s * s). split; [exists [0; 0; 1]; split; [simpl; lia|intros s; simpl; ring]|]. split; [reflexivity|]. intros s _. unfold exd. auto_derive; [exact I|ring].
Qed.
Lemma ex_solves : SolvesDae exf ext exd exs ez ez (fun _ => 0) None. Proof. intros s r _ _. cbn. unfold exd. ring. Qed.
Lemma ext_len : (2 <= length ext)%nat. Proof. simpl. lia. Qed.

(** The sampled solution satisfies the equations (C61, C63). *)
Example scheme_ex : exists s A b e, scheme_ expts exf ext 2 "radau" None false exx exK (ex0 4) (ex0 2) (ex0 1) = Ok s /\ RungeKutta extau A b /\ veccat_master (sc_eq s) = Ok e /\
  (forall v, In v e -> v = 0) /\ CollocationEqs exf ext extau 2 A b false None exx exK (ex0 4) (ex0 2) (ex0 1).
Proof.
  destruct (scheme_equations expts exf ext 2 "radau" extau None false exx exK (ex0 4) (ex0 2) (ex0 1) ex_points ext_len ex_dae ex_tdp ex_vars) as (s & A & b & e & E & HR & _ & _ & _ & _ & _ & _ & Ee & He).
  destruct (polynomial_solution expts exf ext 2 "radau" extau None false exx exK (ex0 4) (ex0 2) (ex0 1) ex_points ext_len ex_dae ex_tdp ex_vars ex_asc ex_unit exd exs ez ez (fun _ => 0) ex_sampled ex_c1 ex_solves) as (s' & e' & E' & Ee' & Hz & _).
  rewrite E in E'. injection E' as <-. rewrite Ee in Ee'. injection Ee' as <-. exists s, A, b, e. split; [exact E|]. split; [exact HR|]. split; [exact Ee|]. split; [exact Hz|]. now apply He.
Qed.
(** Not every choice of values does. *)
Definition badx : mat R := Mat 1 3 (fun _ n => node ext n).
Example scheme_bad : exists s e, scheme_ expts exf ext 2 "radau" None false badx exK (ex0 4) (ex0 2) (ex0 1) = Ok s /\ veccat_master (sc_eq s) = Ok e /\ ~ forall v, In v e -> v = 0.
Proof.
  assert (HVb : VarsOk exf (ivals ext) 2 false badx exK (ex0 4) (ex0 2) (ex0 1)) by (repeat split).
  destruct (scheme_equations expts exf ext 2 "radau" extau None false badx exK (ex0 4) (ex0 2) (ex0 1) ex_points ext_len ex_dae ex_tdp HVb) as (s & A & b & e & E & HR & _ & _ & _ & _ & _ & _ & Ee & He).
  exists s, e. split; [exact E|]. split; [exact Ee|]. rewrite He. intros (_ & C2 & _). pose proof (C2 1%nat 0%nat ltac:(unfold ivals, ext; simpl; lia) ltac:(cbn; lia)) as H1.
  destruct scheme_ex as (s' & A' & b' & e' & _ & HR' & _ & _ & (_ & D2 & _)). pose proof (D2 1%nat 0%nat ltac:(unfold ivals, ext; simpl; lia) ltac:(cbn; lia)) as H2.
  assert (P1 : PolyLt (length extau) (fun s => 2 * (1 + 2 * s))) by (exists [2; 4]; split; [simpl; lia|intros s'' ; simpl; ring]).
  destruct (HR _ P1) as [_ I1]. destruct (HR' _ P1) as [_ I2]. apply (is_RInt_unique (V := R_CompleteNormedModule)) in I1. apply (is_RInt_unique (V := R_CompleteNormedModule)) in I2. rewrite I1 in I2.
  unfold exK, badx, exx, ext, extau, step, stage_t, node in *. cbn in H1, H2, I2. replace (step [0; 1; 3] 1) with 2 in * by (unfold step, node; cbn; lra). lra.
Qed.
(** The trajectory through the samples (C62) *)
Example trajectory_ex : exists s pp, scheme_ expts exf ext 2 "radau" None false exx exK (ex0 4) (ex0 2) (ex0 1) = Ok s /\ piecewise_X s exx exK = Ok pp /\ ppval pp "left" 0 1 = 1 /\ ppval pp "right" 0 1 = 1 /\ ppval pp "left" 0 3 = 9.
Proof.
  destruct scheme_ex as (s & _ & _ & e & E & _ & Ee & Hz & _). destruct (solution_trajectory expts exf ext 2 "radau" extau None false exx exK (ex0 4) (ex0 2) (ex0 1) ex_points ext_len ex_dae ex_tdp ex_vars ex_asc ex_unit s e E Ee Hz) as (pp & dp & Epp & _ & _ & _ & _ & HX & _).
  exists s, pp. split; [exact E|]. split; [exact Epp|]. pose proof (HX 1%nat 0%nat "left"%string ltac:(unfold ivals, ext; simpl; lia) ltac:(cbn; lia) ltac:(auto)) as H1. pose proof (HX 1%nat 0%nat "right"%string ltac:(unfold ivals, ext; simpl; lia) ltac:(cbn; lia) ltac:(auto)) as H2. pose proof (HX 2%nat 0%nat "left"%string ltac:(unfold ivals, ext; simpl; lia) ltac:(cbn; lia) ltac:(auto)) as H3.
  unfold ext, node, exx in *. cbn in H1, H2, H3. rewrite H1, H2, H3. repeat split; lra.
Qed.
(** The quadrature of [2 t] over the grid is 9 (C63, C64). *)
Example quadrature_ex : exists s, scheme_ expts exf ext 2 "radau" None false exx exK (ex0 4) (ex0 2) (ex0 1) = Ok s /\ at_m (sc_q s) 0 2 = 9.
Proof.
  destruct (polynomial_quadrature expts exf ext 2 "radau" extau None false exx exK (ex0 4) (ex0 2) (ex0 1) ex_points ext_len ex_dae ex_tdp ex_vars ex_asc ex_unit exd exs ez ez (fun _ => 0) ex_sampled ex_c1 exd) as (s & E & HQ & _).
  - intros i _ n _. exists (fun s => 2 * s). split; [exists [0; 2]; split; [simpl; lia|intros s; simpl; ring]|reflexivity].
  - reflexivity.
  - exists s. split; [exact E|]. specialize (HQ 0%nat 2%nat ltac:(cbn; lia) ltac:(unfold ivals, ext; simpl; lia)). apply (is_RInt_unique (V := R_CompleteNormedModule)) in HQ. rewrite <- HQ.
    apply (is_RInt_unique (V := R_CompleteNormedModule)). evar_last; [apply (is_RInt_poly 2 (exd 0) (fun s => s * s)); [exists [0; 2]; split; [simpl; lia|intros s'; unfold exd; simpl; ring]|intros s'; unfold exd; auto_derive; [exact I|ring]]|]. unfold ext, node. simpl. ring.
Qed.
(** Parts by name (C67) *)
Example combine_ex : exists s o, scheme_ expts exf ext 2 "radau" None false exx exK (ex0 4) (ex0 2) (ex0 1) = Ok s /\ sc_combine s ["eq"; "x"]%string = Ok o /\ s_keys (cs_struct (so_c o)) = ["eq"; "x"]%string.
Proof.
  destruct scheme_ex as (s & _ & _ & e & E & _ & Ee & _). destruct (combine_parts expts exf ext 2 "radau" extau None false exx exK (ex0 4) (ex0 2) (ex0 1) ex_points ext_len ex_dae ex_tdp ex_vars s e E Ee ["eq"; "x"]%string) as (o & ms & Ho & Hk & _).
  - constructor; [intros [H|[]]; discriminate|]. constructor; [intros []|constructor].
  - intros w [<-|[<-|[]]]; simpl; tauto.
  - exists s, o. split; [exact E|]. split; [exact Ho|exact Hk].
Qed.

(** ** An integrator *)
(** A rootfinder that tries one vector *)
Definition try_root (sol : list R) (F : list R -> res (list R)) (w0 : list R) : res (list R) :=
  match F sol with
  | Ok e => if ((length sol =? length w0)%nat && forallb (fun v => if Req_EM_T v 0 then true else false) e)%bool then Ok sol else Err EException
  | Err x => Err x
  end.
Example try_root_ok sol : RootFinder (try_root sol).
Proof.
  intros F w0 w. unfold try_root. destruct (F sol) as [e|] eqn:E; [|discriminate]. destruct (Nat.eqb_spec (length sol) (length w0)) as [L|]; cbn [andb]; [|discriminate]. destruct (forallb _ e) eqn:Ef; [|discriminate]. intros [= <-]. split; [exact L|]. exists e. split; [exact E|].
  intros v Hv. rewrite forallb_forall in Ef. specialize (Ef v Hv). destruct (Req_EM_T v 0); [assumption|discriminate].
Qed.
Definition keep (F : list R -> res (list R)) (w0 : list R) : res (list R) := Ok w0.
Example keep_answers : Answers keep. Proof. intros F w0. exists w0. auto. Qed.
Definition exsol : list R := dm_nz (mat_dm exx) ++ dm_nz (mat_dm exK) ++ dm_nz (mat_dm (ex0 4)).
Lemma ex_full : Full exf. Proof. intros r _. reflexivity. Qed.
Example integrator_ex : exists out, integrator_ (try_root exsol) 0 expts exf ext 2 "radau" None (fun _ => 0) (fun _ => 0) (ex0 2) (ex0 1) = Ok out /\ at_m (io_x out) 0 0 = 0.
Proof.
  assert (Su : Shaped (ex0 2) (f_nu exf) (ivals ext)) by (split; reflexivity). assert (Sp : Shaped (ex0 1) (f_np exf) 1) by (split; reflexivity).
  destruct (integrator_eq expts exf ext 2 "radau" extau None ex_points ext_len ex_dae ex_tdp eq_refl (try_root exsol) 0 (fun _ => 0) (fun _ => 0) (ex0 2) (ex0 1) Su Sp) as (s0 & var & w0 & e0 & Es & Ev & Lw & E0 & EI).
  destruct (integrator_square expts exf ext 2 "radau" extau None ex_points ext_len ex_dae ex_tdp eq_refl (fun _ => 0) (ex0 2) (ex0 1) Su Sp s0 var Es Ev w0 Lw) as (e0' & E0' & _ & Hsq). rewrite E0 in E0'. injection E0' as <-. apply proj2 in Hsq. specialize (Hsq ex_full).
  destruct (integrator_roots expts exf ext 2 "radau" extau None ex_points ext_len ex_dae ex_tdp eq_refl (fun _ => 0) (ex0 2) (ex0 1) Su Sp s0 var exx exK (ex0 4) Es Ev ex_vars) as (A & b & e & HR & Ee & He).
  assert (Hz : forall v, In v e -> v = 0).
  { apply He. split; [|intros i Hi; cbn in Hi; unfold exx, ext, node; cbn; ring].
    pose proof (state_exact expts exf ext 2 "radau" extau false exx exK (ex0 4) (ex0 2) (ex0 1) ex_points ext_len ex_asc ex_unit exd exs ez ez (fun _ => 0) ex_sampled ex_c1 A b HR) as HS. split; [|split; [|discriminate]].
    - intros n j r Hn Hj Hr. unfold stage. cbn [exf f_dae a_xdot a_t]. destruct ex_sampled as (_ & S2 & _). rewrite S2 by (auto; cbn; lia). unfold exd. ring.
    - intros n i Hn Hi. now apply HS. }
  assert (Er : try_root exsol (eq_fun expts exf ext 2 "radau" None (so_c var) (fun _ => 0) (ex0 2) (ex0 1)) w0 = Ok exsol).
  { unfold try_root, exsol. rewrite Ee. destruct (unknowns 1 0 2 4 (mzeros 1 3) (mzeros 1 4) (mzeros 0 4) var) as (Hsz & _); try (split; reflexivity).
    { destruct (integrator_var expts exf ext 2 "radau" extau None ex_points ext_len ex_dae ex_tdp) as (s0' & var' & Es' & Ev' & Hv). rewrite Es in Es'. injection Es' as <-. rewrite Ev in Ev'. injection Ev' as <-. exact Hv. }
    rewrite Lw, Hsz, !app_length, !mat_dm_len. cbn [exx exK ex0 nr nc Nat.mul Nat.add Nat.eqb andb]. replace (forallb _ e) with true; [reflexivity|]. symmetry. apply forallb_forall. intros v Hv. rewrite (Hz v Hv). destruct (Req_EM_T 0 0); [reflexivity|lra]. }
  rewrite Hsq, Nat.eqb_refl, Er in EI. cbn [negb] in EI. change ((0 <? f_np exf)%nat && (0 <? f_nq exf)%nat) with false in EI. cbn [rbind] in EI.
  destruct (unknowns 1 0 2 4 (mzeros 1 3) (mzeros 1 4) (mzeros 0 4) var) as (_ & _ & _ & Hrt); try (split; reflexivity).
  { destruct (integrator_var expts exf ext 2 "radau" extau None ex_points ext_len ex_dae ex_tdp) as (s0' & var' & Es' & Ev' & Hv). rewrite Es in Es'. injection Es' as <-. rewrite Ev in Ev'. injection Ev' as <-. exact Hv. }
  assert (Hrt' : sol_parts (so_c var) exsol = Ok (dm_mat (mat_dm exx), dm_mat (mat_dm exK), dm_mat (mat_dm (ex0 4)))) by (apply Hrt; split; reflexivity). rewrite Hrt' in EI. cbn [rbind] in EI.
  destruct (scheme_equations expts exf ext 2 "radau" extau None false (dm_mat (mat_dm exx)) (dm_mat (mat_dm exK)) (dm_mat (mat_dm (ex0 4))) (ex0 2) (ex0 1) ex_points ext_len ex_dae ex_tdp) as (s & _ & _ & _ & E & _); [repeat split|]. rewrite E in EI. cbn [rbind] in EI.
  eexists. split; [exact EI|]. cbn [io_x]. destruct (dm_mat_dense exx) as [_ V]. rewrite V by (cbn; lia). unfold exx, ext, node. cbn. ring.
Qed.

(** A DAE with two quadratures: createFunction evaluates its expressions. *)
Definition Qe : mobj := MObj (dm_col [(fun v : val => v 1%nat 0%nat 0%nat * v 1%nat 0%nat 0%nat); (fun v : val => v 2%nat 0%nat 0%nat)]) None false.
Definition kwq : mkw := [("x", Xs); ("u", Us); ("z", Zs); ("ode", Ode); ("alg", MObj (dm_col [(fun v : val => v 3%nat 0%nat 0%nat)]) None false); ("quad", Qe)]%string.
Example scheme_fun_quad_ex assign : exists d ode alg f, SemiMade d /\ d_kind d = DSemi ode alg /\ scheme_fun assign 7 d = Ok f /\ f_nq f = 2%nat /\
  forall a, f_quad f a 0%nat = assign a 1%nat 0%nat 0%nat * assign a 1%nat 0%nat 0%nat /\ f_quad f a 1%nat = assign a 2%nat 0%nat 0%nat.
Proof.
  eexists _, _, _, _. split; [|split; [|split; [|split]]].
  - exists 9%nat, kwq. split; [|reflexivity]. intros k m Hin. simpl in Hin. destruct Hin as [[= <- <-]|[[= <- <-]|[[= <- <-]|[[= <- <-]|[[= <- <-]|[[= <- <-]|[]]]]]]]; try apply new_sym_ok; apply col_ok.
  - reflexivity.
  - reflexivity.
  - reflexivity.
  - intros a. split; reflexivity.
Qed.
Example scheme_fun_impl_ex assign : exists d xdot e f, ImplMade d /\ d_kind d = DImpl xdot e /\ scheme_fun assign 7 d = Ok f /\ forall a, f_dae f a 0%nat = assign a 7%nat 0%nat 0%nat - assign a 1%nat 1%nat 0%nat.
Proof.
  eexists _, _, _, _. split; [|split; [|split]].
  - exists 9%nat, [("xdot", new_sym 7 2); ("x", Xs); ("dae", MObj (dm_col [(fun v : val => v 7%nat 0%nat 0%nat - v 1%nat 1%nat 0%nat); (fun v : val => v 7%nat 1%nat 0%nat)]) None false)]%string.
    split; [|reflexivity]. intros k m Hin. simpl in Hin. destruct Hin as [[= <- <-]|[[= <- <-]|[[= <- <-]|[]]]]; try apply new_sym_ok; apply col_ok.
  - reflexivity.
  - reflexivity.
  - intros a. reflexivity.
Qed.

(** ** Refutations *)
(** C65: a semi-explicit DAE with an algebraic equation that is structurally zero *)
Definition Alg0 : mobj := MObj (DM (Spy 1 1 []) []) None false.
Definition kw0 : mkw := [("x", Xs); ("u", Us); ("z", Zs); ("ode", Ode); ("alg", Alg0)]%string.
Definition D0 : dae := DaeObj Xs Zs Us (new_sym 0 0) (new_sym 9 1) (new_sym 0 0) (new_sym 0 0) (DSemi Ode Alg0).
Lemma D0_made : SemiMade D0.
Proof.
  exists 9%nat, kw0. split; [|reflexivity]. intros k m Hin. simpl in Hin. destruct Hin as [[= <- <-]|[[= <- <-]|[[= <- <-]|[[= <- <-]|[[= <- <-]|[]]]]]]; try apply new_sym_ok; [apply col_ok|].
  split; [|exact I]. split; [|reflexivity]. split; [constructor|constructor].
Qed.
Theorem square_refuted assign : AssignOk D0 assign -> exists f, SemiMade D0 /\ scheme_fun assign 7 D0 = Ok f /\
  forall cspts t order method tau x0 u s0 var w, Points cspts order method tau -> (2 <= length t)%nat -> Shaped u (f_nu f) (ivals t) ->
    scheme_ cspts f t order method None false (mzeros (f_nx f) (ivals t + 1)) (mzeros (f_nx f) (ivals t * order)) (mzeros (f_nz f) (ivals t * order)) (mzeros (f_nu f) (ivals t)) (mzeros (f_np f) 1) = Ok s0 ->
    sc_combine s0 ["x"; "K"; "Z"]%string = Ok var -> length w = cs_size (so_c var) ->
    exists e, eq_fun cspts f t order method None (so_c var) x0 u (mzeros (f_np f) 1) w = Ok e /\ (length e < length w)%nat.
Proof.
  intros HA. destruct (scheme_fun_spec assign 7 D0 HA) as (f & Ef & HD & Fx & Fz & Fu & Fp & Ft & Fq & Fd); [right; split; [exact D0_made|]; exists Ode, Alg0; split; reflexivity|].
  assert (HF : ~ Full f). { intros H. assert (E : f_pat f 2 = false) by (unfold scheme_fun in Ef; injection Ef as <-; reflexivity). rewrite H in E; [discriminate|]. rewrite Fd, Fx, Fz. unfold numel. simpl. lia. }
  exists f. split; [exact D0_made|]. split; [exact Ef|]. change (numel (d_x D0)) with 2%nat in Fx. change (numel (d_z D0)) with 1%nat in Fz. change (numel (d_p D0)) with 0%nat in Fp. change (numel (d_tdp D0)) with 0%nat in Ft.
  intros cspts t order method tau x0 u s0 var w HP HL Hu Es Ev Hw.
  destruct (integrator_square cspts f t order method tau None HP HL HD Ft Fd x0 u (mzeros (f_np f) 1) Hu ltac:(split; reflexivity) s0 var Es Ev w Hw) as (e & Ee & Hle & Hiff). exists e. split; [exact Ee|].
  destruct (Nat.eq_dec (length e) (length w)) as [E|]; [|lia]. now apply Hiff in E.
Qed.
Example assign_ex : AssignOk D0 (fun a j r c => match j with 1 => if (r <? 2)%nat then a_x a r else 0 | 2 => if (r <? 1)%nat then a_u a r else 0 | 3 => if (r <? 1)%nat then a_z a r else 0 | 7 => if (r <? 2)%nat then a_xdot a r else 0 | 9 => a_t a | _ => 0 end).
Proof.
  intros a b H1 H2 H3 H4 H5 H6 H7. apply functional_extensionality. intros j. apply functional_extensionality. intros r. apply functional_extensionality. intros c.
  destruct j as [|[|[|[|[|[|[|[|[|[|j]]]]]]]]]]; try reflexivity; try (destruct (Nat.ltb_spec r 2); [|reflexivity]); try (destruct (Nat.ltb_spec r 1); [|reflexivity]); try assumption; [apply H2|apply H4|apply H3|apply H1]; assumption.
Qed.
(** C66: with parameters and quadratures no integrator can be made, whatever the
    rootfinder does.  Here [xdot = p] with the quadrature of x. *)
Definition pqf : daefun R := DaeFun 1 0 0 1 0 1 1 (fun _ => true) (fun a _ => a_xdot a 0%nat - a_p a 0%nat) (fun a _ => a_x a 0%nat).
Lemma pqf_ok : DaeOk pqf.
Proof. split; [|split]; cbn; [intros a b r (H1 & _ & _ & _ & H5 & _)|intros a b r (_ & H2 & _)|discriminate]; cbn in *; [rewrite H1, H5 by lia|rewrite H2 by lia]; reflexivity. Qed.
Theorem integrator_params_refuted : Full pqf /\ DaeOk pqf /\ forall rf nan x0 z0 u p out, Shaped u 0 2 -> Shaped p 1 1 -> integrator_ rf nan expts pqf ext 2 "radau" None x0 z0 u p <> Ok out.
Proof.
  split; [intros r _; reflexivity|]. split; [exact pqf_ok|]. intros rf nan x0 z0 u p out Su Sp.
  destruct (integrator_eq expts pqf ext 2 "radau" extau None ex_points ext_len pqf_ok eq_refl eq_refl rf nan x0 z0 u p Su Sp) as (s0 & var & w0 & e0 & _ & _ & _ & _ & ->).
  destruct (negb _); [discriminate|]. change ((0 <? f_np pqf)%nat && (0 <? f_nq pqf)%nat) with true. discriminate.
Qed.
(** C71: by position [integrate] raises. *)
Theorem integrate_position_refuted : exists rf, RootFinder rf /\ (exists out, integrator_ rf 0 expts exf ext 2 "radau" None (fun _ => 0) (fun _ => 0) (ex0 2) (ex0 1) = Ok out) /\
  integrate_ rf 0 expts exf ext 2 "radau" None false (fun _ => 0) (fun _ => 0) (ex0 2) (ex0 1) = Err EType.
Proof. exists (try_root exsol). split; [apply try_root_ok|]. destruct integrator_ex as (out & E & _). split; [eauto|]. exact (integrate_by_position expts exf ext 2 "radau" None (try_root exsol) 0 (fun _ => 0) (fun _ => 0) (ex0 2) (ex0 1) out E). Qed.
