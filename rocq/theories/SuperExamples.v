(** Example for the accuracy of collocation at the grid times (C103): the implicit midpoint rule for [x' = - x / 4, 0 = z - x]. *)
From Coq Require Import Reals Lra.
From Coquelicot Require Import Coquelicot.
From Verif Require Import PyBase IndexModel DMModel StructModel StructsModel IneqModel DaeModel NumModel NumInst PolynomialModel PiecewiseModel PdqModel SchemeModel
  PolySpec PiecewiseSpec PdqSpec SchemeSpec PolyMath PolynomialBase PiecewiseThms PdqThms SchemeThms SchemeThms2 SchemeThms3 SchemeThms4 SchemeExamples OrderSpec OrderMath OrderThms OrderExamples ConvSpec ConvThms ConvExamples ErrSpec ErrThms ErrExamples SuperSpec SuperThms.
Open Scope R_scope.

(** One step from 1 to 7/9 *)
Definition mx_ : mat R := Mat 1 2 (fun _ n => match n with 0%nat => 1 | _ => 7 / 9 end).
Definition mK : mat R := Mat 1 1 (fun _ _ => - (2 / 9)).
Definition mZ : mat R := Mat 1 1 (fun _ _ => 8 / 9).
Lemma m_vars : VarsOk ef (ivals [0; 1]) 1 false mx_ mK mZ (non 1) (non 1). Proof. repeat split. Qed.
Lemma half_coefs A b : RungeKutta [1 / 2] A b -> A 0%nat 0%nat = 1 / 2 /\ b 0%nat = 1.
Proof. intros H. destruct (rk_unique [1 / 2] A b _ _ (nd1 _) H (one_rk (1 / 2)) 0%nat ltac:(simpl; lia)) as [U1 U2]. split; [apply (U2 0%nat); simpl; lia|exact U1]. Qed.
Lemma m_eqs A b : RungeKutta [1 / 2] A b -> CollocationEqs ef [0; 1] [1 / 2] 1 A b false None mx_ mK mZ (non 1) (non 1).
Proof.
  intros HR. destruct (half_coefs A b HR) as [HA HB]. split; [|split; [|discriminate]].
  - intros n j r Hn Hj Hr. destruct (step01 n Hn) as [-> Hs]. assert (j = 0%nat) as -> by lia. cbn in Hr. destruct r as [|[|r]]; [| |lia]; cbn; unfold stage_x; rewrite Hs; cbn; rewrite HA; lra.
  - intros n i Hn Hi. destruct (step01 n Hn) as [-> Hs]. rewrite Hs. cbn. rewrite HB. lra.
Qed.
Lemma m_solves : exists s e, scheme_ (lpts (1 / 2)) ef [0; 1] 1 "m" None false mx_ mK mZ (non 1) (non 1) = Ok s /\ veccat_master (sc_eq s) = Ok e /\ forall v, In v e -> v = 0.
Proof.
  destruct (scheme_equations (lpts (1 / 2)) ef [0; 1] 1 "m" [1 / 2] None false mx_ mK mZ (non 1) (non 1) (lpts_ok (1 / 2)) lt_len ef_ok eq_refl m_vars) as (s & A & b & e & Es & HR & _ & _ & _ & _ & _ & _ & Ee & He). exists s, e. split; [exact Es|]. split; [exact Ee|]. apply He. now apply m_eqs.
Qed.
Lemma m_unit : InUnit [1 / 2]. Proof. intros j Hj. simpl in Hj. assert (j = 0%nat) as -> by lia. unfold node. simpl. lra. Qed.
Lemma ef_det : Determined ef.
Proof. intros a c Ha Hc _ Hx i Hi. cbn in Hi. assert (i = 0%nat) as -> by lia. pose proof (Ha 0%nat ltac:(cbn; lia)) as V. pose proof (Hc 0%nat ltac:(cbn; lia)) as W. specialize (Hx 0%nat ltac:(cbn; lia)). cbn in V, W. lra. Qed.

(** The collocation polynomial and its derivative *)
Lemma m_poly s pp dp : scheme_ (lpts (1 / 2)) ef [0; 1] 1 "m" None false mx_ mK mZ (non 1) (non 1) = Ok s -> piecewise_X s mx_ mK = Ok pp -> pp_derivative pp = Ok dp ->
  forall v, 0 < v <= 1 -> ppval pp "left" 0 v = 1 - 2 / 9 * v /\ ppval dp "left" 0 v = - (2 / 9).
Proof.
  intros Es Epp Edp v Hv. destruct m_solves as (s' & e & Es' & Ee & Hz). rewrite Es in Es'. injection Es' as <-.
  destruct (solution_trajectory (lpts (1 / 2)) ef [0; 1] 1 "m" [1 / 2] None false mx_ mK mZ (non 1) (non 1) (lpts_ok (1 / 2)) lt_len ef_ok eq_refl m_vars lt_asc m_unit s e Es Ee Hz) as (pp' & dp' & Epp' & Edp' & Hpp & Ht & HFp & _). rewrite Epp in Epp'. injection Epp' as <-. rewrite Edp in Edp'. injection Edp' as <-.
  destruct (HFp 0%nat 0%nat ltac:(unfold ivals; simpl; lia) ltac:(cbn; lia)) as (F & PF & (c & Lc & Hc) & F0 & F1 & _). unfold node in F0, F1. simpl in F0, F1.
  assert (EF : forall z, F z = 1 - 2 / 9 * z). { rewrite Hc in F0, F1. intros z. rewrite Hc. destruct c as [|c0 [|c1 [|]]]; simpl in *; [lra|lra| |lia]. nra. }
  assert (DF : forall z, is_derive F z (- (2 / 9))) by (intros z; apply (is_derive_ext (fun z => 1 - 2 / 9 * z)); [intros; now rewrite EF|auto_derive; [exact I|lra]]).
  assert (B : Belongs pp false v 0) by (unfold Belongs, nint, bound; rewrite Ht; unfold ivals, node; simpl; split; [lia|split; right; lra]).
  destruct (derivative_spec pp 1 Hpp) as (dp' & Edp' & Tdp & _ & Pdp & HdP). rewrite Edp in Edp'. injection Edp' as <-.
  assert (Bd : Belongs dp false v 0) by (unfold Belongs, nint, bound in *; rewrite Tdp; exact B).
  rewrite (ppval_spec pp 1 "left" 0 v 0 F Hpp (or_introl eq_refl) B PF), EF. split; [reflexivity|].
  refine (ppval_spec dp 1 "left" 0 v 0 (fun _ => - (2 / 9)) Pdp (or_introl eq_refl) Bd (HdP 0%nat 0%nat F _ _ PF DF)). unfold nint. rewrite Ht. simpl. lia.
Qed.

(** The adjoint equation is [y' = y / 4]. *)
Definition my (_ : nat) (v : R) : R := exp ((v - 1) / 4).
Definition myd (_ : nat) (v : R) : R := exp ((v - 1) / 4) / 4.
Definition mw (_ : nat) (v : R) : R := - ((1 - 2 / 9 * v) / 4).
Definition mz (_ : nat) (v : R) : R := 1 - 2 / 9 * v.
Lemma c1_of (w d : nat -> R -> R) i : (forall v, is_derive (w i) v (d i v)) -> (forall v, continuous (d i) v) -> C1 [0; 1] (w i) (d i).
Proof. intros H1 H2 n _. exists (w i), (d i). split; [reflexivity|]. split; [reflexivity|]. intros s. split; [apply H1|apply H2]. Qed.
Lemma my_c1 i : (i < 1)%nat -> C1 [0; 1] (my i) (myd i).
Proof. intros _. apply c1_of; intros v; unfold my, myd; [auto_derive; [exact I|unfold Rdiv, Rminus; ring]|apply (ex_derive_continuous (K := R_AbsRing) (V := R_NormedModule)); auto_derive; exact I]. Qed.
Lemma es_c1 i : (i < 1)%nat -> C1 [0; 1] (es i) (ed i).
Proof. intros _. apply c1_of; intros v; unfold es, ed; [auto_derive; [exact I|unfold Rdiv; ring]|apply (ex_derive_continuous (K := R_AbsRing) (V := R_NormedModule)); auto_derive; exact I]. Qed.
(** The weighted residual has a second derivative of at most 17/576. *)
Definition mr (v : R) : R := exp ((v - 1) / 4) * (1 / 36 - v / 18).
Lemma mr_1 v : is_derive mr v (exp ((v - 1) / 4) * (- (7 / 144) - v / 72)).
Proof. unfold mr. auto_derive; [exact I|]. unfold Rdiv, Rminus. field. Qed.
Lemma mr_2 v : is_derive (fun v => exp ((v - 1) / 4) * (- (7 / 144) - v / 72)) v (exp ((v - 1) / 4) * (- (15 / 576) - v / 288)).
Proof. auto_derive; [exact I|]. unfold Rdiv, Rminus. field. Qed.
Lemma mr_D2 v : is_derive_n mr 2 v (exp ((v - 1) / 4) * (- (15 / 576) - v / 288)).
Proof. simpl. apply (is_derive_ext (fun v => exp ((v - 1) / 4) * (- (7 / 144) - v / 72))); [intros w; symmetry; apply is_derive_unique, mr_1|apply mr_2]. Qed.
Lemma mr_smooth (rr : R -> R) : (forall v, 0 < v <= 1 -> rr v = mr v) -> Smooth [0; 1] 2 (17 / 576) rr.
Proof.
  intros E n Hn. destruct (step01 n Hn) as [-> _]. exists mr. unfold node. simpl. split; [exact E|]. intros v Hv. split.
  - intros k Hk. destruct k as [|[|[|k]]]; [exact I| | |lia]; [exists (exp ((v - 1) / 4) * (- (7 / 144) - v / 72)); apply mr_1|eexists; exact (mr_D2 v)].
  - change (Derive (fun x : R => Derive (fun x0 : R => mr x0) x) v) with (Derive_n mr 2 v). rewrite (is_derive_n_unique _ _ _ _ (mr_D2 v)).
    assert (H : 0 < exp ((v - 1) / 4) <= 1). { split; [apply exp_pos|]. apply Rle_trans with (exp 0); [|rewrite exp_0; lra]. destruct (Rle_lt_or_eq_dec v 1 (proj2 Hv)) as [H| ->]; [left; apply exp_increasing; lra|right; f_equal; lra]. }
    rewrite Rabs_mult, Rabs_pos_eq by lra. rewrite Rabs_left1 by lra. nra.
Qed.

(** So 7/9 is within 1/30 of exp (-1/4). *)
Example super_ex : exists s e pp dp, scheme_ (lpts (1 / 2)) ef [0; 1] 1 "m" None false mx_ mK mZ (non 1) (non 1) = Ok s /\ veccat_master (sc_eq s) = Ok e /\ (forall v, In v e -> v = 0) /\
  piecewise_X s mx_ mK = Ok pp /\ pp_derivative pp = Ok dp /\ SolvesDae ef [0; 1] mw (ppval pp "left") mz ez (fun _ => 0) None /\
  (forall v, 0 < v <= 1 -> Sum 1 (fun i => myd i v * (ppval pp "left" i v - es i v)) + Sum 1 (fun i => my i v * (mw i v - ed i v)) = 0) /\
  Smooth [0; 1] (1 + 1) (17 / 576) (fun v => Sum 1 (fun i => my i v * (ppval dp "left" i v - mw i v))) /\ Rabs (7 / 9 - exp (- (1 / 4))) <= 1 / 30.
Proof.
  destruct m_solves as (s & e & Es & Ee & Hz).
  destruct (solution_trajectory (lpts (1 / 2)) ef [0; 1] 1 "m" [1 / 2] None false mx_ mK mZ (non 1) (non 1) (lpts_ok (1 / 2)) lt_len ef_ok eq_refl m_vars lt_asc m_unit s e Es Ee Hz) as (pp & dp & Epp & Edp & _). pose proof (m_poly s pp dp Es Epp Edp) as HPv.
  exists s, e, pp, dp. split; [exact Es|]. split; [exact Ee|]. split; [exact Hz|]. split; [exact Epp|]. split; [exact Edp|].
  assert (W : SolvesDae ef [0; 1] mw (ppval pp "left") mz ez (fun _ => 0) None).
  { intros v r Hv Hr. unfold node in Hv. simpl in Hv. cbn in Hr. destruct r as [|[|r]]; [| |lia]; cbn; rewrite (proj1 (HPv v Hv)); unfold mw, mz; lra. }
  assert (A : forall v, 0 < v <= 1 -> Sum 1 (fun i => myd i v * (ppval pp "left" i v - es i v)) + Sum 1 (fun i => my i v * (mw i v - ed i v)) = 0).
  { intros v Hv. simpl. rewrite (proj1 (HPv v Hv)). unfold myd, my, mw, ed, es. field. }
  assert (S : Smooth [0; 1] (1 + 1) (17 / 576) (fun v => Sum 1 (fun i => my i v * (ppval dp "left" i v - mw i v)))).
  { apply mr_smooth. intros v Hv. simpl. rewrite (proj2 (HPv v Hv)). unfold my, mw, mr. field. }
  split; [exact W|]. split; [exact A|]. split; [exact S|].
  assert (HF : FedBy ef [0; 1] (non 1) (non 1) ez (fun _ => 0)) by (split; cbn; intros; lia).
  assert (H1 : (1 <= ivals [0; 1]%R)%nat) by (unfold ivals; simpl; lia).
  pose proof (grid_order (lpts (1 / 2)) ef [0; 1] 1 "m" [1 / 2] None false (lpts_ok (1 / 2)) lt_len ef_ok eq_refl lt_asc mx_ mK mZ (non 1) (non 1) m_vars s e Es Ee Hz m_unit ed es ez (fun _ => 0) HF es_c1 (17 / 576) 1 ltac:(lra) ltac:(intros n Hn; rewrite (proj2 (step01 n Hn)); lra)
    pp dp mw mz my myd 1 Epp Edp W my_c1 A ef_det legendre1 ltac:(lia) S 1%nat H1) as G.
  unfold weighted, node in G. simpl in G. unfold my, es in G. replace ((1 - 1) / 4) with 0 in G by lra. replace (exp (- (0 / 4))) with 1 in G by (rewrite <- exp_0; f_equal; lra). rewrite exp_0 in G.
  replace (0 + 1 * (7 / 9 - exp (- (1 / 4))) - (0 + exp ((0 - 1) / 4) * (1 - 1))) with (7 / 9 - exp (- (1 / 4))) in G by ring. lra.
Qed.
