(** Errors that do not depend on stiffness: steps of a DAE (C109). *)
From Coq Require Import Reals Lra.
From Coquelicot Require Import Coquelicot.
From Verif Require Import PyBase IndexModel DMModel DMProofs StructModel StructSpec PowerModel EntryModel StructsModel IneqModel DaeModel StructsSpec StructsThms11 NumModel NumInst NumSpec PolynomialModel PiecewiseModel PdqModel SchemeModel
  PolySpec PiecewiseSpec PdqSpec SchemeSpec PolyMath PolynomialBase PolynomialThms PolynomialThms2 PiecewiseThms PdqThms PdqThms2 SchemeThms SchemeThms2 SchemeThms3 SchemeThms4 SchemeThms5 OrderSpec OrderMath OrderThms ConvSpec ConvThms GridSpec GridThms StiffThms MonoSpec MonoThms MonoThms2 MonoThms3 MonoThms4 DissSpec DissThms.
Open Scope R_scope.

Section Step.
Context (tau : list R) (A : nat -> nat -> R) (b : nat -> R) (M m : nat) (S_ : nat -> nat -> R).
Context (HM : length tau = M) (H1 : (1 <= M)%nat) (Hd : NoDup tau) (HR : RungeKutta tau A b) (HS : PosDef m S_) (HG : GaussRadau tau).
Lemma gr_inside : InUnit tau.
Proof.
  intros j Hj. pose proof (node_in tau j Hj) as Hin. destruct HG as [Ho|[Ho H]]; [pose proof (gauss_inside tau _ Ho Hin); lra|exact (radau_inside tau _ Ho H Hin)].
Qed.
Lemma gr_coercive : ~ In 0 tau /\ exists al d, Coercive tau A al d /\ 1 / 2 <= al.
Proof.
  destruct HG as [Ho|[Ho H]].
  - split; [intros H0; apply (gauss_inside tau 0 Ho) in H0; lra|]. eexists _, _. split; [exact (gauss_coercive tau A b Hd ltac:(lia) HR Ho)|lra].
  - split; [intros H0; apply (radau_inside tau 0 Ho H) in H0; lra|]. eexists _, _. split; [exact (radau_coercive tau A b Hd ltac:(lia) HR Ho H)|lra].
Qed.
(** Stages that solve the DAE with equal inputs *)
Definition Pair (f : daefun R) (a c : nat -> dargs R) : Prop := f_nx f = m /\ forall j, (j < M)%nat -> Solves f (a j) /\ Solves f (c j) /\ SameInput f (a j) (c j).
Definition From (h : R) (x0 : nat -> R) (a : nat -> dargs R) : Prop := forall j i, (j < M)%nat -> (i < m)%nat -> a_x (a j) i = x0 i + h * Sum M (fun l => A j l * a_xdot (a l) i).
Notation End h x0 a i := (x0 i%nat + h * Sum M (fun l => b l * a_xdot (a l) i%nat)).
Lemma stage_const : exists C, 0 <= C /\ forall f nu h a c x0 dl, Pair f a c -> OneSided f S_ nu -> 0 <= nu -> 0 <= h -> h * nu <= 1 / 8 -> 0 <= dl -> From h x0 a ->
  (forall j i, (j < M)%nat -> (i < m)%nat -> Rabs (x0 i + h * Sum M (fun l => A j l * a_xdot (c l) i) - a_x (c j) i) <= dl) ->
  forall j i, (j < M)%nat -> (i < m)%nat -> Rabs (a_x (a j) i - a_x (c j) i) <= C * dl /\ Rabs (h * (a_xdot (a j) i - a_xdot (c j) i)) <= C * dl.
Proof.
  destruct gr_coercive as (H0 & al & d & Hco & Hal). destruct (stage_stab tau A b M m S_ al d HM H1 Hd H0 HR HS Hco ltac:(lra)) as (C & HC & HB). exists (C + 1). split; [lra|].
  intros f nu h a c x0 dl (Em & HP) HO Hnu Hh Hs Hdl HF Hc. set (k := fun j i => h * (a_xdot (a j) i - a_xdot (c j) i)). set (del := fun j i => x0 i + h * Sum M (fun l => A j l * a_xdot (c l) i) - a_x (c j) i).
  assert (EV : forall j i, (j < M)%nat -> (i < m)%nat -> a_x (a j) i - a_x (c j) i = Sum M (fun l => A j l * k l i) + del j i).
  { intros j i Hj Hi. rewrite (HF j i Hj Hi). unfold k, del. rewrite (Sum_ext M (fun l => A j l * (h * _)) (fun l => h * (A j l * a_xdot (a l) i - A j l * a_xdot (c l) i))) by (intros; ring). rewrite Sum_scal, Sum_minus. ring. }
  assert (B := HB (h * nu) k del dl ltac:(now apply Rmult_le_pos) ltac:(lra) Hdl). intros j i Hj Hi. destruct (B) with (j := j) (i := i) as [B1 B2]; [|exact Hc|exact Hj|exact Hi|].
  - intros q Hq. destruct (HP q Hq) as (Sa & Sc & SI). pose proof (HO _ _ Sa Sc SI) as Hm. rewrite Em in Hm. change (sq m S_ (fun i => a_xdot (a q) i - a_xdot (c q) i) (fun i => a_x (a q) i - a_x (c q) i) <= 2 * nu * quad m S_ (fun i => a_x (a q) i - a_x (c q) i) (fun i => a_x (a q) i - a_x (c q) i)) in Hm.
    rewrite (sq_ext m S_ _ _ (fun i => a_xdot (a q) i - a_xdot (c q) i) (fun i => Sum M (fun l => A q l * k l i) + del q i)) in Hm by (auto; intros; now apply EV).
    rewrite (quad_ext m S_ (fun i => a_x (a q) i - a_x (c q) i) (fun i => a_x (a q) i - a_x (c q) i) (fun i => Sum M (fun l => A q l * k l i) + del q i) (fun i => Sum M (fun l => A q l * k l i) + del q i)) in Hm by (intros; now apply EV).
    unfold sq in Hm |- *. change (k q) with (fun i => h * (a_xdot (a q) i - a_xdot (c q) i)). rewrite quad_scal_l, quad_scal_r. pose proof (Rmult_le_compat_l h _ _ Hh Hm) as Hm2. lra.
  - rewrite EV by assumption. split; [|fold (k j i); eapply Rle_trans; [exact B2|]; lra]. eapply Rle_trans; [apply Rabs_triang|]. specialize (Hc j i Hj Hi). fold (del j i) in Hc. lra.
Qed.
Lemma step_growth f nu h a c x0 y0 : Pair f a c -> OneSided f S_ nu -> 0 <= h -> From h x0 a -> From h y0 c ->
  quad m S_ (fun i => End h x0 a i - End h y0 c i) (fun i => End h x0 a i - End h y0 c i) <=
  quad m S_ (fun i => x0 i - y0 i) (fun i => x0 i - y0 i) + h * Sum M (fun j => b j * (2 * nu * quad m S_ (fun i => a_x (a j) i - a_x (c j) i) (fun i => a_x (a j) i - a_x (c j) i))).
Proof.
  intros (Em & HP) HO Hh HF HF'. set (k := fun i l => a_xdot (a l) i - a_xdot (c l) i). set (e := fun i => x0 i - y0 i).
  assert (Hw : forall j, (j < M)%nat -> 0 < b j). { intros j Hj. apply (rk_weights tau A b Hd ltac:(lia) HR); [|lia]. destruct HG as [Ho|[Ho _]]; [apply (ortho_mon tau (length tau)); [lia|exact Ho]|exact Ho]. }
  assert (B : quad m S_ (fun i => e i + h * Sum M (fun l => b l * k i l)) (fun i => e i + h * Sum M (fun l => b l * k i l)) <= quad m S_ e e + h * Sum M (fun j => b j * sq m S_ (fun i => k i j) (fun i => e i + h * Sum M (fun l => A j l * k i l)))).
  { rewrite <- HM. destruct HG as [Ho|[Ho H]]; [apply Req_le; exact (rk_gauss tau A b m S_ h e k Hd HR Ho)|exact (rk_radau tau A b m S_ h e k Hd ltac:(lia) HR H (posdef_psd _ _ HS) Ho)]. }
  assert (EE : forall w i, x0 i + h * Sum M (fun l => w l * a_xdot (a l) i) - (y0 i + h * Sum M (fun l => w l * a_xdot (c l) i)) = e i + h * Sum M (fun l => w l * k i l)).
  { intros w i. unfold e, k. rewrite (Sum_ext M (fun l => w l * (_ - _)) (fun l => w l * a_xdot (a l) i - w l * a_xdot (c l) i)) by (intros; ring). rewrite Sum_minus. ring. }
  rewrite (quad_ext m S_ _ _ (fun i => e i + h * Sum M (fun l => b l * k i l)) (fun i => e i + h * Sum M (fun l => b l * k i l))) by (intros; apply EE). eapply Rle_trans; [exact B|]. apply Rplus_le_compat_l. apply Rmult_le_compat_l; [exact Hh|]. apply sum_le. intros j Hj. apply Rmult_le_compat_l; [left; now apply Hw|].
  destruct (HP j Hj) as (Sa & Sc & SI). pose proof (HO _ _ Sa Sc SI) as Hm. rewrite Em in Hm. eapply Rle_trans; [|exact Hm]. apply Req_le. change (quad m S_ (fun i => a_xdot (a j) i - a_xdot (c j) i) (fun i => a_x (a j) i - a_x (c j) i) + quad m S_ (fun i => a_x (a j) i - a_x (c j) i) (fun i => a_xdot (a j) i - a_xdot (c j) i)) with (sq m S_ (fun i => k i j) (fun i => a_x (a j) i - a_x (c j) i)).
  apply sq_ext; [reflexivity|]. intros i Hi. rewrite (HF j i Hj Hi), (HF' j i Hj Hi). symmetry. apply EE.
Qed.
(** Two exact steps *)
Lemma growth_const : exists C, 0 <= C /\ forall f nu h a c x0 y0, Pair f a c -> OneSided f S_ nu -> 0 <= nu -> 0 <= h -> h * nu <= 1 / 8 -> From h x0 a -> From h y0 c ->
  norm m S_ (fun i => End h x0 a i - End h y0 c i) <= (1 + C * (h * nu)) * norm m S_ (fun i => x0 i - y0 i).
Proof.
  destruct stage_const as (C & HC & HB). destruct (norm_each m S_ HS) as (Ci & HCi & Hi). pose proof (posdef_psd _ _ HS) as HP. set (SS := Sum m (fun i => Sum m (fun j => Rabs (S_ i j)))). pose proof (sum_S_pos m S_) as HSS. fold SS in HSS.
  set (Sb := Sum M (fun j => Rabs (b j))). assert (HSb : 0 <= Sb) by (apply sum_pos; intros; apply Rabs_pos). set (Q := SS * (C * Ci * (C * Ci))). assert (HQ : 0 <= Q) by (apply Rmult_le_pos; [exact HSS|apply Rle_0_sqr]).
  exists (Sb * Q). split; [now apply Rmult_le_pos|]. intros f nu h a c x0 y0 Pr HO Hnu Hh Hs HF HF'. set (E := norm m S_ (fun i => x0 i - y0 i)). assert (HE : 0 <= E) by apply norm_pos.
  assert (HV : forall j i, (j < M)%nat -> (i < m)%nat -> Rabs (a_x (a j) i - a_x (c j) i) <= C * (Ci * E)).
  { intros j i Hj Hi0. apply (HB f nu h a c x0 (Ci * E) Pr HO Hnu Hh Hs); auto; [now apply Rmult_le_pos|]. intros j' i' Hj' Hi'. rewrite (HF' j' i' Hj' Hi'). replace (x0 i' + h * Sum M (fun l => A j' l * a_xdot (c l) i') - (y0 i' + h * Sum M (fun l => A j' l * a_xdot (c l) i'))) with (x0 i' - y0 i') by ring. exact (Hi (fun i => x0 i - y0 i) i' Hi'). }
  pose proof (step_growth f nu h a c x0 y0 Pr HO Hh HF HF') as B. rewrite <- (norm_sq m S_ (fun i => x0 i - y0 i) HP) in B. fold E in B.
  assert (B2 : Sum M (fun j => b j * (2 * nu * quad m S_ (fun i => a_x (a j) i - a_x (c j) i) (fun i => a_x (a j) i - a_x (c j) i))) <= Sb * (2 * nu * (Q * (E * E)))).
  { unfold Sb. rewrite <- Sum_scal_r. apply sum_le. intros j Hj. assert (0 <= 2 * nu * quad m S_ (fun i => a_x (a j) i - a_x (c j) i) (fun i => a_x (a j) i - a_x (c j) i)) by (apply Rmult_le_pos; [lra|apply HP]).
    eapply Rle_trans; [apply Rmult_le_compat_r; [assumption|apply Rle_abs]|]. apply Rmult_le_compat_l; [apply Rabs_pos|]. apply Rmult_le_compat_l; [lra|]. eapply Rle_trans; [apply (quad_sup m S_ (fun i => a_x (a j) i - a_x (c j) i) (C * (Ci * E))); intros i Hi0; now apply HV|]. apply Req_le. unfold Q, SS. ring. }
  apply (Rmult_le_compat_l h) in B2; [|exact Hh]. set (g := Sb * Q * (h * nu)). assert (Hg : 0 <= g) by (unfold g; repeat apply Rmult_le_pos; assumption). change (Sb * Q * (h * nu)) with g. assert (HEE : 0 <= E * E) by (now apply Rmult_le_pos).
  replace (h * (Sb * (2 * nu * (Q * (E * E))))) with (2 * g * (E * E)) in B2 by (unfold g; ring). apply Rsqr_incr_0_var; [|apply Rmult_le_pos; [lra|exact HE]]. unfold Rsqr. rewrite norm_sq by exact HP. eapply Rle_trans; [exact B|]. apply Rle_trans with (E * E + 2 * g * (E * E)); [lra|].
  replace ((1 + g) * E * ((1 + g) * E)) with (E * E + 2 * g * (E * E) + g * g * (E * E)) by ring. assert (0 <= g * g * (E * E)) by (apply Rmult_le_pos; [now apply Rmult_le_pos|exact HEE]). lra.
Qed.
(** An exact step and one that satisfies the equations up to [dl] *)
Lemma local_const : exists C, 0 <= C /\ forall f nu h a c x0 y1 dl, Pair f a c -> OneSided f S_ nu -> 0 <= nu -> 0 <= h -> h * nu <= 1 / 8 -> 0 <= dl -> From h x0 a ->
  (forall j i, (j < M)%nat -> (i < m)%nat -> Rabs (x0 i + h * Sum M (fun l => A j l * a_xdot (c l) i) - a_x (c j) i) <= dl) ->
  (forall i, (i < m)%nat -> Rabs (End h x0 c i - y1 i) <= dl) -> norm m S_ (fun i => End h x0 a i - y1 i) <= C * dl.
Proof.
  destruct stage_const as (C & HC & HB). pose proof (posdef_psd _ _ HS) as HP. set (SS := sqrt (Sum m (fun i => Sum m (fun j => Rabs (S_ i j))))). assert (HSS : 0 <= SS) by apply sqrt_pos.
  set (Sb := Sum M (fun j => Rabs (b j))). assert (HSb : 0 <= Sb) by (apply sum_pos; intros; apply Rabs_pos). assert (HQ : 0 <= Sb * C + 1) by (assert (0 <= Sb * C) by (now apply Rmult_le_pos); lra).
  exists (SS * (Sb * C + 1)). split; [now apply Rmult_le_pos|]. intros f nu h a c x0 y1 dl Pr HO Hnu Hh Hs Hdl HF Hc Hy. rewrite Rmult_assoc. apply norm_sup; [exact HP|now apply Rmult_le_pos|]. intros i Hi.
  replace (End h x0 a i - y1 i) with (Sum M (fun l => b l * (h * (a_xdot (a l) i - a_xdot (c l) i))) + (End h x0 c i - y1 i)).
  - eapply Rle_trans; [apply Rabs_triang|]. specialize (Hy i Hi). assert (Rabs (Sum M (fun l => b l * (h * (a_xdot (a l) i - a_xdot (c l) i)))) <= Sb * (C * dl)); [|lra]. apply sum_abs_le; [apply Rle_refl|now apply Rmult_le_pos|]. intros l Hl. now apply (HB f nu h a c x0 dl Pr HO Hnu Hh Hs Hdl HF Hc).
  - rewrite (Sum_ext M (fun l => b l * (h * _)) (fun l => h * (b l * a_xdot (a l) i - b l * a_xdot (c l) i))) by (intros; ring). rewrite Sum_scal, Sum_minus. ring.
Qed.
End Step.
