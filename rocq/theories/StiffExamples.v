(** Examples for fast dynamics (C107). *)
From Coq Require Import Reals Lra Lia List.
From Coquelicot Require Import Coquelicot.
From Verif Require Import PyBase IndexModel DMModel DMProofs StructModel StructSpec PowerModel EntryModel StructsModel IneqModel DaeModel StructsSpec StructsThms11 NumModel NumInst NumSpec PolynomialModel PiecewiseModel PdqModel SchemeModel
  PolySpec PiecewiseSpec PdqSpec SchemeSpec PolyMath PolynomialBase PolynomialThms PolynomialThms2 PiecewiseThms PdqThms PdqThms2 SchemeThms SchemeThms2 SchemeThms3 SchemeThms4 SchemeThms5 SchemeExamples OrderSpec OrderMath OrderThms OrderExamples ConvSpec ConvThms ConvExamples GridSpec GridThms GridExamples RevSpec RevThms RevThms2 RevExamples StiffSpec StiffThms.
Import ListNotations.
Open Scope R_scope.

(** ** The last of Radau's points is the end of the interval *)
(** [x = t ^ 2] on 0, 1, 3 *)
Example end_ex : exists s, scheme_ expts exf ext 2 "radau" None false exx exK (ex0 4) (ex0 2) (ex0 1) = Ok s /\ node (sc_tc s) 3 = 3 /\ at_m (sc_X s) 0 3 = 9 /\ at_m (sc_Q s) 0 3 = at_m (sc_q s) 0 2.
Proof.
  destruct scheme_ex as (s & _ & _ & e & Es & _ & Ee & Hz & _). exists s. split; [exact Es|].
  destruct (end_point expts exf ext 2 "radau" extau None false exx exK (ex0 4) (ex0 2) (ex0 1) ex_points ext_len ex_dae ex_tdp ex_vars s e 1%nat Es Ee Hz ltac:(lia) eq_refl 1%nat ltac:(unfold ivals, ext; simpl; lia)) as (T & X & Q & _).
  split; [exact T|]. split; [refine (eq_trans (X 0%nat ltac:(cbn; lia)) _); cbn; ring|exact (Q 0%nat ltac:(cbn; lia))].
Qed.

(** ** [eps x' = - x] *)
Lemma bf_relaxes eps : 0 < eps -> Relaxes (bf (- / eps)) eps.
Proof.
  intros He v w Hv Hw _ e Hb i Hi. cbn in Hi. assert (i = 0%nat) as -> by lia. pose proof (Hv 0%nat ltac:(cbn; lia)) as V. pose proof (Hw 0%nat ltac:(cbn; lia)) as W. cbn in V, W. specialize (Hb 0%nat ltac:(cbn; lia)).
  replace (a_x v 0%nat - a_x w 0%nat) with (- eps * (a_xdot v 0%nat - a_xdot w 0%nat)); [rewrite Rabs_mult, Rabs_Ropp, (Rabs_pos_eq eps) by lra; apply Rmult_le_compat_l; lra|].
  replace (a_xdot v 0%nat) with (- / eps * a_x v 0%nat) by lra. replace (a_xdot w 0%nat) with (- / eps * a_x w 0%nat) by lra. field. lra.
Qed.
Notation bsch q a y0 y1 k := (scheme_ (lpts q) (bf a) [0; 1] 1 "m" None false (bx y0 y1) (bK k) (non 1) (non 1) (non 1)).
Lemma bvars a y0 y1 k : VarsOk (bf a) (ivals [0; 1]) 1 false (bx y0 y1) (bK k) (non 1) (non 1) (non 1). Proof. repeat split. Qed.
Lemma bsolves a q y0 y1 k : y1 = y0 + k -> k = a * (y0 + q * k) -> exists s e, bsch q a y0 y1 k = Ok s /\ veccat_master (sc_eq s) = Ok e /\ AllZero e.
Proof.
  intros E1 E2. destruct (scheme_all (lpts q) (bf a) [0; 1] 1 "m" [q] None false (bx y0 y1) (bK k) (non 1) (non 1) (non 1) (lpts_ok q) lt_len (bf_ok a) eq_refl (bvars a y0 y1 k) _ _ (one_rk q)) as (s & e & Es & Ee & Hz & _).
  exists s, e. split; [exact Es|]. split; [exact Ee|]. apply Hz. split; [|split; [|discriminate]].
  - intros n j r Hn Hj Hr. destruct (step01 n Hn) as [-> St]. unfold stage, stage_x. cbn [bf f_dae a_xdot a_x]. rewrite St. cbn. assert (j = 0%nat) as -> by lia. lra.
  - intros n i Hn Hi. destruct (step01 n Hn) as [-> St]. rewrite St. cbn. lra.
Qed.
(** Implicit Euler: the constant is 1. *)
Lemma inv_bound_1 : inv_bound [1] = 1.
Proof.
  unfold inv_bound, inv_A. cbn [length Sum]. rewrite (Derive_ext _ (fun s => s)).
  - change (node [1] 0) with 1. rewrite Derive_id, Rabs_R1. ring.
  - intros s. rewrite lagrange_val. cbv [others seq length filter negb Nat.eqb map lprod fold_right node nth]. simpl. field.
Qed.
(** [x' = - 4 x] with one step of length 1: at least halved (in fact from 1 to 1/5) *)
Example damping_ex : exists s s' e e', bsch 1 (- / (1 / 4)) 1 (1 / 5) (- 4 / 5) = Ok s /\ bsch 1 (- / (1 / 4)) 0 0 0 = Ok s' /\ veccat_master (sc_eq s) = Ok e /\ AllZero e /\ veccat_master (sc_eq s') = Ok e' /\ AllZero e' /\
  Relaxes (bf (- / (1 / 4))) (1 / 4) /\ Rabs (at_m (bx 1 (1 / 5)) 0 1 - at_m (bx 0 0) 0 1) <= (1 / 2) ^ 1 * 1.
Proof.
  destruct (bsolves (- / (1 / 4)) 1 1 (1 / 5) (- 4 / 5)) as (s & e & Es & Ee & Hz); [lra|lra|]. destruct (bsolves (- / (1 / 4)) 1 0 0 0) as (s' & e' & Es' & Ee' & Hz'); [lra|lra|].
  pose proof (bf_relaxes (1 / 4) ltac:(lra)) as HR. exists s, s', e, e'. repeat (split; [assumption|]).
  refine (grid_damping (lpts 1) (bf (- / (1 / 4))) [0; 1] 1 "m" [1] None false _ _ _ _ _ _ (non 1) (non 1) (lpts_ok 1) _ lt_len (bf_ok _) eq_refl lt_asc (bvars _ _ _ _) (bvars _ _ _ _) (1 / 4) ltac:(lra) HR s s' e e' Es Ee Hz Es' Ee' Hz' (1 / 2) 1 _ ltac:(lra) _ _ 1%nat 0%nat _ _).
  - intros [H|[]]. lra.
  - simpl. auto.
  - intros n Hn. rewrite inv_bound_1, (proj2 (step01 n Hn)). lra.
  - intros i Hi. cbn. rewrite Rabs_pos_eq; lra.
  - unfold ivals. cbn. lia.
  - cbn. lia.
Qed.
(** The midpoint rule (Legendre's point) damps the less the faster the dynamics are. *)
Theorem legendre_undamped_refuted : forall r, r < 1 -> exists eps y1 k s s' e e', 0 < eps /\ Relaxes (bf (- / eps)) eps /\ bsch (1 / 2) (- / eps) 1 y1 k = Ok s /\ veccat_master (sc_eq s) = Ok e /\ AllZero e /\
  bsch (1 / 2) (- / eps) 0 0 0 = Ok s' /\ veccat_master (sc_eq s') = Ok e' /\ AllZero e' /\ (forall eps', 0 < eps' < eps -> exists y k s e, bsch (1 / 2) (- / eps') 1 y k = Ok s /\ veccat_master (sc_eq s) = Ok e /\ AllZero e /\ r < Rabs y) /\ r < Rabs y1.
Proof.
  assert (G : forall eps, 0 < eps -> exists s e, bsch (1 / 2) (- / eps) 1 ((2 * eps - 1) / (2 * eps + 1)) (-2 / (2 * eps + 1)) = Ok s /\ veccat_master (sc_eq s) = Ok e /\ AllZero e) by (intros eps He; apply bsolves; field; lra).
  assert (Y : forall r eps, 0 < eps -> 4 * eps < 1 - r -> r < Rabs ((2 * eps - 1) / (2 * eps + 1))).
  { intros r eps He H. rewrite <- Rabs_Ropp. eapply Rlt_le_trans; [|apply Rle_abs]. apply (Rmult_lt_reg_r (2 * eps + 1)); [lra|]. replace (- ((2 * eps - 1) / (2 * eps + 1)) * (2 * eps + 1)) with (1 - 2 * eps) by (field; lra).
    destruct (Rle_dec r (-1)); nra. }
  intros r Hr. set (eps := (1 - r) / 8). assert (He : 0 < eps) by (unfold eps; lra). destruct (G eps He) as (s & e & Es & Ee & Hz). destruct (bsolves (- / eps) (1 / 2) 0 0 0) as (s' & e' & Es' & Ee' & Hz'); [lra|lra|].
  exists eps, ((2 * eps - 1) / (2 * eps + 1)), (-2 / (2 * eps + 1)), s, s', e, e'. split; [exact He|]. split; [now apply bf_relaxes|]. repeat (split; [assumption|]). split; [|apply Y; [exact He|unfold eps; lra]].
  intros eps' He'. destruct (G eps' (proj1 He')) as (s2 & e2 & E2 & Ee2 & Hz2). exists ((2 * eps' - 1) / (2 * eps' + 1)), (-2 / (2 * eps' + 1)), s2, e2. repeat (split; [assumption|]). apply Y; [lra|]. unfold eps in He'. lra.
Qed.
