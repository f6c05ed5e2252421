(** Examples for the order of the tableaux and invariants (C93, C94). *)
From Coq Require Import Reals Lra.
From Coquelicot Require Import Coquelicot.
From Verif Require Import PyBase IndexModel DMModel DMProofs StructModel StructSpec PowerModel EntryModel StructsModel IneqModel DaeModel StructsSpec StructsThms11 NumModel NumInst NumSpec PolynomialModel PiecewiseModel PdqModel SchemeModel
  PolySpec PiecewiseSpec PdqSpec SchemeSpec PolyMath PolynomialBase PolynomialThms PolynomialThms2 PiecewiseThms PdqThms PdqThms2 SchemeThms SchemeThms2 SchemeThms3 SchemeExamples OrderSpec OrderMath OrderThms.
Open Scope R_scope.

(** ** Points *)
Lemma ortho_0 tau : Ortho tau 0.
Proof.
  intros q (c & Hc & Hq). destruct c; [|simpl in Hc; lia]. apply (int_ext (fun _ => 0)); [intros t; rewrite Hq; simpl; ring|]. evar_last; [apply (is_RInt_const (V := R_CompleteNormedModule) 0 1 0)|]. unfold scal; simpl; unfold mult; simpl; ring.
Qed.
Lemma ortho_1 tau (F : R -> R) : (forall t, is_derive F t (nodal tau t)) -> F 1 = F 0 -> Ortho tau 1.
Proof.
  intros HF E q (c & Hc & Hq). assert (exists a, forall t, q t = a) as (a & Ha). { destruct c as [|a [|]]; [exists 0|exists a|simpl in Hc; lia]; intros t; rewrite Hq; simpl; ring. }
  apply (int_ext (fun t => a * nodal tau t)); [intros t; now rewrite Ha|]. evar_last; [apply (is_RInt_scal (V := R_NormedModule) (nodal tau)), (is_RInt_poly _ _ F 0 1 (nodal_poly tau) HF)|]. rewrite E. unfold scal. simpl. unfold mult. simpl. ring.
Qed.
Example legendre1 : Ortho [1 / 2] 1.
Proof. apply (ortho_1 _ (fun t => t * t / 2 - t / 2)); [intros t; simpl; auto_derive; [exact I|field]|field]. Qed.
Example radau2 : Ortho [1 / 3; 1] 1.
Proof. apply (ortho_1 _ (fun t => t * t * t / 3 - 2 / 3 * t * t + t / 3)); [intros t; simpl; auto_derive; [exact I|field]|field]. Qed.
Lemma nd1 (c : R) : NoDup [c]. Proof. constructor; [intros []|constructor]. Qed.
(** The midpoint rule integrates polynomials of degree 1, but not 2. *)
Example midpoint_order : exists tb, butcher_points [1 / 2] = Ok tb /\ ExactLt [1 / 2] (node (tb_b tb)) 2 /\ ~ ExactLt [1 / 2] (node (tb_b tb)) 3.
Proof.
  destruct (butcher_exact [1 / 2] (nd1 _)) as (tb & E & _). exists tb. split; [exact E|]. split; [apply (tableau_order [1 / 2] tb 1 (nd1 _) E), legendre1|exact (tableau_order_max _ tb (nd1 _) E)].
Qed.
(** One point at 1 (implicit Euler) does not integrate polynomials of degree 1. *)
Example euler_order : exists tb, butcher_points [1] = Ok tb /\ ~ ExactLt [1] (node (tb_b tb)) 2.
Proof.
  destruct (butcher_exact [1] (nd1 _)) as (tb & E & _). exists tb. split; [exact E|]. intros H. apply (tableau_order [1] tb 1 (nd1 _) E) in H. specialize (H (fun _ => 1) (PolyLt_const 0 1)).
  assert (HF : forall t, is_derive (fun t => t * t / 2 - t) t (nodal [1] t)) by (intros t; simpl; auto_derive; [exact I|field]).
  pose proof (is_RInt_poly _ _ _ 0 1 (nodal_poly [1]) HF) as H'. apply (int_ext _ (nodal [1])) in H; [|intros; ring]. pose proof (int_unique _ _ _ _ _ H H'). lra.
Qed.
Example radau_weights : exists tb, butcher_points [1 / 3; 1] = Ok tb /\ 0 < node (tb_b tb) 0 /\ 0 < node (tb_b tb) 1.
Proof.
  assert (Hd : NoDup [1 / 3; 1]) by (constructor; [intros [H|[]]; lra|apply nd1]). destruct (butcher_exact _ Hd) as (tb & E & _). exists tb. split; [exact E|].
  split; apply (tableau_weights _ tb Hd ltac:(simpl; lia) E radau2); simpl; lia.
Qed.

(** ** Linear dynamics *)
(** [x' = a x + b y, y' = c x + d y] with the quadratures of [- 2 x ^ 2] and [- x] *)
Definition lf (a b c d : R) : daefun R := DaeFun 2 0 0 0 0 2 2 (fun _ => true)
  (fun v r => match r with 0%nat => a_xdot v 0%nat - (a * a_x v 0%nat + b * a_x v 1%nat) | 1%nat => a_xdot v 1%nat - (c * a_x v 0%nat + d * a_x v 1%nat) | _ => 0 end)
  (fun v r => match r with 0%nat => -2 * (a_x v 0%nat * a_x v 0%nat) | _ => - a_x v 0%nat end).
Definition lpts (c : R) (order : nat) (m : string) : res (list R) := Ok [c].
Definition vec (k l : R) (i : nat) : R := match i with 0%nat => k | _ => l end.
Definition two (k l k' l' : R) : mat R := Mat 2 2 (fun i n => vec (vec k l i) (vec k' l' i) n).
Definition one (k l : R) : mat R := Mat 2 1 (fun i _ => vec k l i).
Definition non (c : nat) : mat R := Mat 0 c (fun _ _ => 0).
Lemma lf_ok a b c d : DaeOk (lf a b c d).
Proof.
  split; [|split]; cbn; [intros v w r (H1 & H2 & _)|intros v w r (_ & H2 & _)|discriminate]; cbn in *; [destruct r as [|[|]]; rewrite ?(H1 0%nat), ?(H1 1%nat), ?(H2 0%nat), ?(H2 1%nat) by lia; reflexivity|rewrite (H2 0%nat) by lia; reflexivity].
Qed.
Lemma lpts_ok c : Points (lpts c) 1 "m" [c]. Proof. split; [reflexivity|]. split; [apply nd1|]. split; [reflexivity|lia]. Qed.
Lemma lt_len : (2 <= length [0; 1])%nat. Proof. simpl. lia. Qed.
Lemma lt_asc : Asc [0; 1]. Proof. intros i j H. simpl in H. assert (i = 0%nat) as -> by lia. assert (j = 1%nat) as -> by lia. unfold node. simpl. lra. Qed.
(** One step of length 1 from [(x0, y0)] to [(x1, y1)] with slopes [(k, l)] *)
Notation lsch q a b c d x0 y0 x1 y1 k l := (scheme_ (lpts q) (lf a b c d) [0; 1] 1 "m" None false (two x0 y0 x1 y1) (one k l) (non 1) (non 1) (non 1)).
Lemma lvars a b c d x0 y0 x1 y1 k l : VarsOk (lf a b c d) (ivals [0; 1]) 1 false (two x0 y0 x1 y1) (one k l) (non 1) (non 1) (non 1). Proof. repeat split. Qed.
Lemma lstep q a b c d x0 y0 x1 y1 k l : x1 = x0 + k -> y1 = y0 + l -> k = a * (x0 + q * k) + b * (y0 + q * l) -> l = c * (x0 + q * k) + d * (y0 + q * l) ->
  exists s e, lsch q a b c d x0 y0 x1 y1 k l = Ok s /\ veccat_master (sc_eq s) = Ok e /\ forall v, In v e -> v = 0.
Proof.
  intros E1 E2 E3 E4. destruct (scheme_equations (lpts q) (lf a b c d) [0; 1] 1 "m" [q] None false (two x0 y0 x1 y1) (one k l) (non 1) (non 1) (non 1) (lpts_ok q) lt_len (lf_ok a b c d) eq_refl (lvars a b c d x0 y0 x1 y1 k l)) as (s & A & w & e & Es & HR & _ & _ & _ & _ & _ & _ & Ee & He).
  exists s, e. split; [exact Es|]. split; [exact Ee|]. apply He. destruct (HR (fun _ => 1) (PolyLt_const 0 1)) as [HA HB]. specialize (HA 0%nat ltac:(simpl; lia)). simpl in HA, HB.
  assert (I1 : forall z, is_RInt (fun _ : R => 1) 0 z z) by (intros z; evar_last; [apply (is_RInt_const (V := R_CompleteNormedModule) 0 z 1)|unfold scal; simpl; unfold mult; simpl; ring]).
  pose proof (int_unique _ _ _ _ _ (I1 _) HA) as EA. pose proof (int_unique _ _ _ _ _ (I1 _) HB) as EB. unfold node in EA. simpl in EA.
  assert (St : step [0; 1] 0 = 1) by (unfold step, node; simpl; lra).
  split; [|split; [|discriminate]].
  - intros n j r Hn Hj Hr. assert (n = 0%nat) as -> by (unfold ivals in Hn; simpl in Hn; lia). assert (j = 0%nat) as -> by lia. cbn [lf f_dae f_ndae] in *. unfold stage, stage_x. rewrite St. destruct r as [|[|r]]; [| |lia]; cbn; replace (A 0%nat 0%nat) with q by lra; lra.
  - intros n i Hn Hi. assert (n = 0%nat) as -> by (unfold ivals in Hn; simpl in Hn; lia). rewrite St. cbn in Hi. destruct i as [|[|i]]; [| |lia]; cbn; replace (w 0%nat) with 1 by lra; lra.
Qed.
Definition id2 (i j : nat) : R := if Nat.eqb i j then 1 else 0.
Lemma id2_psd : PSD 2 id2. Proof. intros v. unfold quad, id2. simpl. nra. Qed.
(** The oscillator keeps x ^ 2 + y ^ 2. *)
Lemma osc_power t u p v : Solves (lf 0 1 (-1) 0) v -> Fed (lf 0 1 (-1) 0) t u p v -> power (lf 0 1 (-1) 0) id2 v = 0.
Proof. intros H _. pose proof (H 0%nat ltac:(cbn; lia)) as H0. pose proof (H 1%nat ltac:(cbn; lia)) as H1. cbn in H0, H1. unfold power, quad, id2. cbn. nra. Qed.
(** So does the midpoint rule: from (1, 0) to (3/5, -4/5). *)
Example osc_midpoint : exists s e, lsch (1 / 2) 0 1 (-1) 0 1 0 (3 / 5) (-4 / 5) (-2 / 5) (-4 / 5) = Ok s /\ veccat_master (sc_eq s) = Ok e /\ (forall v, In v e -> v = 0) /\
  Ortho [1 / 2] 1 /\ energy (lf 0 1 (-1) 0) id2 (two 1 0 (3 / 5) (-4 / 5)) 1 = 1.
Proof.
  destruct (lstep (1 / 2) 0 1 (-1) 0 1 0 (3 / 5) (-4 / 5) (-2 / 5) (-4 / 5)) as (s & e & Es & Ee & Hz); try lra. exists s, e. split; [exact Es|]. split; [exact Ee|]. split; [exact Hz|]. split; [exact legendre1|].
  rewrite (quadratic_invariant (lpts (1 / 2)) (lf 0 1 (-1) 0) [0; 1] 1 "m" [1 / 2] None false _ _ _ _ _ (lpts_ok _) lt_len (lf_ok _ _ _ _) eq_refl (lvars _ _ _ _ _ _ _ _ _ _) s e Es Ee Hz id2 legendre1 (osc_power _ _ _) 1%nat ltac:(unfold ivals; simpl; lia)).
  unfold energy, quad, id2, col. cbn. lra.
Qed.
(** Implicit Euler (Radau's point) does not: from (1, 0) to (1/2, -1/2). *)
Theorem quadratic_radau_refuted : exists s e, lsch 1 0 1 (-1) 0 1 0 (1 / 2) (-1 / 2) (-1 / 2) (-1 / 2) = Ok s /\ veccat_master (sc_eq s) = Ok e /\ (forall v, In v e -> v = 0) /\
  (forall v, Solves (lf 0 1 (-1) 0) v -> power (lf 0 1 (-1) 0) id2 v = 0) /\ energy (lf 0 1 (-1) 0) id2 (two 1 0 (1 / 2) (-1 / 2)) 1 < energy (lf 0 1 (-1) 0) id2 (two 1 0 (1 / 2) (-1 / 2)) 0.
Proof.
  destruct (lstep 1 0 1 (-1) 0 1 0 (1 / 2) (-1 / 2) (-1 / 2) (-1 / 2)) as (s & e & Es & Ee & Hz); try lra. exists s, e. split; [exact Es|]. split; [exact Ee|]. split; [exact Hz|]. split.
  - intros v Hv. pose proof (Hv 0%nat ltac:(cbn; lia)) as H0. pose proof (Hv 1%nat ltac:(cbn; lia)) as H1. cbn in H0, H1. unfold power, quad, id2. cbn. nra.
  - unfold energy, quad, id2, col. cbn. lra.
Qed.
Example osc_euler : Stable (lf 0 1 (-1) 0) [1] id2 /\ energy (lf 0 1 (-1) 0) id2 (two 1 0 (1 / 2) (-1 / 2)) 1 <= energy (lf 0 1 (-1) 0) id2 (two 1 0 (1 / 2) (-1 / 2)) 0.
Proof.
  assert (HS : Stable (lf 0 1 (-1) 0) [1] id2) by (right; split; [apply ortho_0|split; [now left|exact id2_psd]]). split; [exact HS|].
  destruct quadratic_radau_refuted as (s & e & Es & Ee & Hz & Hv & _).
  apply (energy_decay (lpts 1) (lf 0 1 (-1) 0) [0; 1] 1 "m" [1] None false _ _ _ _ _ (lpts_ok _) lt_len (lf_ok _ _ _ _) eq_refl (lvars _ _ _ _ _ _ _ _ _ _) s e Es Ee Hz id2 lt_asc HS); [intros v H _; rewrite Hv by exact H; lra|unfold ivals; simpl; lia].
Qed.
(** Explicit Euler is not [Stable]: from (1, 0) to (1, -1), the energy grows. *)
Theorem decay_explicit_refuted : exists s e, lsch 0 0 1 (-1) 0 1 0 1 (-1) 0 (-1) = Ok s /\ veccat_master (sc_eq s) = Ok e /\ (forall v, In v e -> v = 0) /\
  (forall v, Solves (lf 0 1 (-1) 0) v -> power (lf 0 1 (-1) 0) id2 v <= 0) /\ energy (lf 0 1 (-1) 0) id2 (two 1 0 1 (-1)) 0 < energy (lf 0 1 (-1) 0) id2 (two 1 0 1 (-1)) 1.
Proof.
  destruct (lstep 0 0 1 (-1) 0 1 0 1 (-1) 0 (-1)) as (s & e & Es & Ee & Hz); try lra. exists s, e. split; [exact Es|]. split; [exact Ee|]. split; [exact Hz|]. split.
  - destruct quadratic_radau_refuted as (_ & _ & _ & _ & _ & Hv & _). intros v H. rewrite Hv by exact H. lra.
  - unfold energy, quad, id2, col. cbn. lra.
Qed.
(** [x' = - x, y' = x]: implicit Euler from (1, 0) to (1/2, 1/2). The sum is kept, and what
    x loses is in the quadratures. *)
Example decay_balance : exists s e, lsch 1 (-1) 0 1 0 1 0 (1 / 2) (1 / 2) (-1 / 2) (1 / 2) = Ok s /\ veccat_master (sc_eq s) = Ok e /\ (forall v, In v e -> v = 0) /\
  lin (lf (-1) 0 1 0) (fun _ => 1) (col (two 1 0 (1 / 2) (1 / 2)) 1) = 1 /\ lin (lf (-1) 0 1 0) (fun _ => 1) (col (sc_X s) 0) = 1 /\ at_m (sc_q s) 1 1 = - (1 / 2) /\
  1 / 4 <= 1 + at_m (sc_q s) 0 1.
Proof.
  destruct (lstep 1 (-1) 0 1 0 1 0 (1 / 2) (1 / 2) (-1 / 2) (1 / 2)) as (s & e & Es & Ee & Hz); try lra. exists s, e. split; [exact Es|]. split; [exact Ee|]. split; [exact Hz|].
  assert (S01 : forall v, Solves (lf (-1) 0 1 0) v -> a_xdot v 0%nat = - a_x v 0%nat /\ a_xdot v 1%nat = a_x v 0%nat). { intros v Hv. pose proof (Hv 0%nat ltac:(cbn; lia)) as H0. pose proof (Hv 1%nat ltac:(cbn; lia)) as H1. cbn in H0, H1. lra. }
  destruct (linear_invariant (lpts 1) (lf (-1) 0 1 0) [0; 1] 1 "m" [1] None false _ _ _ _ _ (lpts_ok _) lt_len (lf_ok _ _ _ _) eq_refl (lvars _ _ _ _ _ _ _ _ _ _) s e Es Ee Hz (fun _ => 1)) as [I1 I2].
  { intros v Hv _. destruct (S01 v Hv). unfold lin. cbn. lra. }
  destruct (linear_balance (lpts 1) (lf (-1) 0 1 0) [0; 1] 1 "m" [1] None false _ _ _ _ _ (lpts_ok _) lt_len (lf_ok _ _ _ _) eq_refl (lvars _ _ _ _ _ _ _ _ _ _) s e Es Ee Hz (vec 1 0) 1%nat ltac:(cbn; lia)) as [B1 _].
  { intros v Hv _. destruct (S01 v Hv). unfold lin. cbn. lra. }
  set (S_ := fun i j : nat => vec (vec 1 0 j) 0 i).
  pose proof (dissipation (lpts 1) (lf (-1) 0 1 0) [0; 1] 1 "m" [1] None false _ _ _ _ _ (lpts_ok _) lt_len (lf_ok _ _ _ _) eq_refl (lvars _ _ _ _ _ _ _ _ _ _) s e Es Ee Hz S_ 0%nat lt_asc) as D.
  rewrite (I1 1%nat) by (unfold ivals; simpl; lia). pose proof (I2 0%nat 0%nat ltac:(unfold ivals; simpl; lia) ltac:(lia)) as I3. simpl Nat.mul in I3. simpl Nat.add in I3. rewrite I3. split; [unfold lin, col; cbn; lra|]. split; [unfold lin, col; cbn; lra|]. split.
  - specialize (B1 1%nat ltac:(unfold ivals; simpl; lia)). unfold lin, col in B1. cbn in B1. lra.
  - assert (D1 : energy (lf (-1) 0 1 0) S_ (two 1 0 (1 / 2) (1 / 2)) 1 <= energy (lf (-1) 0 1 0) S_ (two 1 0 (1 / 2) (1 / 2)) 0 + at_m (sc_q s) 0 1).
    { apply D; [|cbn; lia| |unfold ivals; simpl; lia].
      - right. split; [apply ortho_0|]. split; [now left|]. intros v. unfold quad, S_. cbn. nra.
      - intros v Hv _. destruct (S01 v Hv) as [E0 E1]. unfold power, quad, S_. cbn. rewrite E0. nra. }
    unfold energy, quad, S_, col in D1. cbn in D1. lra.
Qed.
(** The energy that the midpoint rule takes from x is exactly in the quadrature: from (1, 0) to (1/3, 2/3). *)
Example midpoint_balance : exists s e, lsch (1 / 2) (-1) 0 1 0 1 0 (1 / 3) (2 / 3) (-2 / 3) (2 / 3) = Ok s /\ veccat_master (sc_eq s) = Ok e /\ (forall v, In v e -> v = 0) /\ 1 / 9 = 1 + at_m (sc_q s) 0 1.
Proof.
  destruct (lstep (1 / 2) (-1) 0 1 0 1 0 (1 / 3) (2 / 3) (-2 / 3) (2 / 3)) as (s & e & Es & Ee & Hz); try lra. exists s, e. split; [exact Es|]. split; [exact Ee|]. split; [exact Hz|].
  pose proof (quadratic_balance (lpts (1 / 2)) (lf (-1) 0 1 0) [0; 1] 1 "m" [1 / 2] None false _ _ _ _ _ (lpts_ok _) lt_len (lf_ok _ _ _ _) eq_refl (lvars _ _ _ _ _ _ _ _ _ _) s e Es Ee Hz (fun i j : nat => vec (vec 1 0 j) 0 i) 0%nat legendre1 ltac:(cbn; lia)) as D.
  assert (D1 : energy (lf (-1) 0 1 0) (fun i j : nat => vec (vec 1 0 j) 0 i) (two 1 0 (1 / 3) (2 / 3)) 1 = energy (lf (-1) 0 1 0) (fun i j : nat => vec (vec 1 0 j) 0 i) (two 1 0 (1 / 3) (2 / 3)) 0 + at_m (sc_q s) 0 1).
  { apply D; [|unfold ivals; simpl; lia]. intros v Hv _. pose proof (Hv 0%nat ltac:(cbn; lia)) as H0. cbn in H0. unfold power, quad. cbn. nra. }
  unfold energy, quad, col in D1. cbn in D1. lra.
Qed.
(** Two solutions of the oscillator (from (1, 0) and from (0, 0)) stay as far apart. *)
Example osc_contraction : exists s e s' e', lsch (1 / 2) 0 1 (-1) 0 1 0 (3 / 5) (-4 / 5) (-2 / 5) (-4 / 5) = Ok s /\ veccat_master (sc_eq s) = Ok e /\ (forall v, In v e -> v = 0) /\
  lsch (1 / 2) 0 1 (-1) 0 0 0 0 0 0 0 = Ok s' /\ veccat_master (sc_eq s') = Ok e' /\ (forall v, In v e' -> v = 0) /\ Stable (lf 0 1 (-1) 0) [1 / 2] id2 /\ Monotone (lf 0 1 (-1) 0) id2 /\
  dist (lf 0 1 (-1) 0) id2 (two 1 0 (3 / 5) (-4 / 5)) (two 0 0 0 0) 1 <= 1.
Proof.
  destruct (lstep (1 / 2) 0 1 (-1) 0 1 0 (3 / 5) (-4 / 5) (-2 / 5) (-4 / 5)) as (s & e & Es & Ee & Hz); try lra. destruct (lstep (1 / 2) 0 1 (-1) 0 0 0 0 0 0 0) as (s' & e' & Es' & Ee' & Hz'); try lra. exists s, e, s', e'.
  split; [exact Es|]. split; [exact Ee|]. split; [exact Hz|]. split; [exact Es'|]. split; [exact Ee'|]. split; [exact Hz'|].
  assert (HS : Stable (lf 0 1 (-1) 0) [1 / 2] id2) by (left; exact legendre1). split; [exact HS|].
  assert (HM : Monotone (lf 0 1 (-1) 0) id2).
  { intros v w Hv Hw _. pose proof (Hv 0%nat ltac:(cbn; lia)) as H0. pose proof (Hv 1%nat ltac:(cbn; lia)) as H1. pose proof (Hw 0%nat ltac:(cbn; lia)) as H2. pose proof (Hw 1%nat ltac:(cbn; lia)) as H3. cbn in H0, H1, H2, H3. unfold quad, id2. cbn.
    replace (a_xdot v 0%nat) with (a_x v 1%nat) by lra. replace (a_xdot v 1%nat) with (- a_x v 0%nat) by lra. replace (a_xdot w 0%nat) with (a_x w 1%nat) by lra. replace (a_xdot w 1%nat) with (- a_x w 0%nat) by lra. nra. }
  split; [exact HM|].
  eapply Rle_trans; [apply (contraction (lpts (1 / 2)) (lf 0 1 (-1) 0) [0; 1] 1 "m" [1 / 2] None false _ _ _ _ _ _ _ _ (lpts_ok _) lt_len (lf_ok _ _ _ _) eq_refl (lvars _ _ _ _ _ _ _ _ _ _) (lvars _ _ _ _ _ _ _ _ _ _) s s' e e' Es Ee Hz Es' Ee' Hz' id2 lt_asc HS HM 0%nat 1%nat); unfold ivals; simpl; lia|].
  unfold dist, quad, id2, col. cbn. lra.
Qed.
(** The quadrature of a polynomial of degree 2 at two Radau points: of [3 s ^ 2] over the grid 0, 1, 3. *)
Definition cf : daefun R := DaeFun 1 0 0 0 0 1 1 (fun _ => true) (fun a _ => a_xdot a 0%nat - 2 * a_t a) (fun a _ => 3 * a_x a 0%nat).
Example radau_quadrature : exists s, scheme_ expts cf ext 2 "radau" None false exx exK (ex0 4) (ex0 2) (ex0 1) = Ok s /\ at_m (sc_q s) 0 2 = 27.
Proof.
  assert (Hok : DaeOk cf) by (split; [|split]; cbn; [intros a b r (H1 & _ & _ & _ & _ & H6 & _)|intros a b r (_ & H2 & _)|discriminate]; cbn in *; [rewrite H1 by lia; rewrite H6|rewrite H2 by lia]; reflexivity).
  assert (HV : VarsOk cf (ivals ext) 2 false exx exK (ex0 4) (ex0 2) (ex0 1)) by (repeat split).
  assert (Pq : PolyLt 3 (fun s => 3 * (s * s))) by (exists [0; 0; 3]; split; [simpl; lia|intros v; simpl; ring]).
  destruct (quadrature_order expts cf ext 2 "radau" extau None false exx exK (ex0 4) (ex0 2) (ex0 1) ex_points ext_len Hok eq_refl HV ex_asc ex_unit exd exs ez ez (fun _ => 0) ex_sampled ex_c1 1 0 (fun s => 3 * (s * s)) radau2 ltac:(cbn; lia)) as (s & E & HQ).
  - intros n _. exists (fun s => 3 * (s * s)). split; [exact Pq|reflexivity].
  - reflexivity.
  - exists s. split; [exact E|]. specialize (HQ 2%nat ltac:(unfold ivals, ext; simpl; lia)).
    assert (HD : forall v, is_derive (fun v => v * v * v) v (3 * (v * v))) by (intros v; auto_derive; [exact I|ring]).
    pose proof (int_unique _ _ _ _ _ HQ (is_RInt_poly 3 _ _ _ _ Pq HD)) as EQ. rewrite EQ. unfold node, ext. simpl. lra.
Qed.
