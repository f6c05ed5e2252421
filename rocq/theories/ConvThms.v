(** Solvability and accuracy of collocation (C95, C96). *)
From Coq Require Import Reals Lra.
From Coquelicot Require Import Coquelicot.
From Verif Require Import PyBase IndexModel DMModel DMProofs StructModel StructSpec PowerModel EntryModel StructsModel IneqModel DaeModel StructsSpec StructsThms11 NumModel NumInst NumSpec PolynomialModel PiecewiseModel PdqModel SchemeModel
  PolySpec PiecewiseSpec PdqSpec SchemeSpec PolyMath PolynomialBase PolynomialThms PolynomialThms2 PiecewiseThms PdqThms PdqThms2 SchemeThms SchemeThms2 SchemeThms3 SchemeThms4 SchemeThms5 OrderSpec OrderMath OrderThms ConvSpec.
Open Scope R_scope.

(** ** Sums and maxima *)
Lemma sum_abs n f : Rabs (Sum n f) <= Sum n (fun k => Rabs (f k)).
Proof. induction n as [|n IH]; simpl; [rewrite Rabs_R0; lra|]. eapply Rle_trans; [apply Rabs_triang|lra]. Qed.
Lemma sum_abs_le n c v al B : Sum n (fun k => Rabs (c k)) <= al -> 0 <= B -> (forall k, (k < n)%nat -> Rabs (v k) <= B) -> Rabs (Sum n (fun k => c k * v k)) <= al * B.
Proof.
  intros Hc HB Hv. eapply Rle_trans; [apply sum_abs|]. eapply Rle_trans; [|apply Rmult_le_compat_r; [exact HB|exact Hc]]. rewrite <- Sum_scal_r. apply sum_le. intros k Hk. rewrite Rabs_mult. apply Rmult_le_compat_l; [apply Rabs_pos|now apply Hv].
Qed.
Lemma fin_max n (v : nat -> R) : (1 <= n)%nat -> exists k, (k < n)%nat /\ forall i, (i < n)%nat -> v i <= v k.
Proof.
  induction n as [|n IH]; [lia|]. intros _. destruct n as [|n]; [exists 0%nat; split; [lia|]; intros i Hi; replace i with 0%nat by lia; lra|]. destruct IH as (k & Hk & H); [lia|].
  destruct (Rle_dec (v k) (v (S n))) as [Hle|Hle]; [exists (S n)|exists k]; (split; [lia|]); intros i Hi; (destruct (Nat.eq_dec i (S n)) as [->|]; [try lra|specialize (H i ltac:(lia)); lra]).
Qed.
Lemma fin_max2 n m (v : nat -> nat -> R) : (1 <= n)%nat -> (1 <= m)%nat -> exists k l, (k < n)%nat /\ (l < m)%nat /\ forall i j, (i < n)%nat -> (j < m)%nat -> v i j <= v k l.
Proof.
  intros Hn Hm. assert (exists c : nat -> nat, forall i, (i < n)%nat -> (c i < m)%nat /\ forall j, (j < m)%nat -> v i j <= v i (c i)) as (c & Hc) by (apply (fin_choice 0%nat (fun i l => (l < m)%nat /\ forall j, (j < m)%nat -> v i j <= v i l)); intros i Hi; now apply fin_max).
  destruct (fin_max n (fun i => v i (c i)) Hn) as (k & Hk & H). exists k, (c k). split; [exact Hk|]. split; [now apply Hc|]. intros i j Hi Hj. eapply Rle_trans; [now apply Hc|now apply H].
Qed.

(** ** One step and a reference that nearly satisfies its equations *)
Section Step.
Context (f : daefun R) (M : nat) (A : nat -> nat -> R) (b : nat -> R) (al L h : R) (HA : forall j, (j < M)%nat -> Sum M (fun l => Rabs (A j l)) <= al) (Hb : Sum M (fun l => Rabs (b l)) <= al).
Context (HL : 0 <= L) (Hh : 0 <= h) (Hs : h * al * L <= 1 / 2) (Lip : LipDae f L) (HM : (1 <= M)%nat).
(** Two steps of stages [a j], [c j] from [x0], [y0] to [x1], [y1]; the second within [dl] of the equations *)
Context (a c : nat -> dargs R) (x0 x1 y0 y1 : nat -> R) (e dl : R).
Context (Sa : forall j, (j < M)%nat -> Solves f (a j)) (Sc : forall j, (j < M)%nat -> Solves f (c j)) (In : forall j, (j < M)%nat -> SameInput f (a j) (c j)).
Context (Xa : forall j i, (j < M)%nat -> (i < f_nx f)%nat -> a_x (a j) i = x0 i + h * Sum M (fun l => A j l * a_xdot (a l) i)).
Context (X1 : forall i, (i < f_nx f)%nat -> x1 i = x0 i + h * Sum M (fun l => b l * a_xdot (a l) i)).
Context (Xc : forall j i, (j < M)%nat -> (i < f_nx f)%nat -> Rabs (y0 i + h * Sum M (fun l => A j l * a_xdot (c l) i) - a_x (c j) i) <= dl).
Context (Y1 : forall i, (i < f_nx f)%nat -> Rabs (y0 i + h * Sum M (fun l => b l * a_xdot (c l) i) - y1 i) <= dl).
Context (E0 : forall i, (i < f_nx f)%nat -> Rabs (x0 i - y0 i) <= e).

Lemma step_diff w i m : (i < f_nx f)%nat -> Sum M (fun l => Rabs (w l)) <= al -> (forall j i, (j < M)%nat -> (i < f_nx f)%nat -> Rabs (a_x (a j) i - a_x (c j) i) <= m) ->
  Rabs (h * Sum M (fun l => w l * a_xdot (a l) i) - h * Sum M (fun l => w l * a_xdot (c l) i)) <= h * al * L * m.
Proof.
  intros Hi Hw Hm. assert (0 <= m) by (eapply Rle_trans; [apply Rabs_pos|apply (Hm 0%nat i); [lia|exact Hi]]).
  rewrite <- Rmult_minus_distr_l, <- Sum_minus, Rabs_mult, (Rabs_pos_eq h) by exact Hh. rewrite (Sum_ext M _ (fun l => w l * (a_xdot (a l) i - a_xdot (c l) i))) by (intros; ring).
  rewrite !Rmult_assoc. apply Rmult_le_compat_l; [exact Hh|]. apply sum_abs_le; [exact Hw|now apply Rmult_le_pos|]. intros l Hl. apply (Lip (a l) (c l) (Sa l Hl) (Sc l Hl) (In l Hl) m); [|exact Hi]. intros k Hk. now apply Hm.
Qed.
Lemma step_stages j i : (j < M)%nat -> (i < f_nx f)%nat -> Rabs (a_x (a j) i - a_x (c j) i) <= 2 * (e + dl).
Proof.
  intros Hj Hi. destruct (fin_max2 M (f_nx f) (fun j i => Rabs (a_x (a j) i - a_x (c j) i)) HM ltac:(lia)) as (k & l & Hk & Hl & Hmax). eapply Rle_trans; [now apply Hmax|]. set (m := Rabs (a_x (a k) l - a_x (c k) l)) in *.
  assert (Hm0 : 0 <= m) by apply Rabs_pos. pose proof (step_diff (A k) l m Hl (HA k Hk) Hmax) as D. specialize (Xc k l Hk Hl). specialize (E0 l Hl).
  assert (m <= e + h * al * L * m + dl).
  { unfold m at 1. rewrite Xa by assumption. set (P := h * Sum M (fun l0 => A k l0 * a_xdot (a l0) l)) in *. set (Q := h * Sum M (fun l0 => A k l0 * a_xdot (c l0) l)) in *.
    replace (x0 l + P - a_x (c k) l) with ((x0 l - y0 l) + (P - Q) + (y0 l + Q - a_x (c k) l)) by ring. eapply Rle_trans; [apply Rabs_triang|]. apply Rplus_le_compat; [|exact Xc]. eapply Rle_trans; [apply Rabs_triang|]. now apply Rplus_le_compat. }
  assert (h * al * L * m <= 1 / 2 * m) by now apply Rmult_le_compat_r. lra.
Qed.
Lemma step_slopes j i : (j < M)%nat -> (i < f_nx f)%nat -> Rabs (a_xdot (a j) i - a_xdot (c j) i) <= L * (2 * (e + dl)).
Proof. intros Hj Hi. apply (Lip (a j) (c j) (Sa j Hj) (Sc j Hj) (In j Hj)); [|exact Hi]. intros k Hk. now apply step_stages. Qed.
Lemma step_end i : (i < f_nx f)%nat -> Rabs (x1 i - y1 i) <= (1 + 2 * (h * al * L)) * (e + dl).
Proof.
  intros Hi. pose proof (step_diff b i _ Hi Hb step_stages) as D. rewrite X1 by exact Hi. set (P := h * Sum M (fun l0 => b l0 * a_xdot (a l0) i)) in *. specialize (Y1 i Hi). set (Q := h * Sum M (fun l0 => b l0 * a_xdot (c l0) i)) in *. specialize (E0 i Hi).
  replace (x0 i + P - y1 i) with ((x0 i - y0 i) + (P - Q) + (y0 i + Q - y1 i)) by ring. eapply Rle_trans; [apply Rabs_triang|]. assert (Rabs (x0 i - y0 i + (P - Q)) <= e + h * al * L * (2 * (e + dl))) by (eapply Rle_trans; [apply Rabs_triang|now apply Rplus_le_compat]). lra.
Qed.
End Step.

(** ** Contractions have fixed points *)
Section Fix.
Context (M m : nat) (Phi : (nat -> nat -> R) -> nat -> nat -> R) (c : R) (Hc : 0 <= c < 1).
Notation near v w e := (forall j i, (j < M)%nat -> (i < m)%nat -> Rabs (v j i - w j i) <= e).
Context (HP : forall v w e, near v w e -> near (Phi v) (Phi w) (c * e)).
Fixpoint iter (k : nat) : nat -> nat -> R := match k with O => fun _ _ => 0 | S k => Phi (iter k) end.
Lemma iter_bound : exists d, 0 <= d /\ near (iter 1) (iter 0) d.
Proof.
  destruct M as [|M']; [exists 0; split; [lra|intros; lia]|]. destruct m as [|m']; [exists 0; split; [lra|intros; lia]|].
  destruct (fin_max2 (S M') (S m') (fun j i => Rabs (iter 1 j i - iter 0 j i)) ltac:(lia) ltac:(lia)) as (k & l & _ & _ & H). exists (Rabs (iter 1 k l - iter 0 k l)). split; [apply Rabs_pos|exact H].
Qed.
Lemma iter_step d : near (iter 1) (iter 0) d -> forall k, near (iter (S k)) (iter k) (c ^ k * d).
Proof. intros H. induction k as [|k IH]; [simpl pow; intros; rewrite Rmult_1_l; now apply H|]. simpl pow. rewrite Rmult_assoc. exact (HP _ _ _ IH). Qed.
Lemma iter_far d : 0 <= d -> near (iter 1) (iter 0) d -> forall k p, near (iter (p + k)) (iter k) (c ^ k * d / (1 - c)).
Proof.
  intros Hd H k p. assert (near (iter (p + k)) (iter k) (c ^ k * d * (1 - c ^ p) / (1 - c))) as H1.
  { induction p as [|p IH]; intros j i Hj Hi; [simpl; rewrite Rminus_eq_0, Rabs_R0; apply Req_le; field; lra|]. replace (iter (S p + k) j i - iter k j i) with ((iter (S (p + k)) j i - iter (p + k) j i) + (iter (p + k) j i - iter k j i)) by (simpl; ring).
    eapply Rle_trans; [apply Rabs_triang|]. eapply Rle_trans; [apply Rplus_le_compat; [apply (iter_step d H); assumption|now apply IH]|]. apply Req_le. rewrite pow_add. simpl. field. lra. }
  intros j i Hj Hi. eapply Rle_trans; [now apply H1|]. unfold Rdiv. apply Rmult_le_compat_r; [left; apply Rinv_0_lt_compat; lra|]. assert (0 <= c ^ k * d) by (apply Rmult_le_pos; [apply pow_le; lra|exact Hd]). assert (0 <= c ^ p) by (apply pow_le; lra). nra.
Qed.
Lemma small d : forall eps, 0 < eps -> exists k, forall l, (k <= l)%nat -> c ^ l * d / (1 - c) < eps.
Proof.
  intros eps He. assert (Hl : is_lim_seq (fun k => c ^ k * d / (1 - c)) 0).
  { apply (is_lim_seq_ext (fun k => c ^ k * (d / (1 - c)))); [intros; field; lra|]. replace (Finite 0) with (Rbar_mult 0 (d / (1 - c))) by (simpl; f_equal; ring). apply is_lim_seq_scal_r, is_lim_seq_geom. rewrite Rabs_pos_eq; lra. }
  apply is_lim_seq_spec in Hl. destruct (Hl (mkposreal eps He)) as (k & Hk). exists k. intros l Hkl. specialize (Hk l Hkl). simpl in Hk. rewrite Rminus_0_r in Hk. eapply Rle_lt_trans; [apply Rle_abs|exact Hk].
Qed.
Theorem banach : exists v, forall j i, (j < M)%nat -> (i < m)%nat -> Phi v j i = v j i.
Proof.
  destruct iter_bound as (d & Hd & H). set (v j i := real (Lim_seq (fun k => iter k j i))).
  assert (Hv : forall j i, (j < M)%nat -> (i < m)%nat -> is_lim_seq (fun k => iter k j i) (v j i)).
  { intros j i Hj Hi. apply Lim_seq_correct'. apply ex_lim_seq_cauchy_corr. intros eps. destruct (small d (eps / 2) ltac:(destruct eps; simpl; lra)) as (k & Hk). exists k. intros n q Hn Hq.
    pose proof (iter_far d Hd H k (n - k) j i Hj Hi) as F1. pose proof (iter_far d Hd H k (q - k) j i Hj Hi) as F2. replace (n - k + k)%nat with n in F1 by lia. replace (q - k + k)%nat with q in F2 by lia. specialize (Hk k ltac:(lia)).
    replace (iter n j i - iter q j i) with ((iter n j i - iter k j i) + - (iter q j i - iter k j i)) by ring. eapply Rle_lt_trans; [apply Rabs_triang|]. rewrite Rabs_Ropp. lra. }
  assert (Hn : forall k, near v (iter k) (c ^ k * d / (1 - c))).
  { intros k j i Hj Hi. assert (Hl : is_lim_seq (fun p => Rabs (iter (p + k) j i - iter k j i)) (Rabs (v j i - iter k j i))).
    { apply (is_lim_seq_abs _ (Finite (v j i - iter k j i))). apply is_lim_seq_minus'; [|apply is_lim_seq_const]. apply (is_lim_seq_incr_n (fun p => iter p j i)). now apply Hv. }
    apply (is_lim_seq_le _ (fun _ => c ^ k * d / (1 - c)) (Rabs (v j i - iter k j i)) (c ^ k * d / (1 - c))) in Hl; [exact Hl|intros p; now apply iter_far|apply is_lim_seq_const]. }
  exists v. intros j i Hj Hi. apply Rminus_diag_uniq. apply Rabs_eq_0. apply Rle_antisym; [|apply Rabs_pos]. apply le_epsilon. intros eps He. destruct (small d (eps / 2) ltac:(lra)) as (k & Hk). pose proof (Hk k ltac:(lia)) as K1. pose proof (Hk (S k) ltac:(lia)) as K2.
  pose proof (HP _ _ _ (Hn k) j i Hj Hi) as P1. pose proof (Hn (S k) j i Hj Hi) as P2. change (iter (S k)) with (Phi (iter k)) in P2.
  replace (Phi v j i - v j i) with ((Phi v j i - Phi (iter k) j i) + - (v j i - Phi (iter k) j i)) by ring. eapply Rle_trans; [apply Rabs_triang|]. rewrite Rabs_Ropp.
  assert (0 <= c ^ k * d / (1 - c)) by (eapply Rle_trans; [apply Rabs_pos|apply (Hn k j i Hj Hi)]). nra.
Qed.
End Fix.

(** ** Two schemes, and a scheme and a solution of the DAE *)
Lemma coef_bound tau al A b : NoDup tau -> CoefBound tau al -> RungeKutta tau A b -> (forall j, (j < length tau)%nat -> Sum (length tau) (fun l => Rabs (A j l)) <= al) /\ Sum (length tau) (fun l => Rabs (b l)) <= al.
Proof.
  intros Hd (A' & b' & HR' & H1 & H2) HR. pose proof (rk_unique tau A b A' b' Hd HR HR') as U. split; [intros j Hj; eapply Rle_trans; [|exact (H1 j Hj)]|eapply Rle_trans; [|exact H2]]; apply Req_le, Sum_ext; intros l Hl; f_equal; apply (U l Hl). exact Hj.
Qed.
Lemma exp_step k e d h al L : 0 <= al * L -> 0 <= h -> 0 <= k -> 0 <= e + k * d -> 0 <= d ->
  (1 + 2 * (h * al * L)) * (exp (2 * al * L * k) * (e + k * d) + h * d) <= exp (2 * al * L * (k + h)) * (e + (k + h) * d).
Proof.
  intros Hal Hh Hk He Hd. assert (H1 : 1 + 2 * (h * al * L) <= exp (2 * al * L * h)) by (eapply Rle_trans; [|apply exp_ineq1_le]; apply Req_le; ring). assert (H2 : 1 <= exp (2 * al * L * k)). { rewrite <- exp_0. destruct (Rle_lt_or_eq_dec 0 (2 * al * L * k)) as [H|H]; [assert (0 <= 2 * (al * L) * k) by (apply Rmult_le_pos; lra); lra|left; now apply exp_increasing|rewrite <- H; lra]. }
  replace (2 * al * L * (k + h)) with (2 * al * L * h + 2 * al * L * k) by ring. rewrite exp_plus. assert (0 <= h * (al * L)) by now apply Rmult_le_pos. assert (0 <= h * d) by now apply Rmult_le_pos.
  eapply Rle_trans; [apply Rmult_le_compat_r; [|exact H1]|].
  - apply Rplus_le_le_0_compat; [apply Rmult_le_pos; lra|lra].
  - rewrite (Rmult_assoc (exp _) (exp _)). apply Rmult_le_compat_l; [left; apply exp_pos|]. nra.
Qed.
Lemma alpha_pos tau al : (1 <= length tau)%nat -> CoefBound tau al -> 0 <= al.
Proof. intros H (A & b & _ & _ & Hb). eapply Rle_trans; [|exact Hb]. rewrite <- (Sum_0 (length tau) (fun _ => 0)) by reflexivity. apply sum_le. intros. apply Rabs_pos. Qed.

Section Grid.
Context (f : daefun R) (t tau : list R) (M : nat) (rep : bool) (g : option (R -> mat R)) (x K Z u p : mat R) (A : nat -> nat -> R) (b : nat -> R).
Context (HM : length tau = M) (H1 : (1 <= M)%nat) (Hd : NoDup tau) (HA : Asc t) (HR : RungeKutta tau A b) (HC : CollocationEqs f t tau M A b rep g x K Z u p).
Context (al L : R) (Hal : CoefBound tau al) (Hss : ShortSteps t al L) (Lip : LipDae f L).
Notation N := (ivals t).
Notation st n j := (stage t tau M A rep g x K Z u p n j).
Notation tm n := (node t n - node t 0).
(** Any reference [y] with stages [c] that is within [dl] times the step of the equations *)
Context (c : nat -> nat -> dargs R) (y : nat -> nat -> R) (e dl : R) (Hdl : 0 <= dl) (He : 0 <= e).
Context (Sc : forall n j, (n < N)%nat -> (j < M)%nat -> Solves f (c n j) /\ SameInput f (st n j) (c n j)).
Context (Xc : forall n j i, (n < N)%nat -> (j < M)%nat -> (i < f_nx f)%nat -> Rabs (y n i + step t n * Sum M (fun l => A j l * a_xdot (c n l) i) - a_x (c n j) i) <= step t n * dl).
Context (Yc : forall n i, (n < N)%nat -> (i < f_nx f)%nat -> Rabs (y n i + step t n * Sum M (fun l => b l * a_xdot (c n l) i) - y (n + 1)%nat i) <= step t n * dl).
Context (E0 : forall i, (i < f_nx f)%nat -> Rabs (at_m x i 0 - y 0%nat i) <= e).
Let bd n := exp (2 * al * L * tm n) * (e + tm n * dl).
Lemma tm_pos n : (n <= N)%nat -> 0 <= tm n.
Proof. intros Hn. destruct n as [|n]; [lra|]. pose proof (HA 0%nat (S n)) as H. assert (0 < S n < length t)%nat by (unfold ivals in Hn; lia). specialize (H H0). lra. Qed.
Lemma grid_step n : (n < N)%nat -> (forall i, (i < f_nx f)%nat -> Rabs (at_m x i n - y n i) <= bd n) ->
  (forall i, (i < f_nx f)%nat -> Rabs (at_m x i (n + 1) - y (n + 1)%nat i) <= bd (n + 1)) /\
  (forall j i, (j < M)%nat -> (i < f_nx f)%nat -> Rabs (stage_x t M A x K n j i - a_x (c n j) i) <= 2 * (bd n + step t n * dl) /\ Rabs (at_m K i (n * M + j) - a_xdot (c n j) i) <= L * (2 * (bd n + step t n * dl))).
Proof.
  intros Hn En. destruct (coef_bound tau al A b Hd Hal HR) as [BA Bb]. rewrite HM in BA, Bb. destruct Hss as [HL0 Hs]. pose proof (step_pos t n HA Hn) as Hh. pose proof (alpha_pos tau al ltac:(lia) Hal) as Hp.
  assert (Sa : forall j, (j < M)%nat -> Solves f (st n j)) by (intros j Hj; apply (stage_fed f t tau M A b rep g x K Z u p HC n j Hn Hj)).
  assert (X1 : forall i, (i < f_nx f)%nat -> at_m x i (n + 1) = at_m x i n + step t n * Sum M (fun l => b l * a_xdot (st n l) i)) by (intros i Hi; destruct HC as (_ & C2 & _); symmetry; now apply C2).
  split.
  - intros i Hi. eapply Rle_trans; [apply (step_end f M A b al L (step t n) BA Bb HL0 (Rlt_le _ _ Hh) (Hs n Hn) Lip H1 (fun j => st n j) (fun j => c n j) (fun i => at_m x i n) (fun i => at_m x i (n + 1)) (y n) (y (n + 1)%nat) (bd n) (step t n * dl)); auto; try (intros j Hj; now apply Sc); try (intros j k Hj Hk; reflexivity)|].
    unfold bd. replace (tm (n + 1)) with (tm n + step t n) by (unfold step; ring). apply exp_step; [now apply Rmult_le_pos|lra|apply tm_pos; lia| |exact Hdl]. apply Rplus_le_le_0_compat; [exact He|]. apply Rmult_le_pos; [apply tm_pos; lia|exact Hdl].
  - intros j i Hj Hi. split.
    + apply (step_stages f M A al L (step t n) BA HL0 (Rlt_le _ _ Hh) (Hs n Hn) Lip H1 (fun j => st n j) (fun j => c n j) (fun i => at_m x i n) (y n) (bd n) (step t n * dl)); auto; try (intros k Hk; now apply Sc); try (intros j' k Hj' Hk; reflexivity).
    + apply (step_slopes f M A al L (step t n) BA HL0 (Rlt_le _ _ Hh) (Hs n Hn) Lip H1 (fun j => st n j) (fun j => c n j) (fun i => at_m x i n) (y n) (bd n) (step t n * dl)); auto; try (intros k Hk; now apply Sc); try (intros j' k Hj' Hk; reflexivity).
Qed.
Lemma grid_all n : (n <= N)%nat -> forall i, (i < f_nx f)%nat -> Rabs (at_m x i n - y n i) <= bd n.
Proof.
  induction n as [|n IH]; intros Hn i Hi; [unfold bd; rewrite Rminus_eq_0, Rmult_0_r, exp_0, Rmult_0_l, Rplus_0_r, Rmult_1_l; now apply E0|]. replace (S n) with (n + 1)%nat by lia. apply (grid_step n); [lia| |exact Hi]. apply IH. lia.
Qed.
Lemma grid_stages n j i : (n < N)%nat -> (j < M)%nat -> (i < f_nx f)%nat -> Rabs (stage_x t M A x K n j i - a_x (c n j) i) <= 2 * (bd n + step t n * dl) /\ Rabs (at_m K i (n * M + j) - a_xdot (c n j) i) <= L * (2 * (bd n + step t n * dl)).
Proof. intros Hn Hj Hi. apply (grid_step n); [exact Hn|apply grid_all; lia|exact Hj|exact Hi]. Qed.
End Grid.

(** ** The error *)
Lemma int_bound (q : R -> R) a s D (I : R) : a <= s -> (forall v, a < v <= s -> Rabs (q v) <= D) -> 0 <= D -> is_RInt q a s I -> Rabs I <= (s - a) * D.
Proof.
  intros Has Hq HD HI. set (q' v := if Rle_dec v a then 0 else q v).
  assert (HI' : is_RInt q' a s I). { apply (is_RInt_ext q); [|exact HI]. intros v Hv. rewrite Rmin_left, Rmax_right in Hv by exact Has. unfold q'. destruct (Rle_dec v a); [lra|reflexivity]. }
  apply (norm_RInt_le_const (V := R_NormedModule) q' a s I D Has); [|exact HI']. intros v Hv. unfold q'. destruct (Rle_dec v a); [change (Rabs 0 <= D); rewrite Rabs_R0; exact HD|]. apply Hq. lra.
Qed.
Lemma defect_gen t n M D al h (w d P : R -> R) (wc c : nat -> R) a th : 0 <= D -> 0 < h -> 0 <= th <= 1 -> a = node t n -> a + h = node t (n + 1) -> Sum M (fun l => Rabs (wc l)) <= al -> (forall l, (l < M)%nat -> a < a + h * c l <= a + h) ->
  (forall s, node t n <= s <= node t (n + 1) -> is_RInt d (node t n) s (w s - w (node t n))) -> (forall s, node t n < s <= node t (n + 1) -> Rabs (d s - P s) <= D) ->
  is_RInt P a (a + h * th) (h * Sum M (fun l => wc l * P (a + h * c l))) -> Rabs (w a + h * Sum M (fun l => wc l * d (a + h * c l)) - w (a + h * th)) <= h * ((1 + al) * D).
Proof.
  intros HD Hh Hth Ea Eb Hw Hc Hd HP HI. rewrite <- Ea in *. rewrite <- Eb in *. assert (Hin : a <= a + h * th <= a + h) by nra.
  pose proof (int_lin _ _ 1 (-1) _ _ _ _ HI (Hd _ Hin)) as HJ. apply (int_bound _ _ _ D) in HJ; [|lra| |exact HD]. 2:{ intros v Hv. replace (1 * P v + -1 * d v) with (- (d v - P v)) by ring. rewrite Rabs_Ropp. apply HP. lra. }
  assert (HS : Rabs (h * Sum M (fun l => wc l * (d (a + h * c l) - P (a + h * c l)))) <= h * (al * D)). { rewrite Rabs_mult, (Rabs_pos_eq h) by lra. apply Rmult_le_compat_l; [lra|]. apply sum_abs_le; [exact Hw|exact HD|]. intros l Hl. now apply HP, Hc. }
  rewrite (Sum_ext M _ (fun l => wc l * d (a + h * c l) - wc l * P (a + h * c l))) in HS by (intros; ring). rewrite Sum_minus in HS. set (X := Sum M (fun l => wc l * d (a + h * c l))) in *. set (Y := Sum M (fun l => wc l * P (a + h * c l))) in *.
  replace (w a + h * X - w (a + h * th)) with (h * (X - Y) + (1 * (h * Y) + -1 * (w (a + h * th) - w a))) by ring. eapply Rle_trans; [apply Rabs_triang|]. assert ((a + h * th - a) * D <= h * D) by (apply Rmult_le_compat_r; [exact HD|nra]). nra.
Qed.
Lemma defect t tau M al D A b w d n : Asc t -> InUnit tau -> length tau = M -> 0 <= D -> RungeKutta tau A b -> (forall j, (j < M)%nat -> Sum M (fun l => Rabs (A j l)) <= al) -> Sum M (fun l => Rabs (b l)) <= al -> Close t M D w d -> (n < ivals t)%nat ->
  (forall j, (j < M)%nat -> Rabs (w (node t n) + step t n * Sum M (fun l => A j l * d (stage_t t tau n l)) - w (stage_t t tau n j)) <= step t n * ((1 + al) * D)) /\
  Rabs (w (node t n) + step t n * Sum M (fun l => b l * d (stage_t t tau n l)) - w (node t (n + 1))) <= step t n * ((1 + al) * D).
Proof.
  intros HA HU HM HD HR BA Bb HCl Hn. destruct (HCl n Hn) as [Hi (P & PP & HP)]. pose proof (step_pos t n HA Hn) as Hh. rewrite <- HM in PP. destruct (rk_moved tau A b P (node t n) (step t n) HR PP) as [R1 R2]. rewrite HM in R1, R2.
  assert (Eb : node t n + step t n = node t (n + 1)) by (unfold step; ring). assert (Hc : forall l, (l < M)%nat -> node t n < node t n + step t n * node tau l <= node t n + step t n). { intros l Hl. rewrite Eb. apply (stage_in t tau n l HA HU Hn). lia. }
  split.
  - intros j Hj. apply (defect_gen t n M D al (step t n) w d P (A j) (node tau) (node t n) (node tau j)); auto. pose proof (HU j ltac:(lia)). lra.
  - pose proof (defect_gen t n M D al (step t n) w d P b (node tau) (node t n) 1 HD Hh ltac:(lra) eq_refl Eb Bb Hc Hi HP) as G. rewrite Rmult_1_r in G. specialize (G R2). rewrite Eb in G. exact G.
Qed.

Section Error.
Context (f : daefun R) (t tau : list R) (M : nat) (rep : bool) (g : option (R -> mat R)) (x K Z u p : mat R) (A : nat -> nat -> R) (b : nat -> R).
Context (HM : length tau = M) (H1 : (1 <= M)%nat) (Hd : NoDup tau) (HA : Asc t) (HU : InUnit tau) (HR : RungeKutta tau A b) (HC : CollocationEqs f t tau M A b rep g x K Z u p).
Context (al L D e : R) (Hal : CoefBound tau al) (Hss : ShortSteps t al L) (Lip : LipDae f L) (HD : 0 <= D) (He : 0 <= e).
Context (xd xs zs us : nat -> R -> R) (pv : nat -> R) (HS : SolvesDae f t xd xs zs us pv g) (HF : FedBy f t u p us pv) (HCl : forall i, (i < f_nx f)%nat -> Close t M D (xs i) (xd i)).
Context (E0 : forall i, (i < f_nx f)%nat -> Rabs (at_m x i 0 - xs i (node t 0)) <= e).
Notation N := (ivals t).
Notation bd n := (exp (2 * al * L * (node t n - node t 0)) * (e + (node t n - node t 0) * ((1 + al) * D))).
Lemma error_eqs : (forall n i, (n <= N)%nat -> (i < f_nx f)%nat -> Rabs (at_m x i n - xs i (node t n)) <= bd n) /\
  (forall n j i, (n < N)%nat -> (j < M)%nat -> (i < f_nx f)%nat -> Rabs (stage_x t M A x K n j i - xs i (stage_t t tau n j)) <= 2 * (bd n + step t n * ((1 + al) * D)) /\
     Rabs (at_m K i (n * M + j) - xd i (stage_t t tau n j)) <= L * (2 * (bd n + step t n * ((1 + al) * D)))).
Proof.
  destruct (coef_bound tau al A b Hd Hal HR) as [BA Bb]. rewrite HM in BA, Bb. pose proof (alpha_pos tau al ltac:(lia) Hal) as Hp. destruct HF as [F1 F2].
  set (c n j := dae_at xd xs zs us pv g (stage_t t tau n j)). set (y n i := xs i (node t n)).
  assert (Sc : forall n j, (n < N)%nat -> (j < M)%nat -> Solves f (c n j) /\ SameInput f (stage t tau M A rep g x K Z u p n j) (c n j)).
  { intros n j Hn Hj. pose proof (stage_in t tau n j HA HU Hn ltac:(lia)) as Hin. pose proof (bounds_in t n HA Hn). split; [intros r Hr; apply HS; [lra|exact Hr]|]. destruct (stage_fed f t tau M A b rep g x K Z u p HC n j Hn Hj) as [_ (n' & _ & _ & P2)].
    split; [intros i Hi; cbn; symmetry; now apply F1|]. split; [intros i Hi; rewrite P2 by exact Hi; cbn; now rewrite F2|]. split; [reflexivity|intros; reflexivity]. }
  assert (Df := fun n i Hn Hi => defect t tau M al D A b (xs i) (xd i) n HA HU HM HD HR BA Bb (HCl i Hi) Hn).
  assert (Xc : forall n j i, (n < N)%nat -> (j < M)%nat -> (i < f_nx f)%nat -> Rabs (y n i + step t n * Sum M (fun l => A j l * a_xdot (c n l) i) - a_x (c n j) i) <= step t n * ((1 + al) * D)) by (intros n j i Hn Hj Hi; now apply Df).
  assert (Yc : forall n i, (n < N)%nat -> (i < f_nx f)%nat -> Rabs (y n i + step t n * Sum M (fun l => b l * a_xdot (c n l) i) - y (n + 1)%nat i) <= step t n * ((1 + al) * D)) by (intros n i Hn Hi; now apply Df).
  assert (Hdl : 0 <= (1 + al) * D) by (apply Rmult_le_pos; lra). split.
  - intros n i Hn Hi. exact (grid_all f t tau M rep g x K Z u p A b HM H1 Hd HA HR HC al L Hal Hss Lip c y e _ Hdl He Sc Xc Yc E0 n Hn i Hi).
  - intros n j i Hn Hj Hi. exact (grid_stages f t tau M rep g x K Z u p A b HM H1 Hd HA HR HC al L Hal Hss Lip c y e _ Hdl He Sc Xc Yc E0 n j i Hn Hj Hi).
Qed.
End Error.

(** ** Two solutions *)
Section Both.
Context (f : daefun R) (t tau : list R) (M : nat) (rep rep' : bool) (g : option (R -> mat R)) (x K Z x' K' Z' u p u' p' : mat R) (A : nat -> nat -> R) (b : nat -> R) (A' : nat -> nat -> R) (b' : nat -> R).
Context (HM : length tau = M) (H1 : (1 <= M)%nat) (Hd : NoDup tau) (HA : Asc t) (HR : RungeKutta tau A b) (HC : CollocationEqs f t tau M A b rep g x K Z u p) (HR' : RungeKutta tau A' b') (HC' : CollocationEqs f t tau M A' b' rep' g x' K' Z' u' p').
Context (Hu : forall i n, (i < f_nu f)%nat -> (n < ivals t)%nat -> at_m u i n = at_m u' i n) (Hp : forall i, (i < f_np f)%nat -> at_m p i 0 = at_m p' i 0).
Context (al L e : R) (Hal : CoefBound tau al) (Hss : ShortSteps t al L) (Lip : LipDae f L) (He : 0 <= e).
Context (E0 : forall i, (i < f_nx f)%nat -> Rabs (at_m x i 0 - at_m x' i 0) <= e).
Notation N := (ivals t).
Notation bd n := (exp (2 * al * L * (node t n - node t 0)) * e).
Lemma both_eqs : (forall n i, (n <= N)%nat -> (i < f_nx f)%nat -> Rabs (at_m x i n - at_m x' i n) <= bd n) /\
  (forall n j i, (n < N)%nat -> (j < M)%nat -> (i < f_nx f)%nat -> Rabs (at_m K i (n * M + j) - at_m K' i (n * M + j)) <= L * (2 * bd n)).
Proof.
  pose proof (rk_unique tau A b A' b' Hd HR HR') as U. rewrite HM in U.
  set (c n j := stage t tau M A' rep' g x' K' Z' u' p' n j). set (y n i := at_m x' i n).
  assert (Sc : forall n j, (n < N)%nat -> (j < M)%nat -> Solves f (c n j) /\ SameInput f (stage t tau M A rep g x K Z u p n j) (c n j)).
  { intros n j Hn Hj. destruct (stage_fed f t tau M A' b' rep' g x' K' Z' u' p' HC' n j Hn Hj) as [S2 (_ & _ & _ & P2)]. destruct (stage_fed f t tau M A b rep g x K Z u p HC n j Hn Hj) as [_ (_ & _ & _ & P1)].
    split; [exact S2|]. split; [intros i Hi; now apply Hu|]. split; [intros i Hi; rewrite P1 by exact Hi; unfold c; rewrite P2 by exact Hi; now apply Hp|]. split; [reflexivity|intros; reflexivity]. }
  assert (Xc : forall n j i, (n < N)%nat -> (j < M)%nat -> (i < f_nx f)%nat -> Rabs (y n i + step t n * Sum M (fun l => A j l * a_xdot (c n l) i) - a_x (c n j) i) <= step t n * 0).
  { intros n j i Hn Hj Hi. unfold y, c. cbn. unfold stage_x. rewrite (Sum_ext M (fun l => A j l * _) (fun l => A' j l * at_m K' i (n * M + l)%nat)) by (intros l Hl; now rewrite (proj2 (U l Hl) j Hj)). rewrite Rminus_eq_0, Rabs_R0. lra. }
  assert (Yc : forall n i, (n < N)%nat -> (i < f_nx f)%nat -> Rabs (y n i + step t n * Sum M (fun l => b l * a_xdot (c n l) i) - y (n + 1)%nat i) <= step t n * 0).
  { intros n i Hn Hi. unfold y, c. cbn. rewrite (Sum_ext M (fun l => b l * _) (fun l => b' l * at_m K' i (n * M + l)%nat)) by (intros l Hl; now rewrite (proj1 (U l Hl))). destruct HC' as (_ & C2 & _). rewrite C2 by assumption. rewrite Rminus_eq_0, Rabs_R0. lra. }
  split.
  - intros n i Hn Hi. pose proof (grid_all f t tau M rep g x K Z u p A b HM H1 Hd HA HR HC al L Hal Hss Lip c y e 0 (Rle_refl 0) He Sc Xc Yc E0 n Hn i Hi) as G. eapply Rle_trans; [exact G|]. apply Req_le. cbv beta zeta. ring.
  - intros n j i Hn Hj Hi. pose proof (proj2 (grid_stages f t tau M rep g x K Z u p A b HM H1 Hd HA HR HC al L Hal Hss Lip c y e 0 (Rle_refl 0) He Sc Xc Yc E0 n j i Hn Hj Hi)) as G. eapply Rle_trans; [exact G|]. apply Req_le. cbv beta zeta. ring.
Qed.
End Both.

(** ** Existence *)
Section Exist.
Context (f : daefun R) (t tau : list R) (M : nat) (rep : bool) (g : option (R -> mat R)) (u p : mat R) (A : nat -> nat -> R) (b : nat -> R) (G H : dargs R -> nat -> R).
Context (HM : length tau = M) (H1 : (1 <= M)%nat) (Hd : NoDup tau) (HA : Asc t) (HR : RungeKutta tau A b) (HDae : DaeOk f) (HG : Resolvable f G H).
Context (Hp : rep = true -> forall i k l, (i < f_np f)%nat -> (k < ivals t * M)%nat -> (l < ivals t * M)%nat -> at_m p i k = at_m p i l).
Notation N := (ivals t).
Definition arg (X : nat -> R) (n : nat) (k : nat -> nat -> R) (j : nat) : dargs R :=
  DArgs (fun _ => 0) (fun i => X i + step t n * Sum M (fun l => A j l * k l i)) (fun _ => 0) (fun i => at_m u i n) (fun i => at_m p i (if rep then n * M + j else 0)%nat) (stage_t t tau n j) (tdp_at g (stage_t t tau n j)).
Section Seq.
Context (exist_step : forall X n, (n < N)%nat -> exists k, forall j i, (j < M)%nat -> (i < f_nx f)%nat -> G (arg X n k j) i = k j i).
Lemma exist_seq x0 n : (n <= N)%nat -> exists (X : nat -> nat -> R) (k : nat -> nat -> nat -> R), (forall i, X 0%nat i = x0 i) /\
  forall q, (q < n)%nat -> (forall j i, (j < M)%nat -> (i < f_nx f)%nat -> G (arg (X q) q (k q) j) i = k q j i) /\ forall i, X (q + 1)%nat i = X q i + step t q * Sum M (fun l => b l * k q l i).
Proof.
  induction n as [|n IH]; intros Hn; [exists (fun _ => x0), (fun _ _ _ => 0); split; [reflexivity|intros q Hq; lia]|]. destruct IH as (X & k & X0 & IH); [lia|]. destruct (exist_step (X n) n ltac:(lia)) as (kn & Hk).
  exists (fun q => if Nat.eqb q (S n) then (fun i => X n i + step t n * Sum M (fun l => b l * kn l i)) else X q), (fun q => if Nat.eqb q n then kn else k q). split; [intros i; simpl; apply X0|].
  intros q Hq. destruct (Nat.eqb_spec q (S n)); [lia|]. destruct (Nat.eqb_spec q n) as [->|Hne].
  - replace (n + 1)%nat with (S n) by lia. rewrite Nat.eqb_refl. split; [exact Hk|reflexivity].
  - destruct (Nat.eqb_spec (q + 1) (S n)); [lia|]. apply IH. lia.
Qed.
Lemma exist_eqs x0 : exists x K Z, Shaped x (f_nx f) (N + 1) /\ Shaped K (f_nx f) (N * M) /\ Shaped Z (f_nz f) (N * M) /\ (forall i, (i < f_nx f)%nat -> at_m x i 0 = x0 i) /\ CollocationEqs f t tau M A b rep g x K Z u p.
Proof.
  destruct (exist_seq x0 N (Nat.le_refl _)) as (X & k & X0 & HX).
  exists (Mat (f_nx f) (N + 1) (fun i n => X n i)), (Mat (f_nx f) (N * M) (fun i c => k (c / M)%nat (c mod M) i)), (Mat (f_nz f) (N * M) (fun i c => H (arg (X (c / M)%nat) (c / M) (k (c / M)%nat) (c mod M)) i)).
  split; [split; reflexivity|]. split; [split; reflexivity|]. split; [split; reflexivity|]. split; [intros i _; apply X0|]. split; [|split; [|exact Hp]].
  - intros n j r Hn Hj Hr. destruct (HX n Hn) as [Hk _]. rewrite <- (HG (arg (X n) n (k n) j) r Hr). destruct HDae as [D1 _]. apply D1. destruct (divmod n M j Hj) as [E1 E2]. repeat split; try (intros; reflexivity).
    + intros i Hi. cbn. rewrite E1, E2. symmetry. now apply Hk.
    + intros i Hi. cbn. unfold stage_x. cbn. do 2 f_equal. apply Sum_ext. intros l Hl. destruct (divmod n M l Hl) as [F1 F2]. now rewrite F1, F2.
    + intros i Hi. cbn. now rewrite E1, E2.
  - intros n i Hn Hi. cbn [at_m]. destruct (HX n Hn) as [_ ->]. do 2 f_equal. apply Sum_ext. intros l Hl. destruct (divmod n M l Hl) as [F1 F2]. now rewrite F1, F2.
Qed.
End Seq.
(** With short steps the iteration is a contraction. *)
Context (al L : R) (Hal : CoefBound tau al) (Hss : ShortSteps t al L) (Lip : LipDae f L).
Lemma exist_step X n : (n < N)%nat -> exists k, forall j i, (j < M)%nat -> (i < f_nx f)%nat -> G (arg X n k j) i = k j i.
Proof.
  intros Hn. destruct (coef_bound tau al A b Hd Hal HR) as [BA _]. rewrite HM in BA. destruct Hss as [HL0 Hs]. pose proof (step_pos t n HA Hn) as Hh. specialize (Hs n Hn).
  apply (banach M (f_nx f) (fun k j i => G (arg X n k j) i) (1 / 2)); [lra|]. intros v w e Hvw j i Hj Hi. assert (He : 0 <= e) by (eapply Rle_trans; [apply Rabs_pos|now apply (Hvw j i)]).
  eapply Rle_trans; [apply (Lip _ _ (HG (arg X n v j)) (HG (arg X n w j))) with (e := step t n * (al * e))|].
  - repeat split.
  - intros q Hq. cbn [arg a_x]. set (P := Sum M (fun l => A j l * v l q)). set (Q := Sum M (fun l => A j l * w l q)). replace (X q + step t n * P - (X q + step t n * Q)) with (step t n * (P - Q)) by ring. rewrite Rabs_mult, (Rabs_pos_eq (step t n)) by lra. apply Rmult_le_compat_l; [lra|].
    unfold P, Q. rewrite <- Sum_minus. rewrite (Sum_ext M _ (fun l => A j l * (v l q - w l q))) by (intros; ring). apply sum_abs_le; [now apply BA|exact He|]. intros l Hl. now apply Hvw.
  - exact Hi.
  - replace (L * (step t n * (al * e))) with (step t n * al * L * e) by ring. now apply Rmult_le_compat_r.
Qed.
End Exist.

(** ** Schemes *)
Section Scheme.
Context (cspts : nat -> string -> res (list R)) (f : daefun R) (t : list R) (order : nat) (method : string) (tau : list R) (g : option (R -> mat R)) (rep : bool).
Context (HP : Points cspts order method tau) (HL : (2 <= length t)%nat) (HD : DaeOk f) (HT : TdpOk f g) (HA : Asc t).
Context (al L : R) (Hal : CoefBound tau al) (Hss : ShortSteps t al L) (Lip : LipDae f L).
Notation N := (ivals t).
Notation sch x K Z u p := (scheme_ cspts f t order method g rep x K Z u p).

(** It is enough to solve every single step. *)
Lemma steps_solve A b G H u p (x0 : nat -> R) : RungeKutta tau A b -> Resolvable f G H -> Shaped u (f_nu f) N -> Shaped p (f_np f) (if rep then N * order else 1)%nat ->
  (rep = true -> forall i k l, (i < f_np f)%nat -> (k < N * order)%nat -> (l < N * order)%nat -> at_m p i k = at_m p i l) ->
  (forall X n, (n < N)%nat -> exists k, forall j i, (j < order)%nat -> (i < f_nx f)%nat -> G (arg t tau order rep g u p A X n k j) i = k j i) ->
  exists x K Z s e, VarsOk f N order rep x K Z u p /\ (forall i, (i < f_nx f)%nat -> at_m x i 0 = x0 i) /\ sch x K Z u p = Ok s /\ veccat_master (sc_eq s) = Ok e /\ forall v, In v e -> v = 0.
Proof.
  intros HR HG Hu Hp Hrep Hst. pose proof HP as (_ & Hd & HM & H1). destruct (exist_eqs f t tau order rep g u p A b G H HM H1 HD HG Hrep Hst x0) as (x & K & Z & Sx & SK & SZ & E0 & HC).
  assert (HV : VarsOk f N order rep x K Z u p) by (repeat split; try apply Sx; try apply SK; try apply SZ; try apply Hu; apply Hp).
  destruct (scheme_equations cspts f t order method tau g rep x K Z u p HP HL HD HT HV) as (s & A' & b' & e & Es & HR' & _ & _ & _ & _ & _ & _ & Ee & He). exists x, K, Z, s, e. split; [exact HV|]. split; [exact E0|]. split; [exact Es|]. split; [exact Ee|]. apply He.
  pose proof (rk_unique tau A b A' b' Hd HR HR') as U. rewrite HM in U. destruct HC as (C1 & C2 & C3). split; [|split; [|exact C3]].
  - intros n j r Hn Hj Hr. rewrite <- (C1 n j r Hn Hj Hr). destruct HD as [D1 _]. apply D1. repeat split; try (intros; reflexivity). intros i Hi. cbn. unfold stage_x. do 2 f_equal. apply Sum_ext. intros l Hl. now rewrite (proj2 (U l Hl) j Hj).
  - intros n i Hn Hi. rewrite <- (C2 n i Hn Hi). do 2 f_equal. apply Sum_ext. intros l Hl. now rewrite (proj1 (U l Hl)).
Qed.

Theorem solution_exists G H u p (x0 : nat -> R) : Resolvable f G H -> Shaped u (f_nu f) N -> Shaped p (f_np f) (if rep then N * order else 1)%nat ->
  (rep = true -> forall i k l, (i < f_np f)%nat -> (k < N * order)%nat -> (l < N * order)%nat -> at_m p i k = at_m p i l) ->
  exists x K Z s e, VarsOk f N order rep x K Z u p /\ (forall i, (i < f_nx f)%nat -> at_m x i 0 = x0 i) /\ sch x K Z u p = Ok s /\ veccat_master (sc_eq s) = Ok e /\ forall v, In v e -> v = 0.
Proof.
  intros HG Hu Hp Hrep. pose proof HP as (_ & Hd & HM & H1). pose proof Hal as (A & b & HR & _). exact (steps_solve A b G H u p x0 HR HG Hu Hp Hrep (exist_step f t tau order rep g u p A b G H HM Hd HA HR HG al L Hal Hss Lip)).
Qed.

Section Two.
Context (x K Z u p x' K' Z' : mat R) (HV : VarsOk f N order rep x K Z u p) (HV' : VarsOk f N order rep x' K' Z' u p) (s s' : scheme R) (e e' : list R).
Context (Es : sch x K Z u p = Ok s) (Ee : veccat_master (sc_eq s) = Ok e) (Hz : forall v, In v e -> v = 0) (Es' : sch x' K' Z' u p = Ok s') (Ee' : veccat_master (sc_eq s') = Ok e') (Hz' : forall v, In v e' -> v = 0).
Theorem solution_continuous d : (forall i, (i < f_nx f)%nat -> Rabs (at_m x i 0 - at_m x' i 0) <= d) ->
  forall n i, (n <= N)%nat -> (i < f_nx f)%nat -> Rabs (at_m x i n - at_m x' i n) <= exp (2 * al * L * (node t n - node t 0)) * d.
Proof.
  intros E0 n i Hn Hi. pose proof HP as (_ & Hd & HM & H1). assert (0 <= d) as Hd0 by (eapply Rle_trans; [apply Rabs_pos|now apply (E0 i)]).
  destruct (main_eqs cspts f t order method tau g rep x K Z u p HP HL HD HT HV s e Es Ee Hz) as (A & b & HR & HC & _). destruct (main_eqs cspts f t order method tau g rep x' K' Z' u p HP HL HD HT HV' s' e' Es' Ee' Hz') as (A' & b' & HR' & HC' & _).
  exact (proj1 (both_eqs f t tau order rep rep g x K Z x' K' Z' u p u p A b A' b' HM H1 Hd HA HR HC HR' HC' (fun _ _ _ _ => eq_refl) (fun _ _ => eq_refl) al L d Hal Hss Lip Hd0 E0) n i Hn Hi).
Qed.
Theorem solution_unique : (forall i, (i < f_nx f)%nat -> at_m x i 0 = at_m x' i 0) ->
  (forall n i, (n <= N)%nat -> (i < f_nx f)%nat -> at_m x i n = at_m x' i n) /\ (forall n j i, (n < N)%nat -> (j < order)%nat -> (i < f_nx f)%nat -> at_m K i (n * order + j) = at_m K' i (n * order + j)) /\
  (forall n j i, (n < N)%nat -> (j < order)%nat -> (i < f_nx f)%nat -> at_m (sc_X s) i (n * order + j) = at_m (sc_X s') i (n * order + j)).
Proof.
  intros E0. pose proof HP as (_ & Hd & HM & H1).
  destruct (main_eqs cspts f t order method tau g rep x K Z u p HP HL HD HT HV s e Es Ee Hz) as (A & b & HR & HC & HX & _). destruct (main_eqs cspts f t order method tau g rep x' K' Z' u p HP HL HD HT HV' s' e' Es' Ee' Hz') as (A' & b' & HR' & HC' & HX' & _).
  assert (E1 : forall i, (i < f_nx f)%nat -> Rabs (at_m x i 0 - at_m x' i 0) <= 0) by (intros i Hi; rewrite E0 by exact Hi; rewrite Rminus_eq_0, Rabs_R0; lra).
  destruct (both_eqs f t tau order rep rep g x K Z x' K' Z' u p u p A b A' b' HM H1 Hd HA HR HC HR' HC' (fun _ _ _ _ => eq_refl) (fun _ _ => eq_refl) al L 0 Hal Hss Lip (Rle_refl 0) E1) as [B1 B2].
  assert (Z0 : forall v w B, Rabs (v - w) <= B -> B = 0 -> v = w). { intros v w B HB ->. apply Rminus_diag_uniq. apply Rabs_eq_0. apply Rle_antisym; [exact HB|apply Rabs_pos]. }
  assert (G1 : forall n i, (n <= N)%nat -> (i < f_nx f)%nat -> at_m x i n = at_m x' i n) by (intros n i Hn Hi; apply (Z0 _ _ _ (B1 n i Hn Hi)); ring).
  assert (G2 : forall n j i, (n < N)%nat -> (j < order)%nat -> (i < f_nx f)%nat -> at_m K i (n * order + j) = at_m K' i (n * order + j)) by (intros n j i Hn Hj Hi; apply (Z0 _ _ _ (B2 n j i Hn Hj Hi)); ring).
  split; [exact G1|]. split; [exact G2|]. intros n j i Hn Hj Hi. rewrite HX, HX' by assumption. unfold stage_x. rewrite G1 by (assumption || lia). do 2 f_equal. pose proof (rk_unique tau A b A' b' Hd HR HR') as U. rewrite HM in U. apply Sum_ext. intros l Hl. rewrite (proj2 (U l Hl) j Hj). f_equal. now apply G2.
Qed.
End Two.

Section Error.
Context (x K Z u p : mat R) (HV : VarsOk f N order rep x K Z u p) (s : scheme R) (e : list R) (Es : sch x K Z u p = Ok s) (Ee : veccat_master (sc_eq s) = Ok e) (Hz : forall v, In v e -> v = 0) (HU : InUnit tau).
Context (D d : R) (xd xs zs us : nat -> R -> R) (pv : nat -> R) (HD0 : 0 <= D) (Hd0 : 0 <= d).
Notation bd n := (exp (2 * al * L * (node t n - node t 0)) * (d + (node t n - node t 0) * ((1 + al) * D))).
Theorem error_bound : SolvesDae f t xd xs zs us pv g -> FedBy f t u p us pv -> (forall i, (i < f_nx f)%nat -> Close t order D (xs i) (xd i)) ->
  (forall i, (i < f_nx f)%nat -> Rabs (at_m x i 0 - xs i (node t 0)) <= d) ->
  (forall n i, (n <= N)%nat -> (i < f_nx f)%nat -> Rabs (at_m x i n - xs i (node t n)) <= exp (2 * al * L * (node t n - node t 0)) * (d + (node t n - node t 0) * ((1 + al) * D))) /\
  (forall n j i, (n < N)%nat -> (j < order)%nat -> (i < f_nx f)%nat ->
     Rabs (at_m (sc_X s) i (n * order + j) - xs i (node (sc_tc s) (n * order + j))) <= 2 * exp (2 * al * L * (node t n - node t 0)) * (d + (node t (n + 1) - node t 0) * ((1 + al) * D))).
Proof.
  intros HS HF HCl E0. pose proof HP as (_ & Hd & HM & H1). destruct (main_eqs cspts f t order method tau g rep x K Z u p HP HL HD HT HV s e Es Ee Hz) as (A & b & HR & HC & HX & _).
  destruct (scheme_equations cspts f t order method tau g rep x K Z u p HP HL HD HT HV) as (s1 & _ & _ & _ & E1 & _ & _ & _ & _ & Htc & _). rewrite Es in E1. injection E1 as <-.
  destruct (error_eqs f t tau order rep g x K Z u p A b HM H1 Hd HA HU HR HC al L D d Hal Hss Lip HD0 Hd0 xd xs zs us pv HS HF HCl E0) as [B1 B2]. split; [exact B1|]. intros n j i Hn Hj Hi.
  rewrite HX, Htc by assumption. destruct (B2 n j i Hn Hj Hi) as [B _]. eapply Rle_trans; [exact B|]. rewrite (Rmult_assoc 2 (exp _)). apply Rmult_le_compat_l; [lra|]. pose proof (alpha_pos tau al ltac:(lia) Hal) as Hp. pose proof (step_pos t n HA Hn) as Hh. pose proof (proj1 (bounds_in t n HA Hn)) as Ht.
  assert (1 <= exp (2 * al * L * (node t n - node t 0))). { destruct Hss as [HL0 _]. rewrite <- exp_0. assert (0 <= 2 * al * L * (node t n - node t 0)) as Hge by (repeat apply Rmult_le_pos; lra). destruct (Rle_lt_or_eq_dec _ _ Hge) as [Hlt|Heq]; [left; now apply exp_increasing|rewrite <- Heq; lra]. }
  assert (0 <= step t n * ((1 + al) * D)) by (repeat apply Rmult_le_pos; lra). replace (node t (n + 1) - node t 0) with (node t n - node t 0 + step t n) by (unfold step; ring). nra.
Qed.
End Error.
End Scheme.

(** ** Integrators *)
Section Integrator.
Context (cspts : nat -> string -> res (list R)) (f : daefun R) (t : list R) (order : nat) (method : string) (tau : list R) (g : option (R -> mat R)).
Context (HP : Points cspts order method tau) (HL : (2 <= length t)%nat) (HD : DaeOk f) (HT : TdpOk f g) (Hsq : f_ndae f = (f_nx f + f_nz f)%nat) (HA : Asc t).
Context (al L : R) (Hal : CoefBound tau al) (Hss : ShortSteps t al L) (Lip : LipDae f L).
Context (x0 : nat -> R) (u p : mat R) (Hu : Shaped u (f_nu f) (ivals t)) (Hp : Shaped p (f_np f) 1).
Notation N := (ivals t).
Notation integ rf nan z0 := (integrator_ rf nan cspts f t order method g x0 z0 u p).

Theorem integrator_unique rf nan z0 out rf' nan' z0' out' : RootFinder rf -> RootFinder rf' -> integ rf nan z0 = Ok out -> integ rf' nan' z0' = Ok out' ->
  (forall n i, (n < N)%nat -> (i < f_nx f)%nat -> at_m (io_xf out) i n = at_m (io_xf out') i n) /\ (forall n j i, (n < N)%nat -> (j < order)%nat -> (i < f_nx f)%nat -> at_m (io_X out) i (n * order + j) = at_m (io_X out') i (n * order + j)).
Proof.
  intros Hrf Hrf' E E'. destruct (integrator_outputs cspts f t order method tau g HP HL HD HT Hsq rf nan x0 z0 u p Hu Hp out Hrf E) as (s & A & b & HV & Es & HR & HC & X0 & _ & Hxf & HX & _). destruct (integrator_outputs cspts f t order method tau g HP HL HD HT Hsq rf' nan' x0 z0' u p Hu Hp out' Hrf' E') as (s' & A' & b' & HV' & Es' & HR' & HC' & X0' & _ & Hxf' & HX' & _).
  assert (Q : forall s x K Z A b, VarsOk f N order false x K Z u p -> scheme_ cspts f t order method g false x K Z u p = Ok s -> RungeKutta tau A b -> CollocationEqs f t tau order A b false g x K Z u p -> exists e, veccat_master (sc_eq s) = Ok e /\ forall v, In v e -> v = 0).
  { clear - HP HL HD HT. intros s x K Z A b HV Es HR HC. destruct (scheme_equations cspts f t order method tau g false x K Z u p HP HL HD HT HV) as (s1 & A1 & b1 & e & E1 & HR1 & _ & _ & _ & _ & _ & _ & Ee & He). rewrite Es in E1. injection E1 as <-. exists e. split; [exact Ee|]. apply He.
    pose proof HP as (_ & Hd & HM & _). pose proof (rk_unique tau A b A1 b1 Hd HR HR1) as U. rewrite HM in U. destruct HC as (C1 & C2 & C3). split; [|split; [|exact C3]].
    - intros n j r Hn Hj Hr. rewrite <- (C1 n j r Hn Hj Hr). destruct HD as [D1 _]. apply D1. repeat split; try (intros; reflexivity). intros i Hi. cbn. unfold stage_x. do 2 f_equal. apply Sum_ext. intros l Hl. now rewrite (proj2 (U l Hl) j Hj).
    - intros n i Hn Hi. rewrite <- (C2 n i Hn Hi). do 2 f_equal. apply Sum_ext. intros l Hl. now rewrite (proj1 (U l Hl)). }
  destruct (Q _ _ _ _ _ _ HV Es HR HC) as (e & Ee & Hz). destruct (Q _ _ _ _ _ _ HV' Es' HR' HC') as (e' & Ee' & Hz').
  destruct (solution_unique cspts f t order method tau g false HP HL HD HT HA al L Hal Hss Lip _ _ _ u p _ _ _ HV HV' s s' e e' Es Ee Hz Es' Ee' Hz') as (U1 & _ & U3); [intros i Hi; now rewrite X0, X0'|].
  split; [intros n i Hn Hi; rewrite Hxf, Hxf'; apply U1; [lia|exact Hi]|]. intros n j i Hn Hj Hi. rewrite HX, HX'. now apply U3.
Qed.
Theorem integrator_error rf nan z0 out D xd xs zs us pv : InUnit tau -> 0 <= D -> RootFinder rf -> integ rf nan z0 = Ok out ->
  SolvesDae f t xd xs zs us pv g -> FedBy f t u p us pv -> (forall i, (i < f_nx f)%nat -> Close t order D (xs i) (xd i)) -> (forall i, (i < f_nx f)%nat -> xs i (node t 0) = x0 i) ->
  forall n i, (n < N)%nat -> (i < f_nx f)%nat -> Rabs (at_m (io_xf out) i n - xs i (node t (n + 1))) <= exp (2 * al * L * (node t (n + 1) - node t 0)) * ((node t (n + 1) - node t 0) * ((1 + al) * D)).
Proof.
  intros HU HD0 Hrf E HS HF HCl E0 n i Hn Hi. destruct (integrator_outputs cspts f t order method tau g HP HL HD HT Hsq rf nan x0 z0 u p Hu Hp out Hrf E) as (s & A & b & HV & Es & HR & HC & X0 & _ & Hxf & _). pose proof HP as (_ & Hd & HM & H1).
  assert (E1 : forall i, (i < f_nx f)%nat -> Rabs (at_m (io_x out) i 0 - xs i (node t 0)) <= 0) by (intros k Hk; rewrite X0, E0 by exact Hk; rewrite Rminus_eq_0, Rabs_R0; lra).
  rewrite Hxf. pose proof (proj1 (error_eqs f t tau order false g _ _ _ u p A b HM H1 Hd HA HU HR HC al L D 0 Hal Hss Lip HD0 (Rle_refl 0) xd xs zs us pv HS HF HCl E1) (n + 1)%nat i ltac:(lia) Hi) as B. rewrite Rplus_0_l in B. exact B.
Qed.
End Integrator.
