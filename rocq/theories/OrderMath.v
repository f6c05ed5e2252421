(** Orthogonality of nodal polynomials and the order of quadratures (C93, C94). *)
From Coq Require Import Reals Lra.
From Coquelicot Require Import Coquelicot.
From Verif Require Import PyBase DMModel DaeModel NumModel NumInst PolynomialModel PiecewiseModel SchemeModel PolySpec PdqSpec SchemeSpec PolyMath PolynomialBase PolynomialThms PolynomialThms2 OrderSpec.
Open Scope R_scope.

Lemma int_unique (f : R -> R) a b (x y : R) : is_RInt f a b x -> is_RInt f a b y -> x = y.
Proof. intros H1 H2. apply (is_RInt_unique (V := R_CompleteNormedModule)) in H1. apply (is_RInt_unique (V := R_CompleteNormedModule)) in H2. congruence. Qed.
Lemma int_ext (f g : R -> R) a b (x : R) : (forall t, f t = g t) -> is_RInt f a b x -> is_RInt g a b x.
Proof. intros H. apply is_RInt_ext. intros t _. apply H. Qed.
Lemma int_lin (f g : R -> R) k c a b (x y : R) : is_RInt f a b x -> is_RInt g a b y -> is_RInt (fun t => k * f t + c * g t) a b (k * x + c * y).
Proof. intros H1 H2. apply (is_RInt_plus (V := R_NormedModule)); apply (is_RInt_scal (V := R_NormedModule)); assumption. Qed.
Lemma int_plus (f g : R -> R) a b (x y : R) : is_RInt f a b x -> is_RInt g a b y -> is_RInt (fun t => f t + g t) a b (x + y).
Proof. intros. now apply (is_RInt_plus (V := R_NormedModule)). Qed.
Lemma int_ex n f a b : PolyLt n f -> exists I : R, is_RInt f a b I.
Proof. intros H. destruct (PolyLt_int _ _ H) as (F & _ & _ & D). eexists. now apply (is_RInt_poly n f F a b). Qed.

(** ** The nodal polynomial *)
Lemma nodal_poly l : PolyLt (S (length l)) (nodal l).
Proof. induction l as [|a l IH]; simpl; [apply PolyLt_const|]. now apply PolyLt_lin. Qed.
Lemma nodal_app l m x : nodal (l ++ m) x = nodal l x * nodal m x.
Proof. induction l as [|a l IH]; simpl; [ring|]. rewrite IH. ring. Qed.
Lemma nodal_zero l x : nodal l x = 0 <-> In x l.
Proof.
  induction l as [|a l IH]; simpl; [lra|]. rewrite <- IH. split.
  - intros H. apply Rmult_integral in H as [H|H]; [left; lra|now right].
  - intros [->|H]; [ring|]. rewrite H. ring.
Qed.
Lemma nodal_monic l : exists f, PolyLt (length l) f /\ forall x, nodal l x = x ^ length l + f x.
Proof.
  induction l as [|a l (f & Pf & Hf)]; simpl; [exists (fun _ => 0); split; [apply PolyLt_0|intros; ring]|].
  exists (fun x => (x - a) * f x - a * x ^ length l). split; [|intros x; rewrite Hf; ring].
  apply PolyLt_minus; [now apply PolyLt_lin|]. apply PolyLt_scal. exists (repeat 0 (length l) ++ [1]). split; [rewrite app_length, repeat_length; simpl; lia|].
  intros x. rewrite peval_app, peval_zeros, repeat_length. simpl. ring.
Qed.
Lemma node_in tau j : (j < length tau)%nat -> In (node tau j) tau.
Proof. intros H. now apply nth_In. Qed.
Lemma factor_all l : forall n f, PolyLt (length l + n) f -> NoDup l -> (forall a, In a l -> f a = 0) -> exists g, PolyLt n g /\ forall x, f x = g x * nodal l x.
Proof.
  induction l as [|a l IH]; intros n f Pf Hd Hz; simpl in *; [exists f; split; [exact Pf|intros; ring]|]. inversion Hd as [|? ? Ha Hl]; subst.
  destruct (factor _ _ _ Pf (Hz a (or_introl eq_refl))) as (g & Pg & Hg). destruct (IH n g Pg Hl) as (q & Pq & Hq).
  { intros c Hc. pose proof (Hz c (or_intror Hc)) as E. rewrite Hg in E. apply Rmult_integral in E as [E|E]; [|exact E]. exfalso. apply Ha. now replace a with c by lra. }
  exists q. split; [exact Pq|]. intros x. rewrite Hg, Hq. ring.
Qed.
Lemma interpolant l (f : R -> R) : NoDup l -> exists r, PolyLt (length l) r /\ forall a, In a l -> r a = f a.
Proof.
  induction l as [|a l IH]; intros Hd; [exists (fun _ => 0); split; [apply PolyLt_0|intros a []]|]. inversion Hd as [|? ? Ha Hl]; subst. destruct (IH Hl) as (r & Pr & Hr).
  assert (Hn : nodal l a <> 0) by (rewrite nodal_zero; exact Ha).
  exists (fun x => r x + (f a - r a) / nodal l a * nodal l x). split.
  - simpl. apply PolyLt_plus; [apply (PolyLt_mon (length l)); [lia|exact Pr]|]. apply PolyLt_scal, nodal_poly.
  - intros c [<-|Hc]; [field; exact Hn|]. rewrite Hr by exact Hc. rewrite (proj2 (nodal_zero l c) Hc). ring.
Qed.
Lemma exact_mon tau b m k : (k <= m)%nat -> ExactLt tau b m -> ExactLt tau b k.
Proof. intros H E f Pf. apply E. now apply (PolyLt_mon k). Qed.
(** ** The order *)
Theorem order_iff tau b k : NoDup tau -> ExactLt tau b (length tau) -> ExactLt tau b (length tau + k) <-> Ortho tau k.
Proof.
  intros Hd Hb. split.
  - intros He q Pq. assert (P : PolyLt (length tau + k) (fun x => q x * nodal tau x)).
    { apply (PolyLt_ext _ (fun x => nodal tau x * q x)); [intros; ring|]. apply PolyLt_mul; [apply nodal_poly|exact Pq]. }
    evar_last; [apply (He _ P)|]. apply Sum_0. intros j Hj. rewrite (proj2 (nodal_zero tau _) (node_in tau j Hj)). ring.
  - intros Ho f Pf. destruct (interpolant tau f Hd) as (r & Pr & Hr). destruct (factor_all tau k (fun x => f x - r x)) as (q & Pq & Hq); [|exact Hd|intros a Ha; rewrite Hr by exact Ha; ring|].
    { apply PolyLt_minus; [exact Pf|]. apply (PolyLt_mon (length tau)); [lia|exact Pr]. }
    apply (int_ext (fun x => r x + q x * nodal tau x)); [intros x; rewrite <- Hq; ring|]. evar_last; [apply int_plus; [apply (Hb r Pr)|apply (Ho q Pq)]|].
    rewrite Rplus_0_r. apply Sum_ext. intros j Hj. rewrite Hr; [reflexivity|now apply node_in].
Qed.
(** ** Positive integrals *)
Lemma nats_nodup n a d : d <> 0 -> NoDup (map (fun k => a + INR k * d) (seq 0 n)).
Proof. intros Hd. apply FinFun.Injective_map_NoDup; [|apply seq_NoDup]. intros x y E. apply INR_eq. apply Rplus_eq_reg_l, Rmult_eq_reg_r in E; assumption. Qed.
Lemma int_nonneg n f (I : R) a b : a <= b -> PolyLt n f -> (forall x, a <= x <= b -> 0 <= f x) -> is_RInt f a b I -> 0 <= I.
Proof.
  intros Hab Pf Hf HI. rewrite <- (is_RInt_unique (V := R_CompleteNormedModule) _ _ _ _ HI). apply RInt_ge_0; [exact Hab|now exists I|]. intros x Hx. apply Hf. lra.
Qed.
Lemma int_zero n f : PolyLt n f -> (forall x, 0 <= x <= 1 -> 0 <= f x) -> is_RInt f 0 1 0 -> forall x, f x = 0.
Proof.
  intros Pf Hf HI. destruct (PolyLt_int _ _ Pf) as (F & PF & F0 & DF).
  assert (F1 : F 1 = 0). { pose proof (int_unique _ _ _ _ _ HI (is_RInt_poly n f F 0 1 Pf DF)) as E. lra. }
  assert (Fz : forall x, 0 <= x <= 1 -> F x = 0).
  { intros x Hx. pose proof (int_nonneg n f _ 0 x (proj1 Hx) Pf (fun y Hy => Hf y ltac:(lra)) (is_RInt_poly n f F 0 x Pf DF)). pose proof (int_nonneg n f _ x 1 (proj2 Hx) Pf (fun y Hy => Hf y ltac:(lra)) (is_RInt_poly n f F x 1 Pf DF)). lra. }
  set (m := S n). set (l := map (fun k => 0 + INR k * / INR m) (seq 0 m)).
  assert (Hm : 0 < INR m) by (apply lt_0_INR; unfold m; lia).
  assert (Z : forall x, F x = 0).
  { apply (roots_zero l m F PF); [apply nats_nodup; apply Rinv_neq_0_compat; lra|unfold l; now rewrite map_length, seq_length|].
    intros a Ha. unfold l in Ha. apply in_map_iff in Ha as (k & <- & Hk). apply in_seq in Hk. apply Fz. assert (0 <= INR k) by apply pos_INR. assert (INR k <= INR m) by (apply le_INR; lia). assert (0 < / INR m) by now apply Rinv_0_lt_compat.
    split; [apply Rplus_le_le_0_compat; [lra|apply Rmult_le_pos; lra]|]. rewrite Rplus_0_l. apply (Rmult_le_reg_r (INR m)); [exact Hm|]. rewrite Rmult_assoc, Rinv_l by lra. lra. }
  intros x. pose proof (DF x) as D. assert (D0 : is_derive F x 0) by (apply (is_derive_ext (fun _ => 0)); [intros; symmetry; apply Z|apply der_const]).
  rewrite <- (is_derive_unique _ _ _ D). exact (is_derive_unique _ _ _ D0).
Qed.
Lemma nodal_other l : exists x, nodal l x <> 0.
Proof.
  assert (exists x, forall a, In a l -> a < x) as (x & Hx). { induction l as [|a l (x & Hx)]; [exists 0; intros a []|]. exists (Rmax x (a + 1)). pose proof (Rmax_l x (a + 1)). pose proof (Rmax_r x (a + 1)). intros c [<-|Hc]; [lra|]. specialize (Hx c Hc). lra. }
  exists x. rewrite nodal_zero. intros H. specialize (Hx x H). lra.
Qed.
(** No quadrature at n points is exact for all polynomials of degree 2 n. *)
Theorem order_max tau b : NoDup tau -> ~ ExactLt tau b (2 * length tau + 1).
Proof.
  intros Hd He. assert (P : PolyLt (2 * length tau + 1) (fun x => nodal tau x * nodal tau x)).
  { apply (PolyLt_mon (length tau + S (length tau))); [lia|]. apply PolyLt_mul; apply nodal_poly. }
  destruct (nodal_other tau) as (x & Hx). apply Hx. enough (nodal tau x * nodal tau x = 0) by nra.
  apply (int_zero _ (fun x => nodal tau x * nodal tau x) P); [intros; nra|]. evar_last; [apply (He _ P)|]. apply Sum_0. intros j Hj. rewrite (proj2 (nodal_zero tau _) (node_in tau j Hj)). ring.
Qed.
(** The weights of a quadrature of order 2 n - 1 are positive. *)
Theorem weights_pos tau b : NoDup tau -> (1 <= length tau)%nat -> ExactLt tau b (2 * length tau - 1) -> forall j, (j < length tau)%nat -> 0 < b j.
Proof.
  intros Hd Hn He j Hj. set (g := polyval (lagrange tau j)).
  assert (Pg : PolyLt (length tau) g) by now apply lagrange_poly. assert (Hg : forall i, (i < length tau)%nat -> g (node tau i) = if Nat.eqb j i then 1 else 0) by (intros i Hi; unfold g; now rewrite lagrange_delta).
  assert (P : PolyLt (2 * length tau - 1) (fun x => g x * g x)). { destruct (length tau) as [|n] eqn:E; [lia|]. apply (PolyLt_mon (n + S n)); [lia|]. now apply PolyLt_mul. }
  pose proof (He _ P) as HI. cbv beta in HI. rewrite (Sum_single _ j) in HI; [|exact Hj|]. 2:{ intros i Hi Hne. rewrite Hg by exact Hi. destruct (Nat.eqb_spec j i); [congruence|ring]. }
  rewrite Hg, Nat.eqb_refl in HI by exact Hj. replace (b j * (1 * 1)) with (b j) in HI by ring.
  pose proof (int_nonneg _ _ _ 0 1 ltac:(lra) P (fun x _ => ltac:(cbv beta; nra)) HI) as H0. destruct H0 as [H0|H0]; [exact H0|]. rewrite <- H0 in HI.
  pose proof (int_zero _ _ P (fun x _ => ltac:(cbv beta; nra)) HI (node tau j)) as E. cbv beta in E. rewrite Hg, Nat.eqb_refl in E by exact Hj. lra.
Qed.
