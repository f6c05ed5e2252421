(** Proofs about polynomial bases, interpolation, differentiation, Chebyshev points and
    Butcher tableaux (C43-C50). *)
From Coq Require Import Reals Lra Permutation.
From Coquelicot Require Import Coquelicot.
From Verif Require Import PyBase NumModel NumInst PolynomialModel PolySpec PolyMath PolynomialBase.
Open Scope R_scope.

(** ** Products over the nodes *)
Lemma lprod_perm l l' : Permutation l l' -> lprod l = lprod l'.
Proof. induction 1; simpl; try lra. congruence. Qed.
Lemma others_perm n j : (j < n)%nat -> Permutation (seq 0 n) (j :: others n j).
Proof.
  intros H. apply NoDup_Permutation; [apply seq_NoDup| |].
  - constructor; [rewrite in_others; lia|apply NoDup_filter, seq_NoDup].
  - intros r. simpl. rewrite in_others, in_seq. destruct (Nat.eq_dec j r); intuition lia.
Qed.
Lemma lprod_split g n j : (j < n)%nat -> lprod (map g (seq 0 n)) = g j * lprod (map g (others n j)).
Proof. intros H. rewrite (lprod_perm _ _ (Permutation_map g (others_perm n j H))). reflexivity. Qed.
Definition others2 (n j k : nat) : list nat := filter (fun r => negb (Nat.eqb r k)) (others n j).
Lemma others2_perm n j k : (j < n)%nat -> (k < n)%nat -> j <> k -> Permutation (others n j) (k :: others2 n j k).
Proof.
  intros Hj Hk Hn. apply NoDup_Permutation; [apply NoDup_filter, seq_NoDup| |].
  - constructor; [unfold others2; rewrite filter_In, Nat.eqb_refl; simpl; intros []; discriminate|apply NoDup_filter, NoDup_filter, seq_NoDup].
  - intros r. unfold others2. simpl. rewrite filter_In, in_others, negb_true_iff, Nat.eqb_neq. destruct (Nat.eq_dec k r); intuition lia.
Qed.
Lemma others2_sym n j k : Permutation (others2 n j k) (others2 n k j).
Proof.
  apply NoDup_Permutation; [apply NoDup_filter, NoDup_filter, seq_NoDup|apply NoDup_filter, NoDup_filter, seq_NoDup|].
  intros r. unfold others2. rewrite !filter_In, !in_others, !negb_true_iff, !Nat.eqb_neq. intuition lia.
Qed.
Definition dprod (tau : list R) (k : nat) (t : R) : R := lprod (map (fun r => t - node tau r) (others (length tau) k)).
Lemma dprod_nonzero tau k : NoDup tau -> (k < length tau)%nat -> dprod tau k (node tau k) <> 0.
Proof.
  intros Hd Hk. apply lprod_nonzero. rewrite in_map_iff. intros (r & E & Hr). apply in_others in Hr. destruct Hr as [Hr Hn]. apply Hn. symmetry. apply (node_inj tau); auto. lra.
Qed.
Lemma lam_val tau k : bary_lam tau k = / dprod tau k (node tau k).
Proof. unfold bary_lam, dprod, others. rewrite nprodl_lprod. rnum. unfold Rdiv, node, vget. rnum. lra. Qed.
Lemma lprod_div {B} (g h : B -> R) l : lprod (map (fun r => g r / h r) l) = lprod (map g l) * / lprod (map h l).
Proof. induction l as [|b l IH]; simpl; [field|]. rewrite IH. unfold Rdiv. rewrite Rinv_mult. ring. Qed.
Lemma lagrange_lam tau j t : polyval (lagrange tau j) t = bary_lam tau j * dprod tau j t.
Proof. rewrite lagrange_val, lam_val, lprod_div. unfold dprod. ring. Qed.

(** ** C43 *)
Lemma basis_eq tau : tau <> [] -> basis_ (PVec tau) = Ok (Basis (map (lagrange tau) (seq 0 (length tau)))
    (Mat (length tau) (length tau) (diff_entry tau (map (bary_lam tau) (seq 0 (length tau))))) tau (map (bary_lam tau) (seq 0 (length tau)))).
Proof. intros H. unfold basis_. simpl. destruct tau; [contradiction|reflexivity]. Qed.
Lemma nth_map_seq {B} (f : nat -> B) n i d : (i < n)%nat -> nth i (map f (seq 0 n)) d = f i.
Proof. intros H. rewrite (nth_indep _ _ (f 0%nat)) by (rewrite map_length, seq_length; exact H). rewrite map_nth, seq_nth by exact H. reflexivity. Qed.

Theorem basis_accepts (a : nparg R) : (exists b, basis_ a = Ok b) <-> (exists x, a = PNum x) \/ exists tau, a = PVec tau /\ tau <> [].
Proof.
  destruct a as [x|tau|m].
  - split; [left; eauto|intros _; eexists; apply basis_eq; discriminate].
  - split.
    + intros [b H]. right. exists tau. split; [reflexivity|]. intros ->. discriminate.
    + intros [[x H]|(t & [= <-] & H)]; [discriminate|]. eexists. now apply basis_eq.
  - split; [intros [b H]; discriminate|intros [[x H]|(t & H & _)]; discriminate].
Qed.
Theorem basis_scalar (x : R) : basis_ (PNum x) = basis_ (PVec [x]).
Proof. reflexivity. Qed.
Theorem basis_lagrange tau b : basis_ (PVec tau) = Ok b -> NoDup tau ->
  b_tau b = tau /\ length (b_poly b) = length tau /\
  (forall j k, (j < length tau)%nat -> (k < length tau)%nat -> polyval (nth j (b_poly b) []) (node tau k) = if Nat.eqb j k then 1 else 0) /\
  (forall j, (j < length tau)%nat -> PolyLt (length tau) (polyval (nth j (b_poly b) []))) /\
  (forall f, PolyLt (length tau) f -> forall t, f t = Sum (length tau) (fun j => f (node tau j) * polyval (nth j (b_poly b) []) t)).
Proof.
  intros Hb Hd. assert (Hn : tau <> []) by (intros ->; discriminate). rewrite (basis_eq tau Hn) in Hb. injection Hb as <-. simpl b_tau. simpl b_poly.
  split; [reflexivity|]. split; [now rewrite map_length, seq_length|]. split; [|split].
  - intros j k Hj Hk. rewrite nth_map_seq by exact Hj. now apply lagrange_delta.
  - intros j Hj. rewrite nth_map_seq by exact Hj. now apply lagrange_poly.
  - intros f Hf t. rewrite (lagrange_interp tau f Hd Hf t). apply Sum_ext. intros j Hj. now rewrite nth_map_seq by exact Hj.
Qed.

(** ** C44 *)
Lemma bary_weights tau t : NoDup tau -> (0 < length tau)%nat -> ~ In t tau -> forall j, (j < length tau)%nat ->
  bary_lam tau j / (t - node tau j) / Sum (length tau) (fun k => bary_lam tau k / (t - node tau k)) = polyval (lagrange tau j) t.
Proof.
  intros Hd Hn Ht. set (W := lprod (map (fun r => t - node tau r) (seq 0 (length tau)))). set (S := Sum _ _).
  assert (NZ : forall k, (k < length tau)%nat -> t - node tau k <> 0).
  { intros k Hk E. apply Ht. apply node_in. exists k. split; [exact Hk|lra]. }
  assert (L : forall k, (k < length tau)%nat -> polyval (lagrange tau k) t = W * (bary_lam tau k / (t - node tau k))).
  { intros k Hk. rewrite lagrange_lam. unfold W. rewrite (lprod_split _ _ k Hk). unfold dprod. field. now apply NZ. }
  assert (WS : W * S = 1).
  { unfold S. rewrite <- Sum_scal. rewrite <- (lagrange_sum1 tau t Hd Hn). apply Sum_ext. intros k Hk. now rewrite L. }
  intros j Hj. rewrite L by exact Hj. assert (HS : S <> 0) by (intros E; rewrite E in WS; lra). replace W with (/ S) by (apply (Rmult_eq_reg_r S); [rewrite WS; field; exact HS|exact HS]).
  field. split; [now apply NZ|exact HS].
Qed.
Lemma interp_row_spec tau b xi : basis_ (PVec tau) = Ok b -> NoDup tau ->
  exists row, interp_row b xi = Ok row /\ length row = length tau /\ forall j, (j < length tau)%nat -> vget row j = polyval (lagrange tau j) xi.
Proof.
  intros Hb Hd. assert (Hn : tau <> []) by (intros ->; discriminate). rewrite (basis_eq tau Hn) in Hb. injection Hb as <-. unfold interp_row. cbn [b_tau b_lam].
  assert (Hl : (0 < length tau)%nat) by (destruct tau; [contradiction|simpl; lia]).
  destruct (existsb (fun x => x) (map (fun t => neqb xi t) tau)) eqn:E.
  - apply existsb_exists in E. destruct E as (x & Hx & ->). apply in_map_iff in Hx. destruct Hx as (t & Ht & Hin). rnum. apply Req_b_iff in Ht. subst t. apply node_in in Hin. destruct Hin as (k & Hk & <-).
    assert (LF : length (filter (fun x => x) (map (fun t => Req_b (node tau k) t) tau)) = 1%nat).
    { clear Hn Hl. unfold node in *. revert k Hk. induction tau as [|a tau IH]; intros k Hk; [simpl in Hk; lia|]. inversion Hd as [|? ? Ha Hd']; subst.
      destruct k as [|k].
      - simpl. unfold Req_b at 1. destruct (Req_EM_T a a); [|contradiction]. simpl. f_equal. clear IH Hd Hd' Hk. induction tau as [|y tau IH]; [reflexivity|]. simpl. unfold Req_b at 1. destruct (Req_EM_T a y); [exfalso; apply Ha; left; auto|]. apply IH. intros K. apply Ha. now right.
      - simpl. simpl in Hk. unfold Req_b at 1. destruct (Req_EM_T (nth k tau 0) a) as [Ea|_]; [exfalso; apply Ha; rewrite <- Ea; apply nth_In; lia|]. apply IH; auto. lia. }
    rewrite LF. cbn [Nat.eqb rassert rbind]. eexists. split; [reflexivity|]. split; [now rewrite !map_length|]. intros j Hj. rewrite lagrange_delta by assumption.
    unfold vget. rewrite map_map. rewrite (nth_indep _ _ (if Req_b (node tau k) 0 then 1 else 0)) by (rewrite map_length; exact Hj). rewrite (map_nth (fun t => if Req_b (node tau k) t then 1 else 0)).
    unfold Req_b. destruct (Nat.eqb_spec j k) as [->|Hjk]; [destruct (Req_EM_T (node tau k) (nth k tau 0)); [reflexivity|exfalso; auto]|].
    destruct (Req_EM_T (node tau k) (nth j tau 0)) as [Ej|]; [|reflexivity]. exfalso. apply Hjk. apply (node_inj tau); auto.
  - eexists. split; [reflexivity|]. split; [now rewrite !map_length, seq_length|]. intros j Hj. unfold vget at 1. rewrite map_map.
    rewrite nth_map_seq by exact Hj. rewrite nsuml_lsum, lsum_seq. rnum. rewrite <- (bary_weights tau xi Hd Hl); [|clear Hl|exact Hj].
    + rewrite vget_map_seq by exact Hj. unfold vget at 1. fold (node tau j). f_equal. apply Sum_ext. intros k Hk. rewrite vget_map_seq by exact Hk. reflexivity.
    + intros Hin. assert (K : existsb (fun x => x) (map (fun t => Req_b xi t) tau) = true); [|rewrite K in E; discriminate]. apply existsb_exists. exists true. split; [|reflexivity]. apply in_map_iff. exists xi. split; [now apply Req_b_iff|exact Hin].
Qed.
Lemma rmapM_Forall2 {A B} (f : A -> res B) P l : (forall a, In a l -> exists b, f a = Ok b /\ P a b) -> exists r, rmapM f l = Ok r /\ Forall2 P l r.
Proof.
  induction l as [|a l IH]; intros H; [exists []; split; [reflexivity|constructor]|]. destruct (H a (or_introl eq_refl)) as (b & Eb & Pb). destruct IH as (r & Er & Pr); [intros; apply H; now right|].
  exists (b :: r). simpl. rewrite Eb. simpl. rewrite Er. simpl. split; [reflexivity|now constructor].
Qed.
Lemma Forall2_len {A B} (P : A -> B -> Prop) l r : Forall2 P l r -> length l = length r.
Proof. induction 1; simpl; congruence. Qed.
Lemma Forall2_nth' {A B} (P : A -> B -> Prop) l r da db i : Forall2 P l r -> (i < length l)%nat -> P (nth i l da) (nth i r db).
Proof. intros H. revert i. induction H; intros i Hi; simpl in Hi; [lia|]. destruct i; [assumption|]. apply IHForall2. lia. Qed.
Lemma interp_matrix_spec tau b ts : basis_ (PVec tau) = Ok b -> NoDup tau -> ts <> [] ->
  exists m, interp_matrix b (PVec ts) = Ok m /\ nr m = length ts /\ nc m = length tau /\
    forall i j, (i < length ts)%nat -> (j < length tau)%nat -> at_m m i j = polyval (lagrange tau j) (node ts i).
Proof.
  intros Hb Hd Hts. unfold interp_matrix. cbn [atleast_1d rbind].
  destruct (rmapM_Forall2 (interp_row b) (fun t row => length row = length tau /\ forall j, (j < length tau)%nat -> vget row j = polyval (lagrange tau j) t) ts) as (r & Er & Pr).
  { intros t _. destruct (interp_row_spec tau b t Hb Hd) as (row & E & P). exists row. auto. }
  rewrite Er. cbn [rbind]. assert (Ht : b_tau b = tau) by (destruct (basis_lagrange tau b Hb Hd); assumption). pose proof (Forall2_len _ _ _ Pr) as HL. destruct r as [|r0 r']; [destruct ts; [contradiction|discriminate]|]. rewrite Ht.
  eexists. split; [reflexivity|]. split; [simpl; simpl in HL; lia|]. split; [reflexivity|]. intros i j Hi Hj. unfold vstack_rows. cbn [at_m].
  pose proof (Forall2_nth' _ _ _ 0 [] i Pr Hi) as [_ P]. now apply P.
Qed.

Theorem interpolation_matrix tau b ts : basis_ (PVec tau) = Ok b -> NoDup tau -> ts <> [] ->
  exists m, interp_matrix b (PVec ts) = Ok m /\ nr m = length ts /\ nc m = length tau /\
    (forall i f, (i < length ts)%nat -> PolyLt (length tau) f -> Sum (length tau) (fun j => at_m m i j * f (node tau j)) = f (node ts i)) /\
    (forall i, (i < length ts)%nat -> Sum (length tau) (fun j => at_m m i j) = 1) /\
    (forall i k j, (i < length ts)%nat -> (k < length tau)%nat -> node ts i = node tau k -> (j < length tau)%nat -> at_m m i j = if Nat.eqb j k then 1 else 0).
Proof.
  intros Hb Hd Hts. destruct (interp_matrix_spec tau b ts Hb Hd Hts) as (m & Em & Hr & Hc & Hm). exists m. split; [exact Em|]. split; [exact Hr|]. split; [exact Hc|].
  assert (Hl : (0 < length tau)%nat) by (destruct tau; [discriminate|simpl; lia]). split; [|split].
  - intros i f Hi Hf. rewrite (lagrange_interp tau f Hd Hf (node ts i)). apply Sum_ext. intros j Hj. rewrite (Hm i j Hi Hj). ring.
  - intros i Hi. rewrite <- (lagrange_sum1 tau (node ts i) Hd Hl). apply Sum_ext. intros j Hj. now apply Hm.
  - intros i k j Hi Hk E Hj. rewrite (Hm i j Hi Hj), E. now apply lagrange_delta.
Qed.
Theorem interpolation_matrix_scalar (b : basis R) t : interp_matrix b (PNum t) = interp_matrix b (PVec [t]).
Proof. reflexivity. Qed.
Theorem barycentric_interpolator x u xq : NoDup x -> x <> [] -> xq <> [] -> nc u = length x ->
  exists m, bary_interpolator (PVec x) u (PVec xq) = Ok m /\ nr m = nr u /\ nc m = length xq /\
    forall i k f, (k < length xq)%nat -> PolyLt (length x) f -> (forall j, (j < length x)%nat -> f (node x j) = at_m u i j) -> at_m m i k = f (node xq k).
Proof.
  intros Hd Hx Hq Hu. unfold bary_interpolator. destruct (proj2 (basis_accepts (PVec x)) (or_intror (ex_intro _ x (conj eq_refl Hx)))) as [b Hb]. rewrite Hb. cbn [rbind].
  destruct (interpolation_matrix x b xq Hb Hd Hq) as (m & Em & Hr & Hc & Hm & _). rewrite Em. cbn [rbind]. unfold mdot. cbn [mtr nr nc at_m]. rewrite Hc, Hu, Nat.eqb_refl.
  eexists. split; [reflexivity|]. cbn [nr nc at_m]. split; [reflexivity|]. split; [exact Hr|]. intros i k f Hk Hf E. rewrite nsum_Sum. rewrite <- (Hm k f Hk Hf). apply Sum_ext. intros j Hj. rnum. rewrite (E j Hj). ring.
Qed.
(** Repeated nodes are caught only when the query point is one of them. *)
Theorem barycentric_repeated_node : exists tau b, basis_ (PVec tau) = Ok b /\ interp_matrix b (PNum 1) = Err EAssert.
Proof.
  exists [1; 1]. eexists. split; [reflexivity|]. unfold interp_matrix, interp_row. simpl. rnum. unfold Req_b. destruct (Req_EM_T 1 1); [reflexivity|contradiction].
Qed.

(** ** C45 *)
Lemma derive_root a g : ex_derive g a -> is_derive (fun t => (t - a) * g t) a (g a).
Proof.
  intros [l Hl]. evar_last; [apply (is_derive_mult (fun t => t - a) g a 1 l); [|exact Hl|apply Rmult_comm]|].
  - evar_last; [apply (is_derive_minus (V := R_NormedModule) (fun t => t) (fun _ => a)); [apply is_derive_id|apply der_const]|]. unfold minus, plus, opp, one. simpl. lra.
  - unfold plus, mult. simpl. lra.
Qed.
Lemma lprod_shift_poly tau l : PolyLt (S (length l)) (fun t => lprod (map (fun r => t - node tau r) l)).
Proof. apply (PolyLt_ext _ (fun t => lprod (map (fun r => (t - node tau r) / 1) l))); [|apply (lprod_lin_poly (node tau) (fun _ => 1))]. intros t. f_equal. apply map_ext. intros. field. Qed.
Lemma lagrange_derive (tau : list R) j k : NoDup tau -> (j < length tau)%nat -> (k < length tau)%nat -> j <> k ->
  is_derive (polyval (lagrange tau k)) (node tau j) (bary_lam tau k / bary_lam tau j / (node tau j - node tau k)).
Proof.
  intros Hd Hj Hk Hn. set (G := fun t => lprod (map (fun r => t - node tau r) (others2 (length tau) k j))).
  assert (Q : forall t : R, bary_lam tau k * ((t - node tau j) * G t) = polyval (lagrange tau k) t).
  { intros t. rewrite lagrange_lam. unfold dprod. rewrite (lprod_perm _ _ (Permutation_map (fun r => t - node tau r) (others2_perm (length tau) k j Hk Hj (not_eq_sym Hn)))). reflexivity. }
  apply (is_derive_ext (fun t => bary_lam tau k * ((t - node tau j) * G t))); [intros t; apply Q|].
  evar_last; [apply is_derive_scal, derive_root; apply (PolyLt_ex_derive (S (length (others2 (length tau) k j)))); apply lprod_shift_poly|].
  assert (E : dprod tau j (node tau j) = (node tau j - node tau k) * G (node tau j)).
  { unfold dprod, G. rewrite (lprod_perm _ _ (Permutation_map (fun r => node tau j - node tau r) (others2_perm (length tau) j k Hj Hk Hn))). simpl. f_equal. apply lprod_perm, Permutation_map, others2_sym. }
  pose proof (dprod_nonzero tau j Hd Hj) as NZ. rewrite (lam_val tau j). rewrite E in *. assert (node tau j - node tau k <> 0 /\ G (node tau j) <> 0) as [N1 N2] by (split; intros K; apply NZ; rewrite K; ring).
  field. auto.
Qed.
Definition dcoef (tau : list R) : nat -> nat -> R := diff_entry tau (map (bary_lam tau) (seq 0 (length tau))).
Lemma dcoef_off tau j k : (j < length tau)%nat -> (k < length tau)%nat -> j <> k -> dcoef tau j k = bary_lam tau k / bary_lam tau j / (node tau j - node tau k).
Proof. intros Hj Hk Hn. unfold dcoef, diff_entry. destruct (Nat.eqb_spec j k); [contradiction|]. simpl. rewrite !vget_map_seq by assumption. reflexivity. Qed.
Lemma dcoef_diag tau j : (j < length tau)%nat -> dcoef tau j j = - lsum (map (dcoef tau j) (others (length tau) j)).
Proof.
  intros Hj. unfold dcoef at 1, diff_entry. rewrite Nat.eqb_refl. simpl. rewrite nsuml_lsum. rnum. f_equal. f_equal. apply map_ext_in. intros k Hk. apply in_others in Hk. destruct Hk as [Hk Hn].
  rewrite dcoef_off by auto. rewrite !vget_map_seq by assumption. reflexivity.
Qed.
Lemma lsum_perm l l' : Permutation l l' -> lsum l = lsum l'.
Proof. induction 1; simpl; try lra. Qed.
Lemma Sum_split f n j : (j < n)%nat -> Sum n f = f j + lsum (map f (others n j)).
Proof. intros H. rewrite <- lsum_seq, (lsum_perm _ _ (Permutation_map f (others_perm n j H))). reflexivity. Qed.
Lemma dcoef_row_sum tau j : (j < length tau)%nat -> Sum (length tau) (dcoef tau j) = 0.
Proof. intros Hj. rewrite (Sum_split _ _ j Hj), dcoef_diag by exact Hj. lra. Qed.
Lemma dcoef_derive (tau : list R) j k : NoDup tau -> (j < length tau)%nat -> (k < length tau)%nat -> is_derive (polyval (lagrange tau k)) (node tau j) (dcoef tau j k).
Proof.
  intros Hd Hj Hk. destruct (Nat.eq_dec j k) as [<-|Hn]; [|rewrite dcoef_off by assumption; now apply lagrange_derive].
  destruct (PolyLt_ex_derive (length tau) (polyval (lagrange tau j)) (node tau j)) as [l Hl]; [now apply lagrange_poly|].
  assert (E : l = dcoef tau j j); [|now rewrite <- E].
  assert (Hs : is_derive (fun t => Sum (length tau) (fun k => polyval (lagrange tau k) t)) (node tau j) (Sum (length tau) (fun k => if Nat.eqb k j then l else dcoef tau j k))).
  { apply (is_derive_Sum (length tau) (fun k => polyval (lagrange tau k)) (fun k _ => if Nat.eqb k j then l else dcoef tau j k)). intros i Hi. destruct (Nat.eqb_spec i j) as [->|Hi']; [exact Hl|].
    rewrite dcoef_off by auto. now apply lagrange_derive; auto. }
  assert (H1 : is_derive (fun t => Sum (length tau) (fun k => polyval (lagrange tau k) t)) (node tau j) 0).
  { apply (is_derive_ext (fun _ => 1)); [intros t; symmetry; apply lagrange_sum1; [exact Hd|lia]|apply der_const]. }
  apply is_derive_unique in Hs. apply is_derive_unique in H1. rewrite H1 in Hs.
  rewrite (Sum_split _ _ j Hj), Nat.eqb_refl in Hs. rewrite dcoef_diag by exact Hj. rewrite (map_ext_in _ (dcoef tau j)) in Hs; [lra|].
  intros k Hk'. apply in_others in Hk'. destruct (Nat.eqb_spec k j); [lia|reflexivity].
Qed.
Lemma dcoef_exact (tau : list R) f j : NoDup tau -> (j < length tau)%nat -> PolyLt (length tau) f -> is_derive f (node tau j) (Sum (length tau) (fun k => dcoef tau j k * f (node tau k))).
Proof.
  intros Hd Hj Hf. apply (is_derive_ext (fun t => Sum (length tau) (fun k => f (node tau k) * polyval (lagrange tau k) t))); [intros t; symmetry; now apply lagrange_interp|].
  rewrite (Sum_ext _ _ (fun k => f (node tau k) * dcoef tau j k)) by (intros; ring).
  apply (is_derive_Sum (length tau) (fun k t => f (node tau k) * polyval (lagrange tau k) t) (fun k _ => f (node tau k) * dcoef tau j k)). intros k Hk. apply is_derive_scal. now apply dcoef_derive.
Qed.
Theorem differentiation_matrix (tau : list R) b : basis_ (PVec tau) = Ok b -> NoDup tau ->
  nr (b_D b) = length tau /\ nc (b_D b) = length tau /\
  (forall f j, PolyLt (length tau) f -> (j < length tau)%nat -> is_derive f (node tau j) (Sum (length tau) (fun k => at_m (b_D b) j k * f (node tau k)))) /\
  (forall j, (j < length tau)%nat -> Sum (length tau) (fun k => at_m (b_D b) j k) = 0).
Proof.
  intros Hb Hd. assert (Hn : tau <> []) by (intros ->; discriminate). rewrite (basis_eq tau Hn) in Hb. injection Hb as <-. cbn [b_D nr nc at_m]. fold (dcoef tau).
  split; [reflexivity|]. split; [reflexivity|]. split; [intros; now apply dcoef_exact|]. intros j Hj. now apply dcoef_row_sum.
Qed.

(** ** C46 *)
Lemma compose_row_spec tau b c i : basis_ (PVec tau) = Ok b -> forall n, (n <= length tau)%nat ->
  exists q, fold_left (fun q j => let* q := q in match nth_error (b_poly b) j with Some p => Ok (polyadd q (polyscale (at_m c i j) p)) | None => Err EIndex end) (seq 0 n) (Ok (poly1d_ [n0])) = Ok q /\
    forall t, polyval q t = Sum n (fun j => at_m c i j * polyval (nth j (b_poly b) []) t).
Proof.
  intros Hb n. assert (Hn : tau <> []) by (intros ->; discriminate). rewrite (basis_eq tau Hn) in Hb. injection Hb as <-. cbn [b_poly].
  induction n as [|n IH]; intros L.
  - eexists. split; [reflexivity|]. intros t. rewrite poly1d_val. unfold polyval. simpl. rnum. lra.
  - destruct IH as (q & Eq & Hq); [lia|]. rewrite seq_S, fold_left_app, Eq. cbn [fold_left rbind]. replace (0 + n)%nat with n by lia.
    rewrite (nth_error_nth' _ []) by (rewrite map_length, seq_length; lia). eexists. split; [reflexivity|]. intros t. rewrite polyadd_val, polyscale_val, Hq. reflexivity.
Qed.
Theorem compose_spec tau b c : basis_ (PVec tau) = Ok b -> NoDup tau -> (nc c <= length tau)%nat ->
  exists q, compose b c = Ok q /\ length q = nr c /\
    forall i, (i < nr c)%nat ->
      (forall t, polyval (nth i q []) t = Sum (nc c) (fun j => at_m c i j * polyval (nth j (b_poly b) []) t)) /\
      (forall k, (k < length tau)%nat -> polyval (nth i q []) (node tau k) = if (k <? nc c)%nat then at_m c i k else 0).
Proof.
  intros Hb Hd Hc. unfold compose.
  destruct (rmapM_Forall2 (compose_row b c) (fun i q => forall t, polyval q t = Sum (nc c) (fun j => at_m c i j * polyval (nth j (b_poly b) []) t)) (seq 0 (nr c))) as (q & Eq & Hq).
  { intros i _. destruct (compose_row_spec tau b c i Hb (nc c) Hc) as (q & E & H). exists q. auto. }
  exists q. split; [exact Eq|]. pose proof (Forall2_len _ _ _ Hq) as HL. rewrite seq_length in HL. split; [auto|]. intros i Hi.
  assert (H : forall t, polyval (nth i q []) t = Sum (nc c) (fun j => at_m c i j * polyval (nth j (b_poly b) []) t)).
  { pose proof (Forall2_nth' _ _ _ 0%nat [] i Hq) as H. rewrite seq_length, seq_nth in H by exact Hi. apply H, Hi. }
  split; [exact H|]. intros k Hk. rewrite H. destruct (basis_lagrange tau b Hb Hd) as (_ & _ & Hdel & _). destruct (Nat.ltb_spec k (nc c)) as [Hkc|Hkc].
  - rewrite (Sum_single _ k _ Hkc); [rewrite Hdel, Nat.eqb_refl by lia; ring|]. intros j Hj Hjk. rewrite Hdel by lia. destruct (Nat.eqb_spec j k); [contradiction|ring].
  - apply Sum_0. intros j Hj. rewrite Hdel by lia. destruct (Nat.eqb_spec j k); [lia|ring].
Qed.
Theorem compose_too_wide tau b c : basis_ (PVec tau) = Ok b -> (length tau < nc c)%nat -> (0 < nr c)%nat -> compose b c = Err EIndex.
Proof.
  intros Hb Hc Hr. unfold compose. destruct (nr c) as [|m]; [lia|]. cbn [seq rmapM]. assert (E : compose_row b c 0 = Err EIndex); [|now rewrite E].
  unfold compose_row. replace (nc c) with (length tau + S (nc c - length tau - 1))%nat by lia. rewrite seq_app, fold_left_app.
  destruct (compose_row_spec tau b c 0 Hb (length tau) (Nat.le_refl _)) as (q & Eq & _). rewrite Eq. cbn [seq fold_left rbind].
  assert (Hn : tau <> []) by (intros ->; discriminate). rewrite (basis_eq tau Hn) in Hb. injection Hb as <-. cbn [b_poly].
  replace (nth_error (map (lagrange tau) (seq 0 (length tau))) (0 + length tau)) with (@None (list R)) by (symmetry; apply nth_error_None; rewrite map_length, seq_length; lia).
  generalize (seq (S (0 + length tau)) (nc c - length tau - 1)). intros l. induction l; simpl; auto.
Qed.
