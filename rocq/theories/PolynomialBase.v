(** The model's polynomials over the real numbers: evaluation of products, sums,
    quotients and integrals; Lagrange polynomials. *)
From Coq Require Import Reals Lra.
From Coquelicot Require Import Coquelicot.
From Verif Require Import PyBase NumModel NumInst PolynomialModel PolySpec PolyMath.
Open Scope R_scope.

Ltac rnum := cbn [n0 n1 nadd nsub nmul ndiv nopp neqb nltb nof nceil numR] in *.
Lemma Req_b_iff x y : Req_b x y = true <-> x = y.
Proof. unfold Req_b. destruct (Req_EM_T x y); split; congruence. Qed.
Lemma Rlt_b_iff x y : Rlt_b x y = true <-> x < y.
Proof. unfold Rlt_b. destruct (Rlt_dec x y); split; try congruence; intros; lra. Qed.

(** ** Sums and products of lists *)
Definition lsum (l : list R) : R := fold_right Rplus 0 l.
Definition lprod (l : list R) : R := fold_right Rmult 1 l.
Lemma fold_left_sum {B} (f : B -> R) l a : fold_left (fun a k => a + f k) l a = a + lsum (map f l).
Proof. revert a. induction l as [|b l IH]; intros a; simpl; [lra|]. rewrite IH. lra. Qed.
Lemma nsuml_lsum l : nsuml l = lsum l.
Proof.
  unfold nsuml. rnum. assert (H : forall a, fold_left Rplus l a = a + lsum l); [|rewrite H; lra].
  induction l as [|b l IH]; intros a; simpl; [lra|]. rewrite IH. lra.
Qed.
Lemma fold_left_prod l a : fold_left Rmult l a = a * lprod l.
Proof. revert a. induction l as [|b l IH]; intros a; simpl; [lra|]. rewrite IH. lra. Qed.
Lemma nprodl_lprod l : nprodl l = lprod l.
Proof. unfold nprodl. rnum. rewrite fold_left_prod. lra. Qed.
Lemma lsum_app l l' : lsum (l ++ l') = lsum l + lsum l'.
Proof. induction l; simpl; [lra|]. rewrite IHl. lra. Qed.
Lemma lsum_seq f n : lsum (map f (seq 0 n)) = Sum n f.
Proof. induction n as [|n IH]; [reflexivity|]. rewrite seq_S, map_app, lsum_app, IH. simpl. lra. Qed.
Lemma nsum_Sum n f : nsum n f = Sum n f.
Proof. unfold nsum. rnum. rewrite fold_left_sum, lsum_seq. lra. Qed.
Lemma lsum_filter {B} (f : B -> R) p l : lsum (map f (filter p l)) = lsum (map (fun i => if p i then f i else 0) l).
Proof. induction l as [|b l IH]; [reflexivity|]. simpl. destruct (p b); simpl; rewrite IH; lra. Qed.
Lemma lprod_zero l : In 0 l -> lprod l = 0.
Proof. induction l as [|a l IH]; intros []; simpl; [subst; lra|]. rewrite IH by assumption. lra. Qed.
Lemma lprod_nonzero l : ~ In 0 l -> lprod l <> 0.
Proof.
  induction l as [|a l IH]; intros H; simpl; [lra|]. intros E. apply Rmult_integral in E. destruct E as [E|E]; [apply H; left; now rewrite E|].
  apply IH; [intros K; apply H; now right|exact E].
Qed.

(** ** Evaluation *)
Lemma polyval_snoc p a x : polyval (p ++ [a]) x = polyval p x * x + a.
Proof. unfold polyval. rewrite fold_left_app. reflexivity. Qed.
Lemma polyval_peval p x : polyval p x = peval (rev p) x.
Proof.
  induction p as [|a p IH] using rev_ind; [reflexivity|]. rewrite polyval_snoc, rev_app_distr, IH. simpl. lra.
Qed.
Lemma polyval_cons a p x : polyval (a :: p) x = a * x ^ length p + polyval p x.
Proof. rewrite !polyval_peval. simpl rev. rewrite peval_app, rev_length. simpl. lra. Qed.
Lemma trim_val l x : polyval (trim_front l) x = polyval l x.
Proof.
  induction l as [|a l IH]; [reflexivity|]. simpl trim_front. rnum. destruct (Req_b a 0) eqn:E; [|reflexivity]. apply Req_b_iff in E. subst a.
  rewrite polyval_cons, IH. lra.
Qed.
Lemma poly1d_val l x : polyval (poly1d_ l) x = polyval l x.
Proof.
  unfold poly1d_. rewrite <- (trim_val l x). destruct (trim_front l); [|reflexivity]. unfold polyval. simpl. rnum. ring.
Qed.
Lemma trim_len (l : list R) : (length (trim_front l) <= length l)%nat.
Proof. induction l as [|a l IH]; [simpl; lia|]. cbn [trim_front]. destruct (neqb a n0); simpl; lia. Qed.
Lemma poly1d_len (l : list R) : (1 <= length (poly1d_ l) <= Nat.max 1 (length l))%nat.
Proof. unfold poly1d_. pose proof (trim_len l). destruct (trim_front l); cbn [length] in *; lia. Qed.
Lemma polyval_Sum l x : polyval l x = Sum (length l) (fun i => vget l i * x ^ (length l - 1 - i)).
Proof.
  induction l as [|a l IH]; [reflexivity|]. rewrite polyval_cons, IH. simpl length. rewrite Sum_S. unfold vget. simpl nth. f_equal.
  - f_equal. f_equal. lia.
  - apply Sum_ext. intros k Hk. f_equal. f_equal. lia.
Qed.
Lemma vget_map_seq (g : nat -> R) n i : (i < n)%nat -> vget (map g (seq 0 n)) i = g i.
Proof.
  intros H. unfold vget. rewrite (nth_indep _ _ (g 0%nat)) by (rewrite map_length, seq_length; exact H). rewrite map_nth, seq_nth by exact H. reflexivity.
Qed.
Lemma Sum_window m K i f : (i + m <= K)%nat -> Sum K (fun k => if ((i <=? k)%nat && (k - i <? m)%nat)%bool then f (k - i)%nat else 0) = Sum m f.
Proof.
  intros H. replace K with (i + (m + (K - i - m)))%nat by lia. rewrite Sum_app, Sum_app.
  rewrite (Sum_0 i). 2:{ intros k Hk. destruct (i <=? k)%nat eqn:E; [apply Nat.leb_le in E; lia|reflexivity]. }
  rewrite (Sum_0 (K - i - m)). 2:{ intros k Hk. replace (i + (m + k) - i <? m)%nat with false; [now rewrite andb_false_r|]. symmetry. apply Nat.ltb_ge. lia. }
  rewrite Rplus_0_r, Rplus_0_l. apply Sum_ext. intros k Hk. replace (i <=? i + k)%nat with true by (symmetry; apply Nat.leb_le; lia).
  replace (i + k - i)%nat with k by lia. replace (k <? m)%nat with true by (symmetry; apply Nat.ltb_lt; lia). reflexivity.
Qed.
Lemma convolve_val a b x : polyval (convolve a b) x = polyval a x * polyval b x.
Proof.
  rewrite polyval_Sum. unfold convolve at 1. rewrite map_length, seq_length. set (n := length a). set (m := length b). set (K := (n + m - 1)%nat).
  transitivity (Sum K (fun k => Sum n (fun i => if ((i <=? k)%nat && (k - i <? m)%nat)%bool then vget a i * vget b (k - i) * (x ^ (n - 1 - i) * x ^ (m - 1 - (k - i))) else 0))).
  - apply Sum_ext. intros k Hk. unfold convolve. rewrite map_length, seq_length. fold n m K. rewrite vget_map_seq by exact Hk. rewrite nsuml_lsum, lsum_filter, lsum_seq, <- Sum_scal_r.
    apply Sum_ext. intros i Hi. rnum. destruct (i <=? k)%nat eqn:E1; simpl; [|lra]. destruct (k - i <? m)%nat eqn:E2; simpl; [|lra].
    apply Nat.leb_le in E1. apply Nat.ltb_lt in E2. rewrite <- pow_add. f_equal. f_equal. lia.
  - rewrite Sum_swap. rewrite (polyval_Sum a), (polyval_Sum b). fold n m. rewrite <- Sum_scal_r. apply Sum_ext. intros i Hi.
    rewrite <- (Sum_scal m). rewrite <- (Sum_window m K i) by lia. apply Sum_ext. intros k _. destruct ((i <=? k)%nat && (k - i <? m)%nat)%bool; [ring|reflexivity].
Qed.
Lemma polymul_val a b x : polyval (polymul a b) x = polyval a x * polyval b x.
Proof. unfold polymul. now rewrite poly1d_val, convolve_val. Qed.
Lemma polyval_map f c l x : (forall a, f a = c * a) -> polyval (map f l) x = c * polyval l x.
Proof. intros H. induction l as [|a l IH]; [unfold polyval; simpl; rnum; lra|]. cbn [map]. rewrite !polyval_cons, IH, map_length, H. lra. Qed.
Lemma polydivs_val a s x : polyval (polydivs a s) x = polyval a x / s.
Proof. unfold polydivs. rewrite poly1d_val, (polyval_map _ (/ s)); [unfold Rdiv; ring|]. intros b. rnum. unfold Rdiv. ring. Qed.
Lemma polyscale_val c p x : polyval (polyscale c p) x = c * polyval p x.
Proof. unfold polyscale. rewrite poly1d_val. now apply polyval_map. Qed.
Lemma pad_val k a x : polyval (pad_front k a) x = polyval a x.
Proof. unfold pad_front. induction (k - length a)%nat as [|j IH]; [reflexivity|]. cbn [repeat app]. rewrite polyval_cons, IH. rnum. lra. Qed.
Lemma pad_len k (a : list R) : (length a <= k)%nat -> length (pad_front k a) = k.
Proof. intros H. unfold pad_front. rewrite app_length, repeat_length. lia. Qed.
Lemma polyadd_val a b x : polyval (polyadd a b) x = polyval a x + polyval b x.
Proof.
  unfold polyadd. rewrite poly1d_val, <- (pad_val (Nat.max (length a) (length b)) a), <- (pad_val (Nat.max (length a) (length b)) b). set (n := Nat.max (length a) (length b)).
  rewrite (polyval_Sum (map _ _)), (polyval_Sum (pad_front n a)), (polyval_Sum (pad_front n b)), map_length, seq_length, !pad_len by (subst n; lia). rewrite <- Sum_plus. apply Sum_ext. intros k Hk.
  rewrite vget_map_seq by exact Hk. rnum. ring.
Qed.
(** [polyint p] is an antiderivative of [p] vanishing at 0. *)
Lemma polyint_derive p x : is_derive (polyval (polyint p)) x (polyval p x).
Proof.
  apply (is_derive_ext (fun x => Sum (length p) (fun i => vget p i * (/ INR (length p - i) * x ^ (length p - i))))).
  - intros t. unfold polyint. rewrite poly1d_val, polyval_snoc, polyval_Sum, map_length, seq_length. rnum. rewrite Rplus_0_r, <- Sum_scal_r. apply Sum_ext. intros i Hi.
    rewrite vget_map_seq by exact Hi. replace (length p - i)%nat with (S (length p - 1 - i)) at 2 by lia. cbn [pow]. unfold Rdiv. ring.
  - rewrite polyval_Sum. apply (is_derive_Sum (length p) (fun i x => vget p i * (/ INR (length p - i) * x ^ (length p - i))) (fun i x => vget p i * x ^ (length p - 1 - i))).
    intros i Hi. apply is_derive_scal. replace (length p - i)%nat with (S (length p - 1 - i)) by lia. set (k := (length p - 1 - i)%nat).
    evar_last; [apply is_derive_scal, is_derive_pow, is_derive_id|]. cbn [Init.Nat.pred]. unfold one. cbn -[INR]. field. apply not_0_INR. lia.
Qed.
Lemma polyint_0 p : polyval (polyint p) 0 = 0.
Proof. unfold polyint. rewrite poly1d_val, polyval_snoc. rnum. lra. Qed.
Lemma polyval_poly p : PolyLt (length p) (polyval p).
Proof. exists (rev p). split; [rewrite rev_length; lia|]. intros t. apply polyval_peval. Qed.

(** ** Lagrange polynomials *)
Definition others (n j : nat) : list nat := filter (fun r => negb (Nat.eqb r j)) (seq 0 n).
Lemma in_others n j r : In r (others n j) <-> (r < n)%nat /\ r <> j.
Proof. unfold others. rewrite filter_In, in_seq, negb_true_iff, Nat.eqb_neq. intuition lia. Qed.
Lemma lagrange_val tau j t : polyval (lagrange tau j) t = lprod (map (fun r => (t - node tau r) / (node tau j - node tau r)) (others (length tau) j)).
Proof.
  unfold lagrange, others. assert (H : forall l pp, polyval (fold_left (fun pp r => if negb (Nat.eqb r j) then polymul pp (polydivs (poly1d_ [n1; (- vget tau r)%num]) (vget tau j - vget tau r)%num) else pp) l pp) t =
    polyval pp t * lprod (map (fun r => (t - node tau r) / (node tau j - node tau r)) (filter (fun r => negb (Nat.eqb r j)) l))).
  { induction l as [|r l IH]; intros pp; [simpl; ring|]. cbn [fold_left filter]. rewrite IH. destruct (negb (Nat.eqb r j)); [|reflexivity]. cbn [map]. rewrite polymul_val, polydivs_val, poly1d_val.
    replace (polyval [n1; (- vget tau r)%num] t) with (t - node tau r) by (unfold polyval, node, vget; cbn [fold_left]; rnum; ring). change (lprod (?a :: ?l)) with (a * lprod l). unfold node, vget. rnum. ring. }
  rewrite H, poly1d_val. unfold polyval. simpl. rnum. ring.
Qed.
Lemma lprod_lin_poly {B} (g h : B -> R) l : PolyLt (S (length l)) (fun t => lprod (map (fun r => (t - g r) / h r) l)).
Proof.
  induction l as [|r l IH]; simpl; [apply PolyLt_const|]. apply (PolyLt_ext _ (fun t => / h r * ((t - g r) * lprod (map (fun r => (t - g r) / h r) l)))); [intros; unfold Rdiv; ring|].
  apply PolyLt_scal, PolyLt_lin, IH.
Qed.
Lemma filter_length_split {B} (p : B -> bool) l : (length (filter p l) + length (filter (fun x => negb (p x)) l) = length l)%nat.
Proof. induction l as [|b l IH]; [reflexivity|]. simpl. destruct (p b); simpl; lia. Qed.
Lemma filter_eq_seq n j a : (a <= j < a + n)%nat -> filter (fun r => Nat.eqb r j) (seq a n) = [j].
Proof.
  revert a. induction n as [|n IH]; intros a H; [lia|]. simpl. destruct (Nat.eqb_spec a j) as [->|Ha].
  - f_equal. assert (K : forall k b, (j < b)%nat -> filter (fun r => Nat.eqb r j) (seq b k) = []).
    { induction k as [|k IHk]; intros b Hb; [reflexivity|]. simpl. destruct (Nat.eqb_spec b j); [lia|]. apply IHk. lia. }
    apply K. lia.
  - apply IH. lia.
Qed.
Lemma others_len n j : (j < n)%nat -> length (others n j) = (n - 1)%nat.
Proof.
  intros H. unfold others. pose proof (filter_length_split (fun r => Nat.eqb r j) (seq 0 n)) as E. rewrite (filter_eq_seq n j 0) in E by lia. rewrite seq_length in E. simpl in E. lia.
Qed.
Lemma lagrange_poly tau j : (j < length tau)%nat -> PolyLt (length tau) (polyval (lagrange tau j)).
Proof.
  intros H. apply (PolyLt_ext _ (fun t => lprod (map (fun r => (t - node tau r) / (node tau j - node tau r)) (others (length tau) j)))); [intros; now rewrite lagrange_val|].
  eapply PolyLt_mon; [|apply lprod_lin_poly]. rewrite others_len; lia.
Qed.
Lemma node_inj tau i j : NoDup tau -> (i < length tau)%nat -> (j < length tau)%nat -> node tau i = node tau j -> i = j.
Proof. intros Hd Hi Hj E. apply (proj1 (NoDup_nth tau 0) Hd); auto. Qed.
Lemma node_in tau x : In x tau <-> exists i, (i < length tau)%nat /\ node tau i = x.
Proof. split; [intros H; apply (In_nth tau x 0) in H; destruct H as (i & Hi & E); now exists i|intros (i & Hi & <-); now apply nth_In]. Qed.
Lemma lagrange_delta tau j k : NoDup tau -> (j < length tau)%nat -> (k < length tau)%nat -> polyval (lagrange tau j) (node tau k) = if Nat.eqb j k then 1 else 0.
Proof.
  intros Hd Hj Hk. rewrite lagrange_val. destruct (Nat.eqb_spec j k) as [->|Hn].
  - rewrite (map_ext_in _ (fun _ => 1)).
    + induction (others (length tau) k); simpl; [reflexivity|lra].
    + intros r Hr. apply in_others in Hr. field. intros E. apply (proj2 Hr). apply (node_inj tau); auto; [apply Hr|lra].
  - apply lprod_zero. apply in_map_iff. exists k. split; [unfold Rdiv; ring|]. apply in_others. auto.
Qed.
(** Interpolation: a polynomial of degree < n is determined by its values at the nodes. *)
Lemma lagrange_interp tau f : NoDup tau -> PolyLt (length tau) f -> forall t, f t = Sum (length tau) (fun j => f (node tau j) * polyval (lagrange tau j) t).
Proof.
  intros Hd Hf. apply (poly_unique (length tau) f _ tau Hf); auto.
  - apply (PolyLt_Sum (length tau) (length tau) (fun j t => f (node tau j) * polyval (lagrange tau j) t)). intros k Hk. now apply PolyLt_scal, lagrange_poly.
  - intros a Ha. apply node_in in Ha. destruct Ha as (k & Hk & <-). rewrite (Sum_single _ k); [|exact Hk|].
    + rewrite lagrange_delta, Nat.eqb_refl by auto. lra.
    + intros j Hj Hn. rewrite lagrange_delta by auto. destruct (Nat.eqb_spec j k); [contradiction|lra].
Qed.
Lemma lagrange_sum1 tau t : NoDup tau -> (0 < length tau)%nat -> Sum (length tau) (fun j => polyval (lagrange tau j) t) = 1.
Proof.
  intros Hd Hn. pose proof (lagrange_interp tau (fun _ => 1) Hd) as H. symmetry. rewrite H with (t := t) at 1; [apply Sum_ext; intros; lra|].
  destruct (length tau); [lia|apply PolyLt_const].
Qed.
