(** Mathematics of polynomials: root counting, derivatives, integrals. *)
From Coq Require Import Reals List Lra Lia.
From Coquelicot Require Import Coquelicot.
From Verif Require Import PolySpec.
Import ListNotations.
Open Scope R_scope.

(** ** Sums *)
Lemma Sum_ext n f g : (forall k, (k < n)%nat -> f k = g k) -> Sum n f = Sum n g.
Proof. induction n as [|n IH]; simpl; intros H; [reflexivity|]. rewrite IH, H; auto. Qed.
Lemma Sum_plus n f g : Sum n (fun k => f k + g k) = Sum n f + Sum n g.
Proof. induction n; simpl; [lra|]. rewrite IHn. lra. Qed.
Lemma Sum_scal n a f : Sum n (fun k => a * f k) = a * Sum n f.
Proof. induction n; simpl; [lra|]. rewrite IHn. lra. Qed.
Lemma Sum_scal_r n a f : Sum n (fun k => f k * a) = Sum n f * a.
Proof. induction n; simpl; [lra|]. rewrite IHn. lra. Qed.
Lemma Sum_0 n f : (forall k, (k < n)%nat -> f k = 0) -> Sum n f = 0.
Proof. induction n; simpl; intros H; [reflexivity|]. rewrite IHn, H by auto. lra. Qed.
Lemma Sum_opp n f : Sum n (fun k => - f k) = - Sum n f.
Proof. induction n; simpl; [lra|]. rewrite IHn. lra. Qed.
Lemma Sum_minus n f g : Sum n (fun k => f k - g k) = Sum n f - Sum n g.
Proof. induction n; simpl; [lra|]. rewrite IHn. lra. Qed.
Lemma Sum_swap n m f : Sum n (fun i => Sum m (f i)) = Sum m (fun j => Sum n (fun i => f i j)).
Proof.
  induction n as [|n IH]; simpl; [symmetry; apply Sum_0; auto|]. rewrite IH, <- Sum_plus. reflexivity.
Qed.
Lemma Sum_single n j f : (j < n)%nat -> (forall k, (k < n)%nat -> k <> j -> f k = 0) -> Sum n f = f j.
Proof.
  induction n as [|n IH]; intros Hj H; [lia|]. simpl. destruct (Nat.eq_dec j n) as [->|Hn].
  - rewrite Sum_0; [lra|]. intros k Hk. apply H; lia.
  - rewrite IH by (try lia; intros; apply H; lia). rewrite (H n); [lra|lia|lia].
Qed.
Lemma Sum_S n f : Sum (S n) f = f O + Sum n (fun k => f (S k)).
Proof. induction n as [|n IH]; [simpl; lra|]. change (Sum (S (S n)) f) with (Sum (S n) f + f (S n)). rewrite IH. simpl. lra. Qed.
Lemma Sum_app n m f : Sum (n + m) f = Sum n f + Sum m (fun k => f (n + k)%nat).
Proof. induction m as [|m IH]; [rewrite Nat.add_0_r; simpl; lra|]. rewrite Nat.add_succ_r. simpl. rewrite IH. lra. Qed.
Lemma Sum_rev n f : Sum n f = Sum n (fun k => f (n - 1 - k)%nat).
Proof.
  induction n as [|n IH]; [reflexivity|]. rewrite (Sum_S n (fun k => f (S n - 1 - k)%nat)). simpl. rewrite IH.
  rewrite Rplus_comm. f_equal; [f_equal; lia|]. apply Sum_ext. intros k Hk. f_equal. lia.
Qed.

(** ** Polynomial functions *)
Lemma peval_app c d t : peval (c ++ d) t = peval c t + t ^ length c * peval d t.
Proof. induction c as [|a c IH]; simpl; [lra|]. rewrite IH. lra. Qed.
Lemma peval_zeros k t : peval (repeat 0 k) t = 0.
Proof. induction k; simpl; [lra|]. rewrite IHk. lra. Qed.
Lemma peval_pad c k t : peval (c ++ repeat 0 k) t = peval c t.
Proof. rewrite peval_app, peval_zeros. lra. Qed.

Lemma PolyLt_len n f : PolyLt n f -> exists c, length c = n /\ forall t, f t = peval c t.
Proof.
  intros (c & L & H). exists (c ++ repeat 0 (n - length c)). split; [rewrite app_length, repeat_length; lia|].
  intros t. now rewrite peval_pad.
Qed.
Lemma PolyLt_ext n f g : (forall t, f t = g t) -> PolyLt n f -> PolyLt n g.
Proof. intros E (c & L & H). exists c. split; [exact L|]. intros t. now rewrite <- E. Qed.
Lemma PolyLt_mon n m f : (n <= m)%nat -> PolyLt n f -> PolyLt m f.
Proof. intros L (c & Lc & H). exists c. split; [lia|exact H]. Qed.
Lemma PolyLt_peval c : PolyLt (length c) (peval c). Proof. exists c. auto. Qed.
Lemma PolyLt_0 n : PolyLt n (fun _ => 0).
Proof. exists []. split; [simpl; lia|reflexivity]. Qed.
Lemma PolyLt_const n a : PolyLt (S n) (fun _ => a).
Proof. exists [a]. split; [simpl; lia|]. intros t. simpl. lra. Qed.
Fixpoint padd (c d : list R) : list R :=
  match c, d with [], _ => d | _, [] => c | a :: c', b :: d' => (a + b) :: padd c' d' end.
Lemma padd_len c d n : (length c <= n -> length d <= n -> length (padd c d) <= n)%nat.
Proof. revert d n. induction c as [|a c IH]; intros [|b d] n; simpl; try lia. destruct n; [lia|]. intros. specialize (IH d n). lia. Qed.
Lemma padd_eval c d t : peval (padd c d) t = peval c t + peval d t.
Proof. revert d. induction c as [|a c IH]; intros [|b d]; simpl; try lra. rewrite IH. lra. Qed.
Lemma PolyLt_plus n f g : PolyLt n f -> PolyLt n g -> PolyLt n (fun t => f t + g t).
Proof. intros (c & L & H) (d & L' & H'). exists (padd c d). split; [now apply padd_len|]. intros t. now rewrite padd_eval, H, H'. Qed.
Lemma peval_map a c t : peval (map (Rmult a) c) t = a * peval c t.
Proof. induction c; simpl; [lra|]. rewrite IHc. lra. Qed.
Lemma PolyLt_scal n a f : PolyLt n f -> PolyLt n (fun t => a * f t).
Proof. intros (c & L & H). exists (map (Rmult a) c). split; [now rewrite map_length|]. intros t. now rewrite peval_map, H. Qed.
Lemma PolyLt_minus n f g : PolyLt n f -> PolyLt n g -> PolyLt n (fun t => f t - g t).
Proof. intros Hf Hg. apply (PolyLt_ext n (fun t => f t + (-1) * g t)); [intros; lra|]. apply PolyLt_plus; [exact Hf|now apply PolyLt_scal]. Qed.
Lemma PolyLt_Sum n m f : (forall k, (k < m)%nat -> PolyLt n (f k)) -> PolyLt n (fun t => Sum m (fun k => f k t)).
Proof.
  induction m as [|m IH]; intros H; simpl; [apply PolyLt_0|]. apply PolyLt_plus; [apply IH; auto|apply H; lia].
Qed.
Lemma PolyLt_mulx n f : PolyLt n f -> PolyLt (S n) (fun t => t * f t).
Proof. intros (c & L & H). exists (0 :: c). split; [simpl; lia|]. intros t. simpl. rewrite H. lra. Qed.
Lemma PolyLt_lin n f a : PolyLt n f -> PolyLt (S n) (fun t => (t - a) * f t).
Proof.
  intros H. apply (PolyLt_ext _ (fun t => t * f t + (- a) * f t)); [intros; lra|]. apply PolyLt_plus; [now apply PolyLt_mulx|].
  apply (PolyLt_mon n); [lia|]. now apply PolyLt_scal.
Qed.
(** Substituting a linear function. *)
Lemma PolyLt_comp n f a b : PolyLt n f -> PolyLt n (fun t => f (a * t + b)).
Proof.
  intros (c & L & H). apply (PolyLt_ext n (fun t => peval c (a * t + b))); [intros; now rewrite H|]. clear H f. revert n L.
  induction c as [|x c IH]; intros n L; simpl; [apply PolyLt_0|]. destruct n as [|n]; [simpl in L; lia|]. simpl in L.
  specialize (IH n ltac:(lia)). apply PolyLt_plus; [apply PolyLt_const|].
  apply (PolyLt_ext _ (fun t => a * (t * peval c (a * t + b)) + b * peval c (a * t + b))); [intros; lra|].
  apply PolyLt_plus; [now apply PolyLt_scal, PolyLt_mulx|]. apply (PolyLt_mon n); [lia|]. now apply PolyLt_scal.
Qed.
Lemma PolyLt_mul n m f g : PolyLt (S n) f -> PolyLt m g -> PolyLt (n + m) (fun t => f t * g t).
Proof.
  intros (c & L & H) Hg. apply (PolyLt_ext _ (fun t => peval c t * g t)); [intros; now rewrite H|]. clear H f. revert n L.
  induction c as [|x c IH]; intros n L; simpl.
  - apply (PolyLt_ext _ (fun _ => 0)); [intros; lra|apply PolyLt_0].
  - apply (PolyLt_ext _ (fun t => x * g t + t * (peval c t * g t))); [intros; lra|]. apply PolyLt_plus.
    + apply (PolyLt_mon m); [lia|]. now apply PolyLt_scal.
    + destruct n as [|n].
      * simpl in L. assert (c = []) as -> by (destruct c; [reflexivity|simpl in L; lia]). apply (PolyLt_ext _ (fun _ => 0)); [intros; simpl; lra|apply PolyLt_0].
      * simpl in L. apply (PolyLt_mulx (n + m)). apply IH. lia.
Qed.

(** ** Root counting *)
Lemma synth c a : exists q, length q = pred (length c) /\ forall t, peval c t - peval c a = (t - a) * peval q t.
Proof.
  induction c as [|x c (q & L & H)]; [exists []; split; [reflexivity|]; intros; simpl; lra|].
  exists (padd c (map (Rmult a) q)). split.
  - simpl. assert (forall l, (length l <= length c)%nat -> length (padd c l) = length c).
    { clear. induction c as [|y c IH]; intros [|z l] Hl; simpl in *; try lia. rewrite IH; lia. }
    apply H0. rewrite map_length. lia.
  - intros t. simpl. rewrite padd_eval, peval_map. specialize (H t). assert (E : peval c t = peval c a + (t - a) * peval q t) by lra.
    rewrite E. ring.
Qed.
Lemma factor n f a : PolyLt (S n) f -> f a = 0 -> exists g, PolyLt n g /\ forall t, f t = (t - a) * g t.
Proof.
  intros (c & L & H) Ha. destruct (synth c a) as (q & Lq & Hq). exists (peval q). split; [exists q; split; [lia|reflexivity]|].
  intros t. rewrite <- Hq, <- !H, Ha. lra.
Qed.
Lemma roots_zero l : forall n f, PolyLt n f -> NoDup l -> (n <= length l)%nat -> (forall a, In a l -> f a = 0) -> forall t, f t = 0.
Proof.
  induction l as [|a l IH]; intros n f Hp Hd L H t.
  - simpl in L. destruct Hp as (c & Lc & E). assert (c = []) as -> by (destruct c; [reflexivity|simpl in Lc; lia]). apply E.
  - destruct n as [|n]; [apply (IH 0%nat f); auto; [now inversion Hd|lia|intros; apply H; now right]|].
    destruct (factor n f a Hp (H a (or_introl eq_refl))) as (g & Hg & E). rewrite E.
    inversion Hd as [|? ? Hn Hd']; subst. simpl in L. rewrite (IH n g Hg Hd'); [lra|lia|].
    intros b Hb. assert (f b = 0) by (apply H; now right). rewrite E in H0. apply Rmult_integral in H0. destruct H0 as [H0|H0]; [|exact H0].
    exfalso. apply Hn. replace a with b by lra. exact Hb.
Qed.
Lemma poly_unique n f g l : PolyLt n f -> PolyLt n g -> NoDup l -> (n <= length l)%nat -> (forall a, In a l -> f a = g a) -> forall t, f t = g t.
Proof.
  intros Hf Hg Hd L H t. assert (f t - g t = 0); [|lra]. apply (roots_zero l n (fun t => f t - g t)); auto; [now apply PolyLt_minus|].
  intros a Ha. rewrite (H a Ha). lra.
Qed.

(** ** Derivatives and integrals *)
Fixpoint dpeval (c : list R) (t : R) : R := match c with [] => 0 | _ :: c' => peval c' t + t * dpeval c' t end.
Lemma der_const a t : is_derive (fun _ : R => a) t 0.
Proof. exact (is_derive_const (K := R_AbsRing) (V := R_NormedModule) a t). Qed.
Lemma is_derive_peval c t : is_derive (peval c) t (dpeval c t).
Proof.
  induction c as [|a c IH]; simpl; [apply der_const|]. evar_last.
  - apply (is_derive_plus (V := R_NormedModule)); [apply der_const|]. apply (is_derive_mult (fun x => x) (peval c)); [apply is_derive_id|exact IH|apply Rmult_comm].
  - unfold plus, zero, mult, one. simpl. unfold plus, mult. simpl. lra.
Qed.
Lemma dpeval_poly c n : (length c <= S n)%nat -> PolyLt n (dpeval c).
Proof.
  revert n. induction c as [|a c IH]; intros n L; simpl; [apply PolyLt_0|]. simpl in L. apply PolyLt_plus; [exists c; split; [lia|reflexivity]|].
  destruct n as [|n]; [assert (c = []) as -> by (destruct c; [reflexivity|simpl in L; lia]); apply (PolyLt_ext _ (fun _ => 0)); [intros; simpl; lra|apply PolyLt_0]|].
  apply PolyLt_mulx, IH. lia.
Qed.
(** Every polynomial of degree < n+1 has a derivative of degree < n. *)
Lemma PolyLt_derive n f : PolyLt (S n) f -> exists g, PolyLt n g /\ forall t, is_derive f t (g t).
Proof.
  intros (c & L & H). exists (dpeval c). split; [now apply dpeval_poly|]. intros t. apply (is_derive_ext (peval c)); [intros; now rewrite H|apply is_derive_peval].
Qed.
Lemma PolyLt_ex_derive n f t : PolyLt n f -> ex_derive f t.
Proof. intros H. destruct (PolyLt_derive n f (PolyLt_mon n (S n) f ltac:(lia) H)) as (g & _ & D). exists (g t). apply D. Qed.
Lemma PolyLt_continuous n f t : PolyLt n f -> continuous f t.
Proof. intros H. apply (ex_derive_continuous (K := R_AbsRing) (V := R_NormedModule)). now apply (PolyLt_ex_derive n). Qed.
(** ... and an antiderivative. *)
Lemma peval_Sum c t : peval c t = Sum (length c) (fun k => nth k c 0 * t ^ k).
Proof.
  induction c as [|a c IH]; [reflexivity|]. cbn [length]. rewrite Sum_S. cbn [peval nth pow]. rewrite IH. rewrite Rmult_1_r. f_equal. rewrite <- Sum_scal. apply Sum_ext. intros k _. ring.
Qed.
Lemma is_derive_Sum n (f g : nat -> R -> R) t : (forall k, (k < n)%nat -> is_derive (f k) t (g k t)) -> is_derive (fun t => Sum n (fun k => f k t)) t (Sum n (fun k => g k t)).
Proof.
  induction n as [|n IH]; intros H; simpl; [apply der_const|]. apply (is_derive_plus (V := R_NormedModule)); [apply IH; auto|apply H; lia].
Qed.
Lemma PolyLt_int n f : PolyLt n f -> exists F, PolyLt (S n) F /\ F 0 = 0 /\ forall t, is_derive F t (f t).
Proof.
  intros (c & L & H). assert (G : exists F : nat -> R -> R, forall k, PolyLt (S (S k)) (F k) /\ F k 0 = 0 /\ forall t, is_derive (F k) t (t ^ k)).
  { exists (fun k t => / INR (S k) * t ^ S k). intros k. split; [|split].
    - apply PolyLt_scal. exists (repeat 0 (S k) ++ [1]). split; [rewrite app_length, repeat_length; simpl; lia|]. intros t.
      rewrite peval_app, peval_zeros, repeat_length. cbn [peval]. rewrite Rmult_0_r, Rplus_0_r, Rplus_0_l, Rmult_1_r. reflexivity.
    - simpl. lra.
    - intros t. evar_last; [apply is_derive_scal, is_derive_pow, is_derive_id|]. cbn [Init.Nat.pred]. unfold one. cbn -[INR]. field. apply not_0_INR. lia. }
  destruct G as [F G]. exists (fun t => Sum (length c) (fun k => nth k c 0 * F k t)). split; [|split].
  - apply PolyLt_Sum. intros k Hk. apply PolyLt_scal. apply (PolyLt_mon (S (S k))); [lia|apply G].
  - apply Sum_0. intros k _. destruct (G k) as (_ & -> & _). lra.
  - intros t. rewrite H, peval_Sum. apply (is_derive_Sum (length c) (fun k t => nth k c 0 * F k t) (fun k t => nth k c 0 * t ^ k)).
    intros k _. apply is_derive_scal. apply G.
Qed.
Lemma is_RInt_poly n f F a b : PolyLt n f -> (forall t, is_derive F t (f t)) -> is_RInt f a b (F b - F a).
Proof. intros Hf HF. apply (is_RInt_derive (V := R_CompleteNormedModule) F f); [intros; apply HF|intros; now apply (PolyLt_continuous n)]. Qed.
