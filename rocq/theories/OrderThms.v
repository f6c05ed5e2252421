(** The order of the tableaux (C93) and the invariants of the dynamics (C94). *)
From Coq Require Import Reals Lra.
From Coquelicot Require Import Coquelicot.
From Verif Require Import PyBase IndexModel DMModel DMProofs StructModel StructSpec PowerModel EntryModel StructsModel IneqModel DaeModel StructsSpec StructsThms11 NumModel NumInst NumSpec PolynomialModel PiecewiseModel PdqModel SchemeModel
  PolySpec PiecewiseSpec PdqSpec SchemeSpec PolyMath PolynomialBase PolynomialThms PolynomialThms2 PiecewiseThms PdqThms PdqThms2 SchemeThms SchemeThms2 SchemeThms3 OrderSpec OrderMath.
Open Scope R_scope.

(** ** The order of a tableau *)
Lemma rk_exact tau A b : RungeKutta tau A b -> ExactLt tau b (length tau).
Proof. intros H f Pf. apply (H f Pf). Qed.
Theorem tableau_order tau tb k : NoDup tau -> butcher_points tau = Ok tb -> ExactLt tau (node (tb_b tb)) (length tau + k) <-> Ortho tau k.
Proof.
  intros Hd Htb. apply order_iff; [exact Hd|]. destruct (butcher_exact tau Hd) as (tb' & E & _ & _ & _ & _ & H). rewrite Htb in E. injection E as <-. intros f Pf. apply (H f Pf).
Qed.
Theorem tableau_order_max tau tb : NoDup tau -> butcher_points tau = Ok tb -> ~ ExactLt tau (node (tb_b tb)) (2 * length tau + 1).
Proof. intros Hd _. now apply order_max. Qed.
Theorem tableau_weights tau tb : NoDup tau -> (1 <= length tau)%nat -> butcher_points tau = Ok tb -> Ortho tau (length tau - 1) -> forall j, (j < length tau)%nat -> 0 < node (tb_b tb) j.
Proof. intros Hd Hn Htb Ho. apply weights_pos; [exact Hd|exact Hn|]. replace (2 * length tau - 1)%nat with (length tau + (length tau - 1))%nat by lia. now apply tableau_order. Qed.

(** ** Quadratic forms *)
Lemma quad_ext n S v w v' w' : (forall i, (i < n)%nat -> v i = v' i) -> (forall i, (i < n)%nat -> w i = w' i) -> quad n S v w = quad n S v' w'.
Proof. intros Hv Hw. unfold quad. apply Sum_ext. intros i Hi. apply Sum_ext. intros j Hj. now rewrite Hv, Hw. Qed.
Lemma quad_scal_l n S h v w : quad n S (fun i => h * v i) w = h * quad n S v w.
Proof. unfold quad. rewrite <- Sum_scal. apply Sum_ext. intros i Hi. rewrite <- Sum_scal. apply Sum_ext. intros j Hj. ring. Qed.
Lemma quad_scal_r n S h v w : quad n S v (fun i => h * w i) = h * quad n S v w.
Proof. unfold quad. rewrite <- Sum_scal. apply Sum_ext. intros i Hi. rewrite <- Sum_scal. apply Sum_ext. intros j Hj. ring. Qed.
Lemma quad_plus n S v w v' w' : quad n S v w + quad n S v' w' = Sum n (fun i => Sum n (fun j => S i j * (v i * w j + v' i * w' j))).
Proof. unfold quad. rewrite <- Sum_plus. apply Sum_ext. intros i Hi. rewrite <- Sum_plus. apply Sum_ext. intros j Hj. ring. Qed.
Lemma fin_choice {A} (d : A) (P : nat -> A -> Prop) m : (forall i, (i < m)%nat -> exists a, P i a) -> exists f, forall i, (i < m)%nat -> P i (f i).
Proof.
  induction m as [|m IH]; intros H; [exists (fun _ => d); intros i Hi; lia|]. destruct IH as (f & Hf); [intros i Hi; apply H; lia|]. destruct (H m) as (a & Ha); [lia|].
  exists (fun i => if Nat.eqb i m then a else f i). intros i Hi. destruct (Nat.eqb_spec i m) as [->|Hne]; [exact Ha|]. apply Hf. lia.
Qed.
(** The polynomials through the stages of one step *)
Definition StepPoly (tau : list R) (A : nat -> nat -> R) (b : nat -> R) (h x0 : R) (k : nat -> R) (G D : R -> R) : Prop :=
  PolyLt (S (length tau)) G /\ PolyLt (length tau) D /\ (forall s, is_derive G s (D s)) /\ G 0 = x0 /\ G 1 = x0 + h * Sum (length tau) (fun l => b l * k l) /\
  forall j, (j < length tau)%nat -> G (node tau j) = x0 + h * Sum (length tau) (fun l => A j l * k l) /\ D (node tau j) = h * k j.
Lemma step_poly tau A b h x0 k : RungeKutta tau A b -> NoDup tau -> exists GD, StepPoly tau A b h x0 k (fst GD) (snd GD).
Proof.
  intros HR Hd. destruct (stage_traj tau A b (fun l => h * k l) 0 1 x0 HR Hd ltac:(lra)) as (G & PG & G0 & G1 & GJ). destruct (PolyLt_derive _ _ PG) as (D & PD & DG).
  assert (E : forall c, Sum (length tau) (fun l => c l * (h * k l)) = h * Sum (length tau) (fun l => c l * k l)) by (intros c; rewrite <- Sum_scal; apply Sum_ext; intros; ring).
  exists (G, D). cbn [fst snd]. split; [exact PG|]. split; [exact PD|]. split; [exact DG|]. split; [exact G0|]. split; [rewrite <- E; rewrite <- (Rmult_1_l (Sum _ _)), <- G1; f_equal; ring|].
  intros j Hj. destruct (GJ j Hj) as [H1 H2]. rewrite Rmult_1_l, Rplus_0_l in H1, H2. rewrite E, Rmult_1_l in H1. split; [exact H1|]. rewrite <- (is_derive_unique _ _ _ (DG (node tau j))). exact (is_derive_unique _ _ _ H2).
Qed.
Lemma top n f : PolyLt (S n) f -> exists a g, PolyLt n g /\ forall x, f x = a * x ^ n + g x.
Proof.
  intros Pf. destruct (PolyLt_len _ _ Pf) as (c & Hc & E). destruct (exists_last (l := c)) as (c' & a & ->); [destruct c; discriminate|]. rewrite app_length in Hc. simpl in Hc.
  exists a, (peval c'). split; [exists c'; split; [lia|reflexivity]|]. intros x. rewrite E, peval_app. replace (length c') with n by lia. simpl. ring.
Qed.
Lemma PolyLt_pow n : PolyLt (S n) (fun x => x ^ n).
Proof. exists (repeat 0 n ++ [1]). split; [rewrite app_length, repeat_length; simpl; lia|]. intros x. rewrite peval_app, peval_zeros, repeat_length. simpl. ring. Qed.
(** Leading coefficients of a polynomial and its derivative *)
Lemma top_der n G D : PolyLt (S (S n)) G -> (forall s, is_derive G s (D s)) -> exists a g d, PolyLt (S n) g /\ PolyLt n d /\ (forall x, G x = a * x ^ S n + g x) /\ forall x, D x = INR (S n) * a * x ^ n + d x.
Proof.
  intros PG HD. destruct (top _ _ PG) as (a & g & Pg & Eg). destruct (PolyLt_derive _ _ Pg) as (d & Pd & Hd). exists a, g, d. split; [exact Pg|]. split; [exact Pd|]. split; [exact Eg|].
  intros x. assert (H : is_derive G x (INR (S n) * a * x ^ n + d x)).
  { apply (is_derive_ext (fun x => a * x ^ S n + g x)); [intros; now rewrite Eg|]. apply (is_derive_plus (V := R_NormedModule)); [|apply Hd]. auto_derive; [exact I|]. replace (pred (S n)) with n by reflexivity. simpl. ring. }
  rewrite <- (is_derive_unique _ _ _ (HD x)). exact (is_derive_unique _ _ _ H).
Qed.

Section Step.
Context (tau : list R) (b : nat -> R) (m : nat) (S_ : nat -> nat -> R) (G D : nat -> R -> R).
Notation M := (length tau).
Context (Hd : NoDup tau) (HM : (1 <= M)%nat) (PG : forall i, (i < m)%nat -> PolyLt (S M) (G i)) (PD : forall i, (i < m)%nat -> PolyLt M (D i)) (HD : forall i s, (i < m)%nat -> is_derive (G i) s (D i s)).
Let E x := quad m S_ (fun i => G i x) (fun i => G i x).
Let rate x := quad m S_ (fun i => D i x) (fun i => G i x) + quad m S_ (fun i => G i x) (fun i => D i x).

Lemma rate_poly : PolyLt (M + M) rate.
Proof.
  apply (PolyLt_ext _ (fun x => Sum m (fun i => Sum m (fun j => S_ i j * (D i x * G j x + G i x * D j x))))); [intros x; unfold rate; now rewrite quad_plus|].
  apply (PolyLt_Sum _ _ (fun i x => Sum m (fun j => S_ i j * (D i x * G j x + G i x * D j x)))). intros i Hi. apply (PolyLt_Sum _ _ (fun j x => S_ i j * (D i x * G j x + G i x * D j x))). intros j Hj.
  apply PolyLt_scal, PolyLt_plus; [apply (PolyLt_ext _ (fun x => G j x * D i x)); [intros; ring|]|]; apply PolyLt_mul; auto.
Qed.
Lemma rate_int : is_RInt rate 0 1 (E 1 - E 0).
Proof.
  apply (is_RInt_poly _ _ E 0 1 rate_poly). intros x. unfold rate. rewrite quad_plus. unfold E, quad. apply (is_derive_Sum m (fun i x => Sum m (fun j => S_ i j * (G i x * G j x))) (fun i x => Sum m (fun j => S_ i j * (D i x * G j x + G i x * D j x)))). intros i Hi.
  apply (is_derive_Sum m (fun j x => S_ i j * (G i x * G j x)) (fun j x => S_ i j * (D i x * G j x + G i x * D j x))). intros j Hj.
  apply (is_derive_scal (fun x => G i x * G j x) x (S_ i j)). evar_last; [apply (is_derive_mult (K := R_AbsRing)); [apply HD; exact Hi|apply HD; exact Hj|intros; apply Rmult_comm]|]. unfold plus, mult. simpl. ring.
Qed.
Lemma step_gauss : ExactLt tau b (M + M) -> E 1 = E 0 + Sum M (fun j => b j * rate (node tau j)).
Proof. intros He. pose proof (int_unique _ _ _ _ _ rate_int (He _ rate_poly)). lra. Qed.
Lemma rate_top : PSD m S_ -> exists L r, 0 <= L /\ PolyLt (M + (M - 1)) r /\ forall x, rate x = L * x ^ (M + (M - 1)) + r x.
Proof.
  intros HS. destruct M as [|n] eqn:EM; [lia|].
  assert (forall i, (i < m)%nat -> exists q : R * (R -> R) * (R -> R), PolyLt (S n) (snd (fst q)) /\ PolyLt n (snd q) /\ (forall x, G i x = fst (fst q) * x ^ S n + snd (fst q) x) /\ forall x, D i x = INR (S n) * fst (fst q) * x ^ n + snd q x) as H.
  { intros i Hi. destruct (top_der n (G i) (D i) (PG i Hi) (fun s => HD i s Hi)) as (a & g & d & H). now exists (a, g, d). }
  apply (fin_choice (0, (fun _ => 0), (fun _ => 0))) in H as (q & Hq). set (a i := fst (fst (q i))). set (g i := snd (fst (q i))). set (d i := snd (q i)).
  replace (S n + (S n - 1))%nat with (S (n + n)) by lia.
  exists (INR (S n) * (quad m S_ a a + quad m S_ a a)), (fun x => Sum m (fun i => Sum m (fun j => S_ i j * (INR (S n) * a i * (x ^ n * g j x) + d i x * (a j * x ^ S n) + d i x * g j x + (INR (S n) * a j * (x ^ n * g i x) + d j x * (a i * x ^ S n) + d j x * g i x))))).
  split; [|split].
  - apply Rmult_le_pos; [apply pos_INR|]. pose proof (HS a). lra.
  - apply (PolyLt_Sum _ _ (fun i x => Sum m (fun j => _))). intros i Hi. apply (PolyLt_Sum _ _ (fun j x => S_ i j * _)). intros j Hj. apply PolyLt_scal.
    destruct (Hq i Hi) as (Pgi & Pdi & _). destruct (Hq j Hj) as (Pgj & Pdj & _). fold (g i) in Pgi. fold (g j) in Pgj. fold (d i) in Pdi. fold (d j) in Pdj.
    assert (P1 : forall i, PolyLt (S n) (g i) -> PolyLt (S (n + n)) (fun x => x ^ n * g i x)). { intros k Hk. apply (PolyLt_mon (n + S n)); [lia|]. apply PolyLt_mul; [apply PolyLt_pow|exact Hk]. }
    assert (P2 : forall i c, PolyLt n (d i) -> PolyLt (S (n + n)) (fun x => d i x * (c * x ^ S n))).
    { intros k c Hk. apply (PolyLt_ext _ (fun x => (c * x ^ S n) * d k x)); [intros; ring|]. apply (PolyLt_mon (S n + n)); [lia|]. apply PolyLt_mul; [apply PolyLt_scal, PolyLt_pow|exact Hk]. }
    assert (P3 : forall i j, PolyLt n (d i) -> PolyLt (S n) (g j) -> PolyLt (S (n + n)) (fun x => d i x * g j x)).
    { intros k l Hk Hl. apply (PolyLt_ext _ (fun x => g l x * d k x)); [intros; ring|]. apply (PolyLt_mon (n + n)); [lia|]. now apply PolyLt_mul. }
    repeat apply PolyLt_plus; try apply PolyLt_scal; auto.
  - intros x. unfold rate. rewrite quad_plus. rewrite (Rmult_comm (INR (S n) * _)), <- Rmult_assoc. rewrite quad_plus. rewrite <- Sum_scal, <- Sum_plus. apply Sum_ext. intros i Hi. rewrite <- Sum_scal, <- Sum_plus. apply Sum_ext. intros j Hj.
    destruct (Hq i Hi) as (_ & _ & Gi & Di). destruct (Hq j Hj) as (_ & _ & Gj & Dj). fold (a i) (g i) in Gi. fold (a i) (d i) in Di. fold (a j) (g j) in Gj. fold (a j) (d j) in Dj. rewrite Gi, Di, Gj, Dj.
    replace (x ^ S (n + n)) with (x ^ n * x ^ S n) by (rewrite <- pow_add; f_equal; lia). ring.
Qed.
Lemma step_radau : In 1 tau -> PSD m S_ -> ExactLt tau b (M + (M - 1)) -> E 1 <= E 0 + Sum M (fun j => b j * rate (node tau j)).
Proof.
  intros H1 HS He. destruct (rate_top HS) as (L & r & HL & Pr & Er). destruct (in_split _ _ H1) as (l1 & l2 & El). set (l := l1 ++ l2). set (P x := nodal tau x * nodal l x).
  assert (Ell : length (tau ++ l) = (M + (M - 1))%nat) by (rewrite app_length; unfold l; rewrite El, !app_length; simpl; lia).
  destruct (nodal_monic (tau ++ l)) as (w & Pw & Ew). rewrite Ell in Pw, Ew.
  assert (PP : PolyLt (S (M + (M - 1))) P). { pose proof (nodal_poly (tau ++ l)) as H. rewrite Ell in H. apply (PolyLt_ext _ _ _ (nodal_app tau l) H). }
  destruct (int_ex _ _ 0 1 PP) as (I & HI).
  assert (HI0 : 0 <= - I). { apply (int_nonneg (S (M + (M - 1))) (fun x => (-1) * P x) (- I) 0 1); [lra|now apply PolyLt_scal| |].
    - intros x Hx. unfold P. replace (nodal tau x) with ((x - 1) * nodal l x) by (rewrite El; unfold l; rewrite !nodal_app; simpl; ring). assert (0 <= (1 - x) * (nodal l x * nodal l x)) by (apply Rmult_le_pos; [lra|nra]). nra.
    - replace (- I) with (-1 * I) by ring. apply (is_RInt_scal (V := R_NormedModule) P 0 1 (-1) I HI). }
  set (v x := r x + L * (-1 * w x)). assert (Pv : PolyLt (M + (M - 1)) v) by (apply PolyLt_plus; [exact Pr|now apply PolyLt_scal, PolyLt_scal]).
  assert (Ev : forall x, rate x = L * P x + 1 * v x). { intros x. rewrite Er. unfold P, v. rewrite <- nodal_app, Ew. ring. }
  pose proof (int_lin P v L 1 0 1 _ _ HI (He _ Pv)) as HR. apply (int_ext _ rate) in HR; [|intros x; now rewrite Ev]. pose proof (int_unique _ _ _ _ _ rate_int HR) as Eq.
  assert (Es : Sum M (fun j => b j * v (node tau j)) = Sum M (fun j => b j * rate (node tau j))). { apply Sum_ext. intros j Hj. rewrite Ev. unfold P. rewrite (proj2 (nodal_zero tau _) (node_in tau j Hj)). ring. }
  rewrite Es in Eq. assert (0 <= L * - I) by (now apply Rmult_le_pos). nra.
Qed.
End Step.

(** ** One interval of a scheme *)
Section RK.
Context (tau : list R) (A : nat -> nat -> R) (b : nat -> R) (m : nat) (S_ : nat -> nat -> R) (h : R) (x0 : nat -> R) (k : nat -> nat -> R).
Notation M := (length tau).
Context (Hd : NoDup tau) (HM : (1 <= M)%nat) (HR : RungeKutta tau A b).
Let x1 i := x0 i + h * Sum M (fun l => b l * k i l).
Let xs j i := x0 i + h * Sum M (fun l => A j l * k i l).
Let pw j := quad m S_ (fun i => k i j) (xs j) + quad m S_ (xs j) (fun i => k i j).
Lemma rk_poly : exists G D : nat -> R -> R, forall i, (i < m)%nat -> StepPoly tau A b h (x0 i) (k i) (G i) (D i).
Proof.
  assert (H : forall i, (i < m)%nat -> exists GD, StepPoly tau A b h (x0 i) (k i) (fst GD) (snd GD)) by (intros i Hi; now apply step_poly).
  apply (fin_choice ((fun _ => 0), (fun _ => 0))) in H as (q & Hq). exists (fun i => fst (q i)), (fun i => snd (q i)). exact Hq.
Qed.
Lemma rk_rates G D : (forall i, (i < m)%nat -> StepPoly tau A b h (x0 i) (k i) (G i) (D i)) ->
  Sum M (fun j => b j * (quad m S_ (fun i => D i (node tau j)) (fun i => G i (node tau j)) + quad m S_ (fun i => G i (node tau j)) (fun i => D i (node tau j)))) = h * Sum M (fun j => b j * pw j).
Proof.
  intros H. rewrite <- Sum_scal. apply Sum_ext. intros j Hj. unfold pw.
  rewrite (quad_ext m S_ (fun i => D i (node tau j)) (fun i => G i (node tau j)) (fun i => h * k i j) (xs j)), (quad_ext m S_ (fun i => G i (node tau j)) (fun i => D i (node tau j)) (xs j) (fun i => h * k i j)); try (intros i Hi; destruct (H i Hi) as (_ & _ & _ & _ & _ & HJ); now apply HJ).
  rewrite quad_scal_l, quad_scal_r. ring.
Qed.
Lemma rk_ends G D : (forall i, (i < m)%nat -> StepPoly tau A b h (x0 i) (k i) (G i) (D i)) ->
  quad m S_ (fun i => G i 0) (fun i => G i 0) = quad m S_ x0 x0 /\ quad m S_ (fun i => G i 1) (fun i => G i 1) = quad m S_ x1 x1.
Proof. intros H. split; apply quad_ext; intros i Hi; destruct (H i Hi) as (_ & _ & _ & H0 & H1 & _); assumption. Qed.
Lemma rk_gauss : Ortho tau M -> quad m S_ x1 x1 = quad m S_ x0 x0 + h * Sum M (fun j => b j * pw j).
Proof.
  intros Ho. destruct rk_poly as (G & D & H). rewrite <- (rk_rates G D H). destruct (rk_ends G D H) as [<- <-].
  apply step_gauss; [intros i Hi; apply H; exact Hi|intros i Hi; apply H; exact Hi|intros i s Hi; apply H; exact Hi|]. now apply order_iff; [|apply (rk_exact tau A b)|].
Qed.
Lemma rk_radau : In 1 tau -> PSD m S_ -> Ortho tau (M - 1) -> quad m S_ x1 x1 <= quad m S_ x0 x0 + h * Sum M (fun j => b j * pw j).
Proof.
  intros H1 HS Ho. destruct rk_poly as (G & D & H). rewrite <- (rk_rates G D H). destruct (rk_ends G D H) as [<- <-].
  apply step_radau; [exact HM|intros i Hi; apply H; exact Hi|intros i Hi; apply H; exact Hi|intros i s Hi; apply H; exact Hi|exact H1|exact HS|]. now apply order_iff; [|apply (rk_exact tau A b)|].
Qed.
Lemma rk_weights : Ortho tau (M - 1) -> forall j, (j < M)%nat -> 0 < b j.
Proof. intros Ho. apply weights_pos; [exact Hd|exact HM|]. replace (2 * M - 1)%nat with (M + (M - 1))%nat by lia. now apply order_iff; [|apply (rk_exact tau A b)|]. Qed.
End RK.
Lemma rk_unique tau A b A' b' : NoDup tau -> RungeKutta tau A b -> RungeKutta tau A' b' -> forall l, (l < length tau)%nat -> b l = b' l /\ forall j, (j < length tau)%nat -> A j l = A' j l.
Proof.
  intros Hd H H' l Hl. pose proof (lagrange_poly tau l Hl) as P.
  assert (E : forall c, Sum (length tau) (fun j => c j * polyval (lagrange tau l) (node tau j)) = c l).
  { intros c. rewrite (Sum_single _ l _ Hl); [rewrite lagrange_delta, Nat.eqb_refl by (auto; lia); ring|]. intros a Ha Hn. rewrite lagrange_delta by (auto; lia). destruct (Nat.eqb_spec l a); [congruence|ring]. }
  destruct (H _ P) as [H1 H2], (H' _ P) as [H1' H2']. rewrite E in H2, H2'. split; [exact (int_unique _ _ _ _ _ H2 H2')|]. intros j Hj. specialize (H1 j Hj). specialize (H1' j Hj). rewrite E in H1, H1'. exact (int_unique _ _ _ _ _ H1 H1').
Qed.
Lemma ortho_mon tau k l : (l <= k)%nat -> Ortho tau k -> Ortho tau l.
Proof. intros H Ho q Pq. apply Ho. now apply (PolyLt_mon l). Qed.
Lemma sum_le n f g : (forall k, (k < n)%nat -> f k <= g k) -> Sum n f <= Sum n g.
Proof. induction n as [|n IH]; simpl; intros H; [lra|]. pose proof (IH (fun k Hk => H k ltac:(lia))). pose proof (H n ltac:(lia)). lra. Qed.

(** ** Schemes *)
Section Scheme.
Context (f : daefun R) (t tau : list R) (M : nat) (A : nat -> nat -> R) (b : nat -> R) (rep : bool) (g : option (R -> mat R)) (x K Z u p : mat R).
Context (HM : length tau = M) (H1 : (1 <= M)%nat) (Hd : NoDup tau) (HR : RungeKutta tau A b) (HC : CollocationEqs f t tau M A b rep g x K Z u p).
Notation N := (ivals t).
Notation st n j := (stage t tau M A rep g x K Z u p n j).

Lemma stage_fed n j : (n < N)%nat -> (j < M)%nat -> Solves f (st n j) /\ Fed f t u p (st n j).
Proof.
  intros Hn Hj. destruct HC as (C1 & _ & C3). split; [intros r Hr; now apply C1|]. exists n. split; [exact Hn|]. split; [reflexivity|]. intros i Hi. cbn [stage a_p]. destruct rep; [|reflexivity].
  apply C3; [reflexivity|exact Hi| |]; clear - Hn Hj; nia.
Qed.
Lemma core_lin w n : (n < N)%nat -> lin f w (col x (n + 1)) = lin f w (col x n) + step t n * Sum M (fun l => b l * lin f w (a_xdot (st n l))).
Proof.
  intros Hn. destruct HC as (_ & C2 & _). unfold lin, col.
  rewrite (Sum_ext (f_nx f) (fun i => w i * at_m x i (n + 1)) (fun i => w i * at_m x i n + step t n * (w i * Sum M (fun l => b l * at_m K i (n * M + l)%nat)))) by (intros i Hi; rewrite <- (C2 n i Hn Hi); ring).
  rewrite Sum_plus, Sum_scal. do 2 f_equal. rewrite (Sum_ext _ (fun i => w i * _) (fun i => Sum M (fun l => b l * (w i * at_m K i (n * M + l)%nat)))) by (intros i Hi; rewrite <- Sum_scal; apply Sum_ext; intros; ring).
  rewrite Sum_swap. apply Sum_ext. intros l Hl. rewrite Sum_scal. reflexivity.
Qed.
Lemma core_lin_x w n j : lin f w (stage_x t M A x K n j) = lin f w (col x n) + step t n * Sum M (fun l => A j l * lin f w (a_xdot (st n l))).
Proof.
  unfold lin, col, stage_x.
  rewrite (Sum_ext (f_nx f) _ (fun i => w i * at_m x i n + step t n * (w i * Sum M (fun l => A j l * at_m K i (n * M + l)%nat)))) by (intros i Hi; ring).
  rewrite Sum_plus, Sum_scal. do 2 f_equal. rewrite (Sum_ext _ (fun i => w i * _) (fun i => Sum M (fun l => A j l * (w i * at_m K i (n * M + l)%nat)))) by (intros i Hi; rewrite <- Sum_scal; apply Sum_ext; intros; ring).
  rewrite Sum_swap. apply Sum_ext. intros l Hl. rewrite Sum_scal. reflexivity.
Qed.
Lemma core_end n : (n < N)%nat -> forall S_, energy f S_ x (n + 1) = quad (f_nx f) S_ (fun i => at_m x i n + step t n * Sum (length tau) (fun l => b l * at_m K i (n * M + l)%nat)) (fun i => at_m x i n + step t n * Sum (length tau) (fun l => b l * at_m K i (n * M + l)%nat)).
Proof. intros Hn S_. unfold energy. rewrite HM. destruct HC as (_ & C2 & _). apply quad_ext; intros i Hi; symmetry; now apply C2. Qed.
Lemma core_eq S_ n : (n < N)%nat -> Ortho tau M -> energy f S_ x (n + 1) = energy f S_ x n + step t n * Sum M (fun l => b l * power f S_ (st n l)).
Proof.
  intros Hn Ho. rewrite core_end by exact Hn. rewrite (rk_gauss tau A b (f_nx f) S_ (step t n) (fun i => at_m x i n) (fun i l => at_m K i (n * M + l)%nat)); [|exact Hd|exact HR|rewrite HM; exact Ho]. rewrite HM. reflexivity.
Qed.
Lemma core_le S_ n : (n < N)%nat -> Stable f tau S_ -> energy f S_ x (n + 1) <= energy f S_ x n + step t n * Sum M (fun l => b l * power f S_ (st n l)).
Proof.
  intros Hn [Ho|(Ho & Hone & HS)]; [rewrite core_eq; [lra|exact Hn|now rewrite <- HM]|]. rewrite core_end by exact Hn.
  eapply Rle_trans; [apply (rk_radau tau A b (f_nx f) S_ (step t n) (fun i => at_m x i n) (fun i l => at_m K i (n * M + l)%nat)); [exact Hd|rewrite HM; exact H1|exact HR|exact Hone|exact HS|exact Ho]|]. rewrite HM. apply Rle_refl.
Qed.
Lemma stable_pos S_ : Stable f tau S_ -> forall j, (j < M)%nat -> 0 < b j.
Proof.
  intros HS j Hj. apply (rk_weights tau A b Hd); [rewrite HM; exact H1|exact HR| |rewrite HM; exact Hj]. destruct HS as [Ho|[Ho _]]; [|exact Ho]. apply (ortho_mon _ (length tau)); [lia|exact Ho].
Qed.
Lemma core_bound S_ n (rate : nat -> R) : Asc t -> (n < N)%nat -> Stable f tau S_ -> (forall l, (l < M)%nat -> power f S_ (st n l) <= rate l) -> energy f S_ x (n + 1) <= energy f S_ x n + step t n * Sum M (fun l => b l * rate l).
Proof.
  intros Ha Hn HS Hr. eapply Rle_trans; [now apply core_le|]. apply Rplus_le_compat_l, Rmult_le_compat_l.
  - unfold step. pose proof (Ha n (n + 1)%nat ltac:(unfold ivals in Hn; lia)). lra.
  - apply sum_le. intros l Hl. apply Rmult_le_compat_l; [apply Rlt_le; now apply (stable_pos S_)|now apply Hr].
Qed.
End Scheme.

Section Main.
Context (cspts : nat -> string -> res (list R)) (f : daefun R) (t : list R) (order : nat) (method : string) (tau : list R) (g : option (R -> mat R)) (rep : bool) (x K Z u p : mat R).
Context (HP : Points cspts order method tau) (HL : (2 <= length t)%nat) (HD : DaeOk f) (HT : TdpOk f g) (HV : VarsOk f (ivals t) order rep x K Z u p).
Notation N := (ivals t).
Notation sch := (scheme_ cspts f t order method g rep x K Z u p).
Context (s : scheme R) (e : list R) (Es : sch = Ok s) (Ee : veccat_master (sc_eq s) = Ok e) (Hz : forall v, In v e -> v = 0).

Lemma main_eqs : exists A b, RungeKutta tau A b /\ CollocationEqs f t tau order A b rep g x K Z u p /\
  (forall i n j, (i < f_nx f)%nat -> (n < N)%nat -> (j < order)%nat -> at_m (sc_X s) i (n * order + j) = stage_x t order A x K n j i) /\
  (forall i, (i < f_nq f)%nat -> at_m (sc_q s) i 0 = 0) /\
  (forall i n, (i < f_nq f)%nat -> (n < N)%nat -> at_m (sc_q s) i (n + 1) = at_m (sc_q s) i n + step t n * Sum order (fun l => b l * f_quad f (stage t tau order A rep g x K Z u p n l) i)) /\
  (forall i n j, (i < f_nq f)%nat -> (n < N)%nat -> (j < order)%nat -> at_m (sc_Q s) i (n * order + j) = at_m (sc_q s) i n + step t n * Sum order (fun l => A j l * f_quad f (stage t tau order A rep g x K Z u p n l) i)).
Proof.
  destruct HP as (_ & Hd & Hlen & H1). destruct (scheme_equations cspts f t order method tau g rep x K Z u p HP HL HD HT HV) as (s1 & A & b & e1 & E1 & HR & _ & HX & _ & _ & _ & _ & Ee1 & He1). rewrite Es in E1. injection E1 as <-. rewrite Ee in Ee1. injection Ee1 as <-.
  destruct (scheme_quadratures cspts f t order method tau g rep x K Z u p HP HL HD HT HV) as (s2 & A2 & b2 & E2 & HR2 & _ & Hq & _ & Hq0 & Hqn & _ & HQ). rewrite Es in E2. injection E2 as <-.
  pose proof (rk_unique tau A b A2 b2 Hd HR HR2) as U. rewrite Hlen in U. exists A, b. split; [exact HR|]. split; [now apply He1|]. split; [exact HX|]. split; [exact Hq0|].
  assert (Q : forall i n j, (n < N)%nat -> (j < order)%nat -> at_m (sc_quad s) i (n * order + j) = f_quad f (stage t tau order A rep g x K Z u p n j) i).
  { intros i n j Hn Hj. rewrite Hq by assumption. destruct HD as (_ & D2 & _). apply D2. repeat split; intros; cbn; try reflexivity. unfold stage_x. do 2 f_equal. apply Sum_ext. intros l Hl. now rewrite (proj2 (U l Hl) j Hj). }
  split; [intros i n Hi Hn; rewrite Hqn by assumption|intros i n j Hi Hn Hj; rewrite HQ by assumption]; do 2 f_equal; apply Sum_ext; intros l Hl; rewrite Q by assumption; f_equal; symmetry; apply (U l Hl); assumption.
Qed.

(** *** Linear *)
Theorem linear_balance w r : (r < f_nq f)%nat -> (forall a, Solves f a -> Fed f t u p a -> lin f w (a_xdot a) = f_quad f a r) ->
  (forall n, (n <= N)%nat -> lin f w (col x n) = lin f w (col x 0) + at_m (sc_q s) r n) /\
  (forall n j, (n < N)%nat -> (j < order)%nat -> lin f w (col (sc_X s) (n * order + j)) = lin f w (col x 0) + at_m (sc_Q s) r (n * order + j)).
Proof.
  intros Hr Hw. destruct HP as (_ & Hd & Hlen & H1). destruct main_eqs as (A & b & HR & HC & HX & Q0 & Qn & QQ).
  assert (C : forall n, (n <= N)%nat -> lin f w (col x n) = lin f w (col x 0) + at_m (sc_q s) r n).
  { induction n as [|n IH]; intros Hn; [rewrite Q0 by exact Hr; ring|]. replace (S n) with (n + 1)%nat by lia. rewrite (core_lin f t tau order A b rep g x K Z u p HC w n) by lia. rewrite IH by lia. rewrite Qn by (assumption || lia).
    rewrite Rplus_assoc. do 3 f_equal. apply Sum_ext. intros l Hl. f_equal. destruct (stage_fed f t tau order A b rep g x K Z u p HC n l ltac:(lia) Hl). now apply Hw. }
  split; [exact C|]. intros n j Hn Hj. transitivity (lin f w (stage_x t order A x K n j)); [unfold lin, col; apply Sum_ext; intros i Hi; now rewrite HX|].
  rewrite (core_lin_x f t tau order A rep g x K Z u p w n j), C by lia. rewrite QQ by assumption. rewrite Rplus_assoc. do 3 f_equal. apply Sum_ext. intros l Hl. f_equal. destruct (stage_fed f t tau order A b rep g x K Z u p HC n l ltac:(lia) Hl). now apply Hw.
Qed.
Theorem linear_invariant w : (forall a, Solves f a -> Fed f t u p a -> lin f w (a_xdot a) = 0) ->
  (forall n, (n <= N)%nat -> lin f w (col x n) = lin f w (col x 0)) /\ (forall n j, (n < N)%nat -> (j < order)%nat -> lin f w (col (sc_X s) (n * order + j)) = lin f w (col x 0)).
Proof.
  intros Hw. destruct HP as (_ & Hd & Hlen & H1). destruct main_eqs as (A & b & HR & HC & HX & _).
  assert (W : forall n l, (n < N)%nat -> (l < order)%nat -> lin f w (a_xdot (stage t tau order A rep g x K Z u p n l)) = 0) by (intros n l Hn Hl; destruct (stage_fed f t tau order A b rep g x K Z u p HC n l Hn Hl); now apply Hw).
  assert (C : forall n, (n <= N)%nat -> lin f w (col x n) = lin f w (col x 0)).
  { induction n as [|n IH]; intros Hn; [reflexivity|]. replace (S n) with (n + 1)%nat by lia. rewrite (core_lin f t tau order A b rep g x K Z u p HC w n) by lia. rewrite IH by lia. rewrite Sum_0; [ring|]. intros l Hl. rewrite W by (assumption || lia). ring. }
  split; [exact C|]. intros n j Hn Hj. transitivity (lin f w (stage_x t order A x K n j)); [unfold lin, col; apply Sum_ext; intros i Hi; now rewrite HX|].
  rewrite (core_lin_x f t tau order A rep g x K Z u p w n j), C by lia. rewrite Sum_0; [ring|]. intros l Hl. rewrite W by (assumption || lia). ring.
Qed.
(** *** Quadratic *)
Theorem quadratic_balance S_ r : Ortho tau order -> (r < f_nq f)%nat -> (forall a, Solves f a -> Fed f t u p a -> power f S_ a = f_quad f a r) ->
  forall n, (n <= N)%nat -> energy f S_ x n = energy f S_ x 0 + at_m (sc_q s) r n.
Proof.
  intros Ho Hr Hw. destruct HP as (_ & Hd & Hlen & H1). destruct main_eqs as (A & b & HR & HC & HX & Q0 & Qn & QQ).
  induction n as [|n IH]; intros Hn; [rewrite Q0 by exact Hr; ring|]. replace (S n) with (n + 1)%nat by lia. rewrite (core_eq f t tau order A b rep g x K Z u p Hlen Hd HR HC S_ n) by (assumption || lia). rewrite IH by lia. rewrite Qn by (assumption || lia).
  rewrite Rplus_assoc. do 3 f_equal. apply Sum_ext. intros l Hl. f_equal. destruct (stage_fed f t tau order A b rep g x K Z u p HC n l ltac:(lia) Hl). now apply Hw.
Qed.
Theorem quadratic_invariant S_ : Ortho tau order -> (forall a, Solves f a -> Fed f t u p a -> power f S_ a = 0) -> forall n, (n <= N)%nat -> energy f S_ x n = energy f S_ x 0.
Proof.
  intros Ho Hw. destruct HP as (_ & Hd & Hlen & H1). destruct main_eqs as (A & b & HR & HC & HX & _).
  induction n as [|n IH]; intros Hn; [reflexivity|]. replace (S n) with (n + 1)%nat by lia. rewrite (core_eq f t tau order A b rep g x K Z u p Hlen Hd HR HC S_ n) by (assumption || lia). rewrite IH by lia.
  rewrite Sum_0; [ring|]. intros l Hl. destruct (stage_fed f t tau order A b rep g x K Z u p HC n l ltac:(lia) Hl). rewrite Hw by assumption. ring.
Qed.
(** *** Dissipation *)
Theorem dissipation S_ r : Asc t -> Stable f tau S_ -> (r < f_nq f)%nat -> (forall a, Solves f a -> Fed f t u p a -> power f S_ a <= f_quad f a r) ->
  forall n, (n <= N)%nat -> energy f S_ x n <= energy f S_ x 0 + at_m (sc_q s) r n.
Proof.
  intros Ha HS Hr Hw. destruct HP as (_ & Hd & Hlen & H1). destruct main_eqs as (A & b & HR & HC & HX & Q0 & Qn & QQ).
  induction n as [|n IH]; intros Hn; [rewrite Q0 by exact Hr; lra|]. replace (S n) with (n + 1)%nat by lia. rewrite Qn by (assumption || lia).
  pose proof (core_bound f t tau order A b rep g x K Z u p Hlen H1 Hd HR HC S_ n (fun l => f_quad f (stage t tau order A rep g x K Z u p n l) r) Ha ltac:(lia) HS) as B.
  assert (H : forall l, (l < order)%nat -> power f S_ (stage t tau order A rep g x K Z u p n l) <= f_quad f (stage t tau order A rep g x K Z u p n l) r). { intros l Hl. destruct (stage_fed f t tau order A b rep g x K Z u p HC n l ltac:(lia) Hl). now apply Hw. }
  specialize (B H). specialize (IH ltac:(lia)). lra.
Qed.
Theorem energy_decay S_ : Asc t -> Stable f tau S_ -> (forall a, Solves f a -> Fed f t u p a -> power f S_ a <= 0) ->
  forall n m, (n <= m <= N)%nat -> energy f S_ x m <= energy f S_ x n.
Proof.
  intros Ha HS Hw. destruct HP as (_ & Hd & Hlen & H1). destruct main_eqs as (A & b & HR & HC & HX & _).
  assert (C : forall n, (n < N)%nat -> energy f S_ x (n + 1) <= energy f S_ x n).
  { intros n Hn. pose proof (core_bound f t tau order A b rep g x K Z u p Hlen H1 Hd HR HC S_ n (fun l => 0) Ha Hn HS) as B. cbv beta in B. rewrite (Sum_0 order (fun l => b l * 0)) in B by (intros; ring).
    enough (energy f S_ x (n + 1) <= energy f S_ x n + step t n * 0) by lra. apply B. intros l Hl. destruct (stage_fed f t tau order A b rep g x K Z u p HC n l Hn Hl). now apply Hw. }
  intros n m. induction m as [|m IH]; intros Hm; [replace n with 0%nat by lia; lra|]. destruct (Nat.eq_dec n (S m)) as [->|]; [lra|]. specialize (IH ltac:(lia)). specialize (C m ltac:(lia)). replace (m + 1)%nat with (S m) in C by lia. lra.
Qed.
End Main.

(** *** Two solutions *)
Section Two.
Context (cspts : nat -> string -> res (list R)) (f : daefun R) (t : list R) (order : nat) (method : string) (tau : list R) (g : option (R -> mat R)) (rep : bool) (x K Z x' K' Z' u p : mat R).
Context (HP : Points cspts order method tau) (HL : (2 <= length t)%nat) (HD : DaeOk f) (HT : TdpOk f g) (HV : VarsOk f (ivals t) order rep x K Z u p) (HV' : VarsOk f (ivals t) order rep x' K' Z' u p).
Notation N := (ivals t).
Context (s s' : scheme R) (e e' : list R).
Context (Es : scheme_ cspts f t order method g rep x K Z u p = Ok s) (Ee : veccat_master (sc_eq s) = Ok e) (Hz : forall v, In v e -> v = 0).
Context (Es' : scheme_ cspts f t order method g rep x' K' Z' u p = Ok s') (Ee' : veccat_master (sc_eq s') = Ok e') (Hz' : forall v, In v e' -> v = 0).
Theorem contraction S_ : Asc t -> Stable f tau S_ -> Monotone f S_ -> forall n m, (n <= m <= N)%nat -> dist f S_ x x' m <= dist f S_ x x' n.
Proof.
  intros Ha HS Hmon. destruct HP as (_ & Hd & Hlen & H1).
  destruct (main_eqs cspts f t order method tau g rep x K Z u p HP HL HD HT HV s e Es Ee Hz) as (A & b & HR & HC & _). destruct (main_eqs cspts f t order method tau g rep x' K' Z' u p HP HL HD HT HV' s' e' Es' Ee' Hz') as (A' & b' & HR' & HC' & _).
  pose proof (rk_unique tau A b A' b' Hd HR HR') as U. rewrite Hlen in U.
  set (dx := Mat (f_nx f) (N + 1) (fun i n => at_m x i n - at_m x' i n)). set (dK := Mat (f_nx f) (N * order) (fun i n => at_m K i n - at_m K' i n)).
  set (zf := DaeFun (f_nx f) 0 0 0 0 0 0 (fun _ => true) (fun _ _ => 0) (fun _ _ => 0) : daefun R).
  assert (C : CollocationEqs zf t tau order A b false None dx dK dx dx dx).
  { split; [intros n j r Hn Hj Hr; reflexivity|]. split; [|discriminate]. intros n i Hn Hi. cbn [dx at_m f_nx zf] in *. destruct HC as (_ & C2 & _), HC' as (_ & C2' & _). rewrite <- (C2 n i Hn Hi), <- (C2' n i Hn Hi).
    rewrite (Sum_ext order (fun l => b' l * _) (fun l => b l * at_m K' i (n * order + l)%nat)) by (intros l Hl; now rewrite (proj1 (U l Hl))).
    cbn [dK at_m]. rewrite (Sum_ext order (fun l => b l * (_ - _)) (fun l => b l * at_m K i (n * order + l)%nat - b l * at_m K' i (n * order + l)%nat)) by (intros; ring). rewrite Sum_minus. ring. }
  assert (B : forall n, (n < N)%nat -> dist f S_ x x' (n + 1) <= dist f S_ x x' n).
  { intros n Hn. change (energy zf S_ dx (n + 1) <= energy zf S_ dx n).
    pose proof (core_bound zf t tau order A b false None dx dK dx dx dx Hlen H1 Hd HR C S_ n (fun l => 0) Ha Hn HS) as B. cbv beta in B. rewrite (Sum_0 order (fun l => b l * 0)) in B by (intros; ring).
    enough (energy zf S_ dx (n + 1) <= energy zf S_ dx n + step t n * 0) by lra. apply B. intros j Hj.
    destruct (stage_fed f t tau order A b rep g x K Z u p HC n j Hn Hj) as [S1 (n1 & _ & _ & P1)]. destruct (stage_fed f t tau order A' b' rep g x' K' Z' u p HC' n j Hn Hj) as [S2 (n2 & _ & _ & P2)].
    pose proof (Hmon _ _ S1 S2) as Hm. assert (SI : SameInput f (stage t tau order A rep g x K Z u p n j) (stage t tau order A' rep g x' K' Z' u p n j)) by (repeat split; intros; cbn; reflexivity). specialize (Hm SI).
    unfold power. cbn [zf f_nx stage a_x a_xdot dK at_m] in *.
    assert (EX : forall i, (i < f_nx f)%nat -> stage_x t order A dx dK n j i = stage_x t order A x K n j i - stage_x t order A' x' K' n j i).
    { intros i Hi. unfold stage_x. cbn [dx dK at_m]. rewrite (Sum_ext order (fun l => A' j l * _) (fun l => A j l * at_m K' i (n * order + l)%nat)) by (intros l Hl; now rewrite (proj2 (U l Hl) j Hj)).
      rewrite (Sum_ext order (fun l => A j l * (_ - _)) (fun l => A j l * at_m K i (n * order + l)%nat - A j l * at_m K' i (n * order + l)%nat)) by (intros; ring). rewrite Sum_minus. ring. }
    eapply Rle_trans; [|exact Hm]. apply Req_le. f_equal; apply quad_ext; (reflexivity || exact EX). }
  intros n m. induction m as [|m IH]; intros Hm; [replace n with 0%nat by lia; lra|]. destruct (Nat.eq_dec n (S m)) as [->|]; [lra|]. specialize (IH ltac:(lia)). specialize (B m ltac:(lia)). replace (m + 1)%nat with (S m) in B by lia. lra.
Qed.
End Two.

(** *** The order of the quadratures of a scheme *)
Lemma exact_moved tau b m (w : R -> R) a h : ExactLt tau b m -> PolyLt m w -> is_RInt w a (a + h) (h * Sum (length tau) (fun l => b l * w (a + h * node tau l))).
Proof.
  intros He Hw. assert (Hv : PolyLt m (fun s => w (a + h * s))) by (apply (PolyLt_ext _ (fun s => w (h * s + a))); [intros; f_equal; ring|now apply PolyLt_comp]).
  pose proof (He _ Hv) as HI. cbv beta in HI. destruct (PolyLt_int _ _ Hw) as (W & _ & _ & DW).
  assert (DV : forall s, is_derive (fun s => W (a + h * s)) s (h * w (a + h * s))).
  { intros s. evar_last. { apply (is_derive_comp (K := R_AbsRing) (V := R_NormedModule) W (fun s => a + h * s)); [apply DW|]. auto_derive; [exact I|reflexivity]. } unfold scal. simpl. unfold mult. simpl. ring. }
  evar_last; [exact (is_RInt_poly m w W a (a + h) Hw DW)|].
  assert (HJ : is_RInt (fun s => h * w (a + h * s)) 0 1 (W (a + h * 1) - W (a + h * 0))). { apply (is_RInt_poly m (fun s => h * w (a + h * s)) (fun s => W (a + h * s))); [now apply PolyLt_scal|exact DV]. }
  pose proof (int_unique _ _ _ _ _ (is_RInt_scal (V := R_NormedModule) _ _ _ h _ HI) HJ) as E. unfold scal in E; simpl in E; unfold mult in E; simpl in E. rewrite Rmult_1_r, Rmult_0_r, Rplus_0_r in E. now symmetry.
Qed.
Section Quad.
Context (cspts : nat -> string -> res (list R)) (f : daefun R) (t : list R) (order : nat) (method : string) (tau : list R) (g : option (R -> mat R)) (rep : bool) (x K Z u p : mat R).
Context (HP : Points cspts order method tau) (HL : (2 <= length t)%nat) (HD : DaeOk f) (HT : TdpOk f g) (HV : VarsOk f (ivals t) order rep x K Z u p).
Context (HA : Asc t) (HU : InUnit tau).
Notation N := (ivals t).
Notation sch := (scheme_ cspts f t order method g rep x K Z u p).
Context (xd xs zs us : nat -> R -> R) (pv : nat -> R).
Context (HS : Sampled f t tau order rep xd xs zs us pv x K Z u p) (HX : forall i, (i < f_nx f)%nat -> PiecewiseC1 t (S order) (xs i) (xd i)).
Theorem quadrature_order k i (w : R -> R) : Ortho tau k -> (i < f_nq f)%nat -> PiecewiseLt t (order + k) w ->
  (forall s, node t 0 < s <= node t N -> f_quad f (dae_at xd xs zs us pv g s) i = w s) ->
  exists s, sch = Ok s /\ forall n, (n <= N)%nat -> is_RInt w (node t 0) (node t n) (at_m (sc_q s) i n).
Proof.
  intros Ho Hi Hw Hq. destruct (scheme_quadratures cspts f t order method tau g rep x K Z u p HP HL HD HT HV) as (s & A & b & E & HR & _ & Hqd & _ & Hq0 & Hq1 & _). exists s. split; [exact E|]. pose proof HP as (_ & Hd & L & _).
  assert (EV : forall n l F, (n < N)%nat -> (l < order)%nat -> (forall s, node t n < s <= node t (n + 1) -> w s = F s) -> at_m (sc_quad s) i (n * order + l) = F (node t n + step t n * node tau l)).
  { intros n l F Hn Hl HF. rewrite Hqd by assumption. destruct HD as (_ & RQ & _). rewrite (RQ _ _ i (stage_args cspts f t order method tau g rep x K Z u p HP HL HV HA HU xd xs zs us pv HS HX A b HR n l Hn Hl)). pose proof (stage_in t tau n l HA HU Hn ltac:(lia)) as Hin. pose proof (bounds_in t n HA Hn). rewrite Hq by (auto; lra). now rewrite HF by exact Hin. }
  induction n as [|n IH]; intros Hn; [rewrite Hq0 by exact Hi; apply (is_RInt_point (V := R_NormedModule))|].
  rewrite <- Nat.add_1_r. rewrite Hq1 by (auto; lia). apply (is_RInt_Chasles (V := R_NormedModule)) with (node t n); [apply IH; lia|].
  destruct (Hw n ltac:(lia)) as (F & PF & EF). pose proof (step_pos t n HA ltac:(lia)) as Hh. apply (is_RInt_ext F).
  { intros v Hv. rewrite Rmin_left, Rmax_right in Hv by (unfold step in Hh; lra). symmetry. apply EF. lra. }
  rewrite <- L in PF. pose proof (exact_moved tau b _ F (node t n) (step t n) (proj2 (order_iff tau b k Hd (rk_exact tau A b HR)) Ho) PF) as H2. replace (node t (n + 1)) with (node t n + step t n) by (unfold step; ring). rewrite L in H2.
  erewrite Sum_ext; [exact H2|]. intros l Hl. cbv beta. rewrite (EV n l F) by (auto; lia). reflexivity.
Qed.
End Quad.
