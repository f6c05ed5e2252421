(** Rounding errors of products, quotients and sums in binary64 (C105). *)
From Coq Require Import Reals Lra Lia.
From Coq Require Import Floats.SpecFloat.
From Flocq Require Import Core Relative Plus_error.
From Verif Require Import PyBase NumModel NumInst PolynomialModel PolySpec PolyMath PolynomialBase F64Spec F64Thms RndSpec.
Open Scope list_scope. Open Scope nat_scope. Open Scope R_scope.
#[local] Existing Instance numF.
Local Instance Hprec' : FLX.Prec_gt_0 53 := eq_refl _.
Notation K := (2 ^ 40)%Z.

(** ** Powers of two *)
Lemma p2_pos n : 0 < 2 ^ n. Proof. apply pow_lt. lra. Qed.
Lemma p2_le n m : (n <= m)%nat -> 2 ^ n <= 2 ^ m. Proof. intros. apply Rle_pow; [lra|assumption]. Qed.
Lemma p2_inv_le n m : (n <= m)%nat -> / 2 ^ m <= / 2 ^ n. Proof. intros H. apply Rinv_le_contravar; [apply p2_pos|now apply p2_le]. Qed.
Lemma p2_bpow n : 2 ^ n = bpow radix2 (Z.of_nat n).
Proof. rewrite bpow_powerRZ. simpl. now rewrite <- pow_powerRZ. Qed.
Lemma p2_inv_bpow n : / 2 ^ n = bpow radix2 (- Z.of_nat n).
Proof. rewrite bpow_opp, p2_bpow. reflexivity. Qed.
Lemma uro_bpow : uro = bpow radix2 (-53). Proof. exact (p2_inv_bpow 53). Qed.
Lemma uro_small : 0 < uro <= / 1000000. Proof. rewrite uro_bpow. simpl. lra. Qed.

(** Absolute value between [2^-b] and [2^b] *)
Definition Mag (b : nat) (x : R) : Prop := / 2 ^ b <= Rabs x <= 2 ^ b.
Lemma Mag_weak a b x : (a <= b)%nat -> Mag a x -> Mag b x.
Proof. intros H [A B]. split; [eapply Rle_trans; [apply p2_inv_le, H|exact A]|eapply Rle_trans; [exact B|now apply p2_le]]. Qed.
Lemma Mag_mul a b x y : Mag a x -> Mag b y -> Mag (a + b) (x * y).
Proof.
  intros [A B] [C D]. unfold Mag. rewrite Rabs_mult, pow_add, Rinv_mult. pose proof (Rinv_0_lt_compat _ (p2_pos a)). pose proof (Rinv_0_lt_compat _ (p2_pos b)). split; apply Rmult_le_compat; try lra; apply Rabs_pos.
Qed.
Lemma Mag_neq b x : Mag b x -> x <> 0.
Proof. intros [A _] ->. rewrite Rabs_R0 in A. pose proof (Rinv_0_lt_compat _ (p2_pos b)). lra. Qed.
Lemma Mag_inv b x : Mag b x -> Mag b (/ x).
Proof.
  intros H. pose proof (Mag_neq _ _ H) as N. destruct H as [A B]. unfold Mag. rewrite Rabs_inv. pose proof (p2_pos b). assert (0 < Rabs x) by now apply Rabs_pos_lt. split.
  - now apply Rinv_le_contravar.
  - rewrite <- (Rinv_inv (2 ^ b)). apply Rinv_le_contravar; [now apply Rinv_0_lt_compat|exact A].
Qed.
Lemma Mag_div a b x y : Mag a x -> Mag b y -> Mag (a + b) (x / y).
Proof. intros A B. apply Mag_mul; [exact A|now apply Mag_inv]. Qed.
Lemma Mag_1 : Mag 0 1. Proof. unfold Mag. rewrite Rabs_R1. simpl. lra. Qed.
Lemma Mag_opp b x : Mag b x -> Mag b (- x). Proof. unfold Mag. now rewrite Rabs_Ropp. Qed.

(** ** Numbers up to roundings *)
Definition Range (k : nat) (th : R) : Prop := (1 - uro) ^ k <= th <= / (1 - uro) ^ k.
Definition Near (k : nat) (x y : R) : Prop := exists th, Range k th /\ y = x * th.
Lemma q_pos : 0 < 1 - uro < 1. Proof. pose proof uro_small. lra. Qed.
Lemma qk_pos k : 0 < (1 - uro) ^ k <= 1.
Proof. split; [apply pow_lt, q_pos|]. pose proof q_pos. pose proof (pow_incr (1 - uro) 1 k ltac:(lra)) as H1. rewrite pow1 in H1. exact H1. Qed.
Lemma Range_pos k th : Range k th -> 0 < th. Proof. intros [A _]. pose proof (qk_pos k). lra. Qed.
Lemma Range_0 th : Range 0 th -> th = 1. Proof. unfold Range. rewrite !pow_O, Rinv_1. lra. Qed.
Lemma Range_1 k : Range k 1.
Proof. pose proof (qk_pos k). split; [lra|]. pose proof (Rinv_le_contravar ((1 - uro) ^ k) 1 ltac:(lra) ltac:(lra)) as H1. rewrite Rinv_1 in H1. exact H1. Qed.
Lemma Range_weak a b th : (a <= b)%nat -> Range a th -> Range b th.
Proof.
  intros H [A B]. assert (P : (1 - uro) ^ b <= (1 - uro) ^ a).
  { replace b with (a + (b - a))%nat by lia. rewrite pow_add. pose proof (qk_pos a). pose proof (qk_pos (b - a)). nra. }
  split; [lra|]. eapply Rle_trans; [exact B|]. apply Rinv_le_contravar; [apply qk_pos|exact P].
Qed.
Lemma Range_mul a b x y : Range a x -> Range b y -> Range (a + b) (x * y).
Proof.
  intros [A B] [C D]. unfold Range. rewrite pow_add, Rinv_mult. pose proof (qk_pos a). pose proof (qk_pos b).
  assert (0 < / (1 - uro) ^ a) by (apply Rinv_0_lt_compat; lra). assert (0 < / (1 - uro) ^ b) by (apply Rinv_0_lt_compat; lra). split; apply Rmult_le_compat; lra.
Qed.
Lemma Range_inv a x : Range a x -> Range a (/ x).
Proof.
  intros H. pose proof (Range_pos _ _ H) as P. destruct H as [A B]. pose proof (qk_pos a). split.
  - rewrite <- (Rinv_inv ((1 - uro) ^ a)). apply Rinv_le_contravar; assumption.
  - apply Rinv_le_contravar; [lra|exact A].
Qed.
Lemma Range_div a b x y : Range a x -> Range b y -> Range (a + b) (x / y).
Proof. intros A B. apply Range_mul; [exact A|now apply Range_inv]. Qed.
Lemma Range_eps d : Rabs d <= uro -> Range 1 (1 + d).
Proof.
  intros H. apply Rabs_le_inv in H. pose proof uro_small. unfold Range. rewrite pow_1. split; [lra|]. apply Rmult_le_reg_r with (1 - uro); [lra|]. rewrite Rinv_l by lra. nra.
Qed.
(** [k] roundings change a number by at most [2 k] units. *)
Lemma bern k : (1 - uro) ^ k >= 1 - INR k * uro.
Proof. induction k as [|k IH]; [simpl; lra|]. rewrite S_INR. simpl. pose proof uro_small. pose proof (pos_INR k). pose proof (qk_pos k). nra. Qed.
Lemma Range_err k th : INR k * uro <= / 2 -> Range k th -> Rabs (th - 1) <= 2 * INR k * uro.
Proof.
  intros Hk [A B]. pose proof (bern k). pose proof uro_small. pose proof (pos_INR k). assert (0 <= INR k * uro) by nra. set (e := INR k * uro) in *.
  assert (th <= / (1 - e)). { eapply Rle_trans; [exact B|]. apply Rinv_le_contravar; lra. }
  assert (/ (1 - e) <= 1 + 2 * e). { apply Rmult_le_reg_r with (1 - e); [lra|]. rewrite Rinv_l by lra. nra. }
  apply Rabs_le. replace (2 * INR k * uro) with (2 * e) by (unfold e; ring). lra.
Qed.
Lemma small_k k : (Z.of_nat k <= K)%Z -> INR k * uro <= / 4.
Proof.
  intros H. rewrite INR_IZR_INZ. rewrite uro_bpow. apply IZR_le in H. change (IZR K) with (IZR (2 ^ 40)) in H. simpl (2 ^ 40)%Z in H. simpl (bpow radix2 (-53)). lra.
Qed.
Lemma Range_half k th : (Z.of_nat k <= K)%Z -> Range k th -> / 2 <= th <= 2.
Proof. intros H R. pose proof (small_k _ H) as S. assert (E : Rabs (th - 1) <= 2 * INR k * uro) by (apply Range_err; [lra|exact R]). apply Rabs_le_inv in E. lra. Qed.

Lemma Near_weak a b x y : (a <= b)%nat -> Near a x y -> Near b x y.
Proof. intros H (th & R & E). exists th. split; [eapply Range_weak; eauto|exact E]. Qed.
Lemma Near_refl k x : Near k x x. Proof. exists 1. split; [apply Range_1|ring]. Qed.
Lemma Near_mul a b x y x' y' : Near a x x' -> Near b y y' -> Near (a + b) (x * y) (x' * y').
Proof. intros (s & S & ->) (t & T & ->). exists (s * t). split; [now apply Range_mul|ring]. Qed.
Lemma Near_div a b x y x' y' : y <> 0 -> Near a x x' -> Near b y y' -> Near (a + b) (x / y) (x' / y').
Proof. intros N (s & S & ->) (t & T & ->). exists (s / t). split; [now apply Range_div|]. pose proof (Range_pos _ _ T). field. split; lra. Qed.
Lemma Near_trans a b x y z : Near a x y -> Near b y z -> Near (a + b) x z.
Proof. intros (s & S & ->) (t & T & ->). exists (s * t). split; [now apply Range_mul|ring]. Qed.
Lemma Near_opp k x y : Near k x y -> Near k (- x) (- y).
Proof. intros (s & S & ->). exists s. split; [exact S|ring]. Qed.
Lemma Near_err k x y : (Z.of_nat k <= K)%Z -> Near k x y -> Rabs (y - x) <= 2 * INR k * uro * Rabs x.
Proof.
  intros Hk (th & R & ->). replace (x * th - x) with ((th - 1) * x) by ring. rewrite Rabs_mult. apply Rmult_le_compat_r; [apply Rabs_pos|]. apply Range_err; [|exact R]. pose proof (small_k _ Hk). lra.
Qed.
Lemma Near_abs k x y : (Z.of_nat k <= K)%Z -> Near k x y -> / 2 * Rabs x <= Rabs y <= 2 * Rabs x.
Proof. intros Hk (th & R & ->). pose proof (Range_half _ _ Hk R). rewrite Rabs_mult, (Rabs_pos_eq th) by lra. pose proof (Rabs_pos x). nra. Qed.
Lemma Near_neq k x y : x <> 0 -> Near k x y -> y <> 0.
Proof. intros N (th & R & ->). pose proof (Range_pos _ _ R). apply Rmult_integral_contrapositive_currified; [exact N|lra]. Qed.

(** ** Roundings *)
Lemma rnd_near x : / 2 ^ 1022 <= Rabs x -> Near 1 x (rnd x).
Proof.
  intros H. destruct (relative_error_N_FLT_ex radix2 (SpecFloat.emin 53 1024) 53 Hprec' (fun x => negb (Z.even x)) x) as (d & D & E).
  - rewrite p2_inv_bpow in H. exact H.
  - exists (1 + d). split; [|exact E]. apply Range_eps. rewrite uro_bpow. eapply Rle_trans; [exact D|]. simpl. lra.
Qed.
Lemma rnd_plus x y : Finite x -> Finite y -> Near 1 (val x + val y) (rnd (val x + val y)).
Proof.
  intros Fx Fy. destruct (FLT_plus_error_N_ex radix2 (SpecFloat.emin 53 1024) 53 (fun x => negb (Z.even x)) (val x) (val y)) as (d & D & E).
  - apply (val_format x Fx).
  - apply (val_format y Fy).
  - exists (1 + d). split; [|exact E]. apply Range_eps. rewrite uro_bpow. eapply Rle_trans; [exact D|]. unfold u_ro. replace (/ 2 * bpow radix2 (- (53) + 1)) with (bpow radix2 (-53)) by (simpl; lra).
    assert (P := bpow_gt_0 radix2 (-53)). apply Rmult_le_reg_r with (1 + bpow radix2 (-53)); [lra|]. unfold Rdiv. rewrite Rmult_assoc, Rinv_l by lra. nra.
Qed.
Lemma rnd_sub x y : Finite x -> Finite y -> Near 1 (val x - val y) (rnd (val x - val y)).
Proof. intros Fx Fy. destruct (rnd_minus x y Fx Fy) as (d & D & E). exists (1 + d). split; [apply Range_eps; now rewrite uro_bpow|exact E]. Qed.
(** A rounding with underflow *)
Definition rnd' (x : R) : R := rnd x.
Lemma rnd_any x : exists d e, Rabs d <= uro /\ Rabs e <= / 2 ^ 1075 /\ rnd x = x * (1 + d) + e.
Proof.
  destruct (error_N_FLT radix2 (SpecFloat.emin 53 1024) 53 Hprec' (fun x => negb (Z.even x)) x) as (d & e & D & E & _ & H).
  exists d, e. rewrite uro_bpow. split; [eapply Rle_trans; [exact D|simpl; lra]|]. split; [|exact H].
  eapply Rle_trans; [exact E|]. right. rewrite p2_inv_bpow. change (- Z.of_nat 1075)%Z with (-1 + SpecFloat.emin 53 1024)%Z. rewrite bpow_plus. simpl (bpow radix2 (-1)). reflexivity.
Qed.
Lemma p2_lt n m : (n < m)%nat -> 2 ^ n < 2 ^ m. Proof. intros. apply Rlt_pow; [lra|assumption]. Qed.
Lemma ovf_p2 : ovf = 2 ^ 1024. Proof. symmetry. exact (p2_bpow 1024). Qed.

(** A number computed with at most [k] roundings *)
Definition App (k : nat) (x : R) (f : f64) : Prop := Finite f /\ Near k x (val f).
Lemma App_weak a b x f : (a <= b)%nat -> App a x f -> App b x f.
Proof. intros H [F N]. split; [exact F|eapply Near_weak; eauto]. Qed.
Lemma App_val f : Finite f -> App 0 (val f) f. Proof. intros F. split; [exact F|apply Near_refl]. Qed.
Lemma App_Is x f : Is f x -> App 0 x f. Proof. intros [F <-]. now apply App_val. Qed.

Lemma op_ok k z y : (Z.of_nat k <= K)%Z -> Mag 1000 z -> Near k z y -> Near (k + 1) z (rnd y) /\ Rabs (rnd y) < ovf.
Proof.
  intros Hk [A B] N. pose proof (Near_abs _ _ _ Hk N) as [C D].
  assert (R : Near 1 y (rnd y)).
  { apply rnd_near. apply Rle_trans with (/ 2 ^ 1001); [apply p2_inv_le; lia|]. replace (/ 2 ^ 1001) with (/ 2 * / 2 ^ 1000) by (rewrite <- Rinv_mult; f_equal; exact (eq_sym (tech_pow_Rmult 2 1000))). lra. }
  split; [eapply Near_trans; eauto|]. pose proof (Near_abs 1 y (rnd y) ltac:(lia) R) as [_ E]. rewrite ovf_p2. apply Rle_lt_trans with (2 ^ 1002); [|apply p2_lt; lia].
  replace (2 ^ 1002) with (2 * (2 * 2 ^ 1000)) by (rewrite !tech_pow_Rmult; reflexivity). lra.
Qed.
Lemma App_mul a b x y f g : (Z.of_nat (a + b) <= K)%Z -> Mag 1000 (x * y) -> App a x f -> App b y g -> App (a + b + 1) (x * y) (SFmul 53 1024 f g).
Proof.
  intros Hk M [F N] [F' N']. destruct (op_ok (a + b) (x * y) (val f * val g) Hk M) as [R O]; [now apply Near_mul|]. destruct (mul_ok f g F F' O) as [G V]. split; [exact G|now rewrite V].
Qed.
Lemma App_div a b x y f g : (Z.of_nat (a + b) <= K)%Z -> Mag 1000 (x / y) -> y <> 0 -> App a x f -> App b y g -> App (a + b + 1) (x / y) (SFdiv 53 1024 f g).
Proof.
  intros Hk M NZ [F N] [F' N']. destruct (op_ok (a + b) (x / y) (val f / val g) Hk M) as [R O]; [now apply Near_div|].
  destruct (div_ok f g F F') as [G V]; [eapply Near_neq; eauto|exact O|split; [exact G|now rewrite V]].
Qed.
Lemma App_sub x y : Finite x -> Finite y -> Rabs (val x - val y) <= 2 ^ 1000 -> App 1 (val x - val y) (SFsub 53 1024 x y).
Proof.
  intros Fx Fy H. pose proof (rnd_sub x y Fx Fy) as N. pose proof (Near_abs 1 _ _ ltac:(lia) N) as [_ E].
  destruct (sub_ok x y Fx Fy) as [G V].
  - rewrite ovf_p2. apply Rle_lt_trans with (2 ^ 1001); [|apply p2_lt; lia]. rewrite <- tech_pow_Rmult. lra.
  - split; [exact G|now rewrite V].
Qed.

(** Products *)
Lemma App_prod a b fs : forall xs, Forall2 (App a) xs fs -> Forall (Mag b) xs -> (b * length xs <= 1000)%nat -> (Z.of_nat ((a + 1) * length xs) <= K)%Z ->
  App ((a + 1) * length xs) (lprod xs) (nprodl fs).
Proof.
  induction fs as [|f fs IH] using rev_ind; intros xs H M L1 L2.
  - inversion H; subst. apply (App_weak 0); [lia|]. exact (App_Is _ _ one_fin).
  - apply Forall2_app_inv_r in H. destruct H as (x1 & x2 & H1 & H2 & ->). inversion H2 as [|x ? l ? H3 H4]; subst. inversion H4; subst. apply Forall_app in M. destruct M as [M1 M2]. inversion M2; subst.
    rewrite app_length in *. simpl length in *. unfold nprodl. rewrite fold_left_app. cbn [fold_left]. fold (nprodl fs).
    assert (E : lprod (x1 ++ [x]) = lprod x1 * x) by (clear; induction x1 as [|y l IH]; simpl in *; [ring|rewrite IH; ring]). rewrite E.
    assert (ML : Mag (b * length x1) (lprod x1)).
    { clear -M1. induction M1 as [|y l H M IH]; [rewrite Nat.mul_0_r; apply Mag_1|]. simpl length. replace (b * S (length l))%nat with (b + b * length l)%nat by lia. now apply Mag_mul. }
    apply (App_weak ((a + 1) * length x1 + a + 1)); [lia|]. apply App_mul; [lia| |apply IH; auto; lia|assumption].
    eapply Mag_weak; [|apply Mag_mul; eauto]. nia.
Qed.

(** Sums *)
Definition labs (l : list R) : R := lsum (map Rabs l).
Lemma labs_near k xs ys : (Z.of_nat k <= K)%Z -> Forall2 (Near k) xs ys -> Rabs (lsum ys) <= 2 * labs xs.
Proof.
  intros Hk. unfold labs. induction 1 as [|x y xs ys H F IH]; simpl; [rewrite Rabs_R0; lra|]. pose proof (Rabs_triang y (lsum ys)). pose proof (Near_abs _ _ _ Hk H). lra.
Qed.
Lemma labs_app l l' : labs (l ++ l') = labs l + labs l'.
Proof. unfold labs. now rewrite map_app, lsum_app. Qed.
Lemma labs_nonneg l : 0 <= labs l.
Proof. unfold labs. induction l as [|x l IH]; simpl; [lra|]. pose proof (Rabs_pos x). simpl in IH. lra. Qed.
Lemma near_weak_all a b xs ys : (a <= b)%nat -> Forall2 (Near a) xs ys -> Forall2 (Near b) xs ys.
Proof. intros H. induction 1; constructor; auto. eapply Near_weak; eauto. Qed.
Lemma App_sum a fs : forall xs, Forall2 (App a) xs fs -> labs xs <= 2 ^ 1000 -> (Z.of_nat (a + length xs) <= K)%Z ->
  exists ys, Forall2 (Near (a + length xs)) xs ys /\ Is (nsuml fs) (lsum ys).
Proof.
  induction fs as [|f fs IH] using rev_ind; intros xs H M L.
  - inversion H; subst. exists []. split; [constructor|]. apply zero_fin.
  - apply Forall2_app_inv_r in H. destruct H as (x1 & x2 & H1 & H2 & ->). inversion H2 as [|x ? l ? H3 H4]; subst. inversion H4; subst. clear H2 H4.
    rewrite app_length in *. simpl length in *. rewrite labs_app in M. assert (labs [x] = Rabs x) as Ex by (unfold labs; simpl; ring). rewrite Ex in M. pose proof (Rabs_pos x).
    destruct (IH x1 H1 ltac:(lra) ltac:(lia)) as (ys & Y & [SF SV]). unfold nsuml. rewrite fold_left_app. cbn [fold_left]. fold (nsuml fs). destruct H3 as [Ff Nf].
    pose proof (rnd_plus _ _ SF Ff) as N. rewrite SV in N.
    pose proof (labs_near (a + length x1) x1 ys ltac:(lia) Y) as B1. pose proof (Near_abs a x (val f) ltac:(lia) Nf) as [_ B2]. pose proof (Near_abs 1 _ _ ltac:(lia) N) as [_ B3]. pose proof (Rabs_triang (lsum ys) (val f)).
    destruct (add_ok (nsuml fs) f SF Ff) as [G V].
    { rewrite SV, ovf_p2. apply Rle_lt_trans with (2 ^ 1002); [|apply p2_lt; lia]. replace (2 ^ 1002) with (2 * (2 * 2 ^ 1000)) by (rewrite !tech_pow_Rmult; reflexivity). pose proof (labs_nonneg x1). lra. }
    destruct N as (th & R & E). exists (map (fun y => y * th) ys ++ [val f * th]). split.
    + apply Forall2_app.
      * clear -Y R. replace (a + (length x1 + 1))%nat with (a + length x1 + 1)%nat by lia. set (m := (a + length x1)%nat) in *. clearbody m. induction Y as [|u v x1 ys H Y IH]; simpl; constructor; [|exact IH].
        eapply Near_trans; [exact H|]. exists th. auto.
      * constructor; [|constructor]. eapply (Near_weak (a + 1)); [lia|]. eapply Near_trans; [exact Nf|]. exists th. auto.
    + split; [exact G|]. change (nadd (nsuml fs) f) with (SFadd 53 1024 (nsuml fs) f). rewrite V, SV, E, lsum_app. simpl. rewrite Rplus_0_r, Rmult_plus_distr_r. f_equal. clear. induction ys as [|y l IH]; simpl; [ring|rewrite <- IH; ring].
Qed.
