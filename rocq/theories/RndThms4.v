(** Accuracy of [PiecewisePoly.derivative] in binary64 (C105). *)
From Coq Require Import Reals Lra Lia.
From Coq Require Import Floats.SpecFloat.
From Coquelicot Require Import Coquelicot.
From Flocq Require Import Core.
From Verif Require Import PyBase NumModel NumInst PolynomialModel PiecewiseModel PolySpec PolyMath PolynomialBase PolynomialThms F64Spec F64Thms F64Thms2 F64Thms3 RndSpec RndThms RndThms2 RndThms3.
Open Scope list_scope. Open Scope nat_scope. Open Scope R_scope.
#[local] Existing Instance numF.

Lemma inv_p2_1 n : / 2 ^ n <= 1.
Proof. pose proof (p2_inv_le 0 n ltac:(lia)) as H. rewrite pow_O, Rinv_1 in H. exact H. Qed.
Lemma p2_ge1 n : 1 <= 2 ^ n.
Proof. change 1 with (2 ^ 0) at 1. apply p2_le. lia. Qed.
Lemma p2_next n : 2 ^ (S n) = 2 * 2 ^ n. Proof. reflexivity. Qed.

(** Sums of products *)
Lemma dot_any n (u y : nat -> f64) : (n <= 300)%nat -> (forall k, (k < n)%nat -> Finite (u k) /\ Finite (y k) /\ Rabs (val (u k) * val (y k)) <= 2 ^ 980) ->
  Finite (nsum n (fun k => nmul (u k) (y k))) /\
  Rabs (val (nsum n (fun k => nmul (u k) (y k))) - Sum n (fun k => val (u k) * val (y k))) <= 2 * (INR n + 1) * uro * Sum n (fun k => Rabs (val (u k) * val (y k))) + INR n * / 2 ^ 1074.
Proof.
  intros Hn HU. pose proof uro_small as U. pose proof (pos_INR n) as PN. pose proof (inv_p2_1 1075) as Z1.
  assert (P : forall k, (k < n)%nat -> exists d e, Rabs d <= uro /\ Rabs e <= / 2 ^ 1075 /\ Is (nmul (u k) (y k)) (val (u k) * val (y k) * (1 + d) + e) /\ Rabs (val (nmul (u k) (y k))) <= 2 ^ 982).
  { intros k Hk. destruct (HU k Hk) as (Fu & Fy & BL). destruct (rnd_any (val (u k) * val (y k))) as (d & e & D & E & X).
    assert (BR : Rabs (RndThms.rnd' (val (u k) * val (y k))) <= 2 ^ 982).
    { unfold rnd'. rewrite X. eapply Rle_trans; [apply Rabs_triang|]. rewrite Rabs_mult. assert (Rabs (1 + d) <= 2) by (apply Rabs_le; apply Rabs_le_inv in D; lra).
      rewrite (p2_next 981 : 2 ^ 982 = _), (p2_next 980 : 2 ^ 981 = _). pose proof (p2_ge1 980).
      pose proof (Rabs_pos (1 + d)). pose proof (Rabs_pos (val (u k) * val (y k))). assert (Rabs (val (u k) * val (y k)) * Rabs (1 + d) <= 2 ^ 980 * 2) by (apply Rmult_le_compat; assumption). lra. }
    unfold rnd' in BR. destruct (mul_ok (u k) (y k) Fu Fy) as [G V]. { rewrite ovf_p2. eapply Rle_lt_trans; [exact BR|apply p2_lt; lia]. }
    exists d, e. split; [exact D|]. split; [exact E|]. change (nmul (u k) (y k)) with (SFmul 53 1024 (u k) (y k)). split; [split; [exact G|]|now rewrite V]. now rewrite V, X. }
  destruct (fin_choice (fun k d => exists e, Rabs d <= uro /\ Rabs e <= / 2 ^ 1075 /\ Is (nmul (u k) (y k)) (val (u k) * val (y k) * (1 + d) + e) /\ Rabs (val (nmul (u k) (y k))) <= 2 ^ 982) n P) as (d & P1). clear P.
  destruct (fin_choice (fun k e => Rabs (d k) <= uro /\ Rabs e <= / 2 ^ 1075 /\ Is (nmul (u k) (y k)) (val (u k) * val (y k) * (1 + d k) + e) /\ Rabs (val (nmul (u k) (y k))) <= 2 ^ 982) n P1) as (e & P). clear P1.
  rewrite nsum_nsuml. destruct (App_sum_idx 0 (seq 0 n) (fun k => val (nmul (u k) (y k))) (fun k => nmul (u k) (y k))) as (th & R & F & V).
  - apply seq_NoDup.
  - intros k Hk. apply in_seq in Hk. apply App_val. apply P. lia.
  - apply Rle_trans with (lsum (map (fun _ => 2 ^ 982) (seq 0 n))).
    + apply lsum_le. intros k Hk. apply in_seq in Hk. apply P. lia.
    + rewrite lsum_const, seq_length. apply Rle_trans with (2 ^ 18 * 2 ^ 982); [|rewrite <- pow_add; apply p2_le; lia]. apply Rmult_le_compat_r; [left; apply p2_pos|].
      apply Rle_trans with (INR 300); [apply le_INR; lia|]. rewrite INR_IZR_INZ, p2_bpow. simpl. lra.
  - rewrite seq_length. lia.
  - rewrite seq_length in R. rewrite lsum_seq in V. split; [exact F|]. rewrite V.
    assert (E : Sum n (fun k => val (nmul (u k) (y k)) * th k) - Sum n (fun k => val (u k) * val (y k)) = Sum n (fun k => val (u k) * val (y k) * ((1 + d k) * th k - 1)) + Sum n (fun k => e k * th k)).
    { rewrite <- Sum_minus, <- !Sum_plus. apply Sum_ext. intros k Hk. destruct (P k Hk) as (_ & _ & [_ ->] & _). ring. }
    rewrite E. eapply Rle_trans; [apply Rabs_triang|]. apply Rplus_le_compat.
    + eapply Rle_trans; [apply rsum_abs|]. rewrite <- Sum_scal. apply rsum_le. intros k Hk. rewrite (Rabs_mult _ ((1 + d k) * th k - 1)), Rmult_comm. apply Rmult_le_compat_r; [apply Rabs_pos|].
      destruct (P k Hk) as (Dk & _). assert (RR : Range (1 + (0 + n)) ((1 + d k) * th k)) by (apply Range_mul; [now apply Range_eps|apply R; apply in_seq; lia]).
      eapply Rle_trans; [apply Range_err; [|exact RR]|].
      * assert (INR (1 + (0 + n)) * uro <= / 4) by (apply small_k; lia). lra.
      * cbn [Nat.add]. rewrite S_INR. lra.
    + eapply Rle_trans; [apply rsum_abs|]. rewrite <- rsum_const. apply rsum_le. intros k Hk. destruct (P k Hk) as (_ & Ek & _). rewrite Rabs_mult. pose proof (Range_half (0 + n) _ ltac:(lia) (R k ltac:(apply in_seq; lia))) as RH.
      rewrite (Rabs_pos_eq (th k)) by lra. replace (/ 2 ^ 1074) with (/ 2 ^ 1075 * 2).
      * apply Rmult_le_compat; try lra. apply Rabs_pos.
      * change (2 ^ 1075) with (2 * 2 ^ 1074). field.
Qed.

Section Deriv.
Context (tau : list f64) (b : nat).
Notation n := (length tau).
Notation rt := (map val tau).
Context (Hs : Spread b tau) (Hb : (1 <= b)%nat) (Hn : (b * n <= 200)%nat) (B : basis f64) (EB : basis_ (PVec tau) = Ok B).
Context (L : nat -> R -> R) (HL : Cardinals rt L).
Lemma Hn' : (b * n <= 300)%nat. Proof. clear -Hn. lia. Qed.
Context (j : nat) (Hj : (j < n)%nat) (d : nat -> R) (Hd : forall k, (k < n)%nat -> is_derive (L k) (node rt j) (d k)).
Notation A := (SumBut n j (fun k => Rabs (d k))).
(** Bound of an element of the row *)
Definition arow (k : nat) : R := if Nat.eqb k j then A else Rabs (d k).
Lemma arow_pos k : 0 <= arow k.
Proof.
  unfold arow. destruct (Nat.eqb k j); [|apply Rabs_pos]. unfold SumBut. apply Rle_trans with (Sum n (fun _ => 0)); [rewrite Sum_0; [lra|reflexivity]|]. apply rsum_le. intros i Hi. destruct (Nat.eqb i j); [lra|apply Rabs_pos].
Qed.
Lemma d_dcoef k : (k < n)%nat -> d k = dcoef rt j k.
Proof.
  intros Hk. assert (D1 : is_derive (L k) (node rt j) (dcoef rt j k)).
  { apply (is_derive_ext (polyval (lagrange rt k))); [intros t; symmetry; now apply (card_lagrange tau b Hs L HL)|]. apply dcoef_derive; [apply (rt_nodup tau b Hs)|now rewrite map_length|now rewrite map_length]. }
  apply is_derive_unique in D1. rewrite <- D1. symmetry. apply is_derive_unique. now apply Hd.
Qed.
Lemma d_le_arow k : (k < n)%nat -> Rabs (d k) <= arow k.
Proof.
  intros Hk. unfold arow. destruct (Nat.eqb_spec k j) as [->|]; [|lra]. rewrite (d_dcoef j Hj), dcoef_diag, Rabs_Ropp, map_length, <- SumBut_lsum by (rewrite ?map_length; exact Hj). unfold SumBut.
  eapply Rle_trans; [apply rsum_abs|]. apply rsum_le. intros i Hi. destruct (Nat.eqb_spec i j); [rewrite Rabs_R0; lra|]. rewrite d_dcoef by exact Hi. lra.
Qed.
Lemma arow_mag k : (k < n)%nat -> arow k <= 2 ^ 610.
Proof.
  intros Hk. assert (X : forall k, (k < n)%nat -> k <> j -> Rabs (d k) <= 2 ^ 600).
  { intros i Hi N. rewrite d_dcoef by exact Hi. rewrite dcoef_off by (rewrite ?map_length; auto). match goal with |- Rabs ?x <= _ => assert (M : Mag 600 x); [|apply M] end. apply (Mag_weak (b * (n - 1) + b * (n - 1) + b)); [clear -Hn Hj; nia|]. apply Mag_div; [apply Mag_div; apply (lam_mag tau b Hs Hb Hn'); assumption|]. apply (tau_mag tau b Hs); auto. }
  unfold arow. destruct (Nat.eqb_spec k j); [|eapply Rle_trans; [now apply X|apply p2_le; lia]]. unfold SumBut. apply Rle_trans with (Sum n (fun _ => 2 ^ 600)).
  - apply rsum_le. intros i Hi. destruct (Nat.eqb_spec i j); [left; apply p2_pos|now apply X].
  - rewrite rsum_const. rewrite (pow_add 2 10 600 : 2 ^ 610 = _). apply Rmult_le_compat_r; [left; apply p2_pos|]. pose proof (n_small tau b Hb Hn'). apply Rle_trans with (INR 300); [now apply le_INR|]. rewrite INR_IZR_INZ, p2_bpow. simpl. lra.
Qed.
Lemma D_near k : (k < n)%nat -> Finite (at_m (b_D B) j k) /\ Rabs (val (at_m (b_D B) j k) - d k) <= 10 * INR n * uro * arow k /\ Rabs (val (at_m (b_D B) j k)) <= 2 * arow k.
Proof.
  intros Hk. destruct (diff_accuracy tau b Hs Hb Hn' B EB L HL) as (_ & _ & H). destruct (H j d Hj Hd) as (F & O & G). split; [now apply F|].
  assert (1 <= INR n) by (change 1 with (INR 1); apply le_INR; clear -Hj; lia). pose proof uro_small as U. pose proof (arow_pos k) as AP.
  assert (X : Rabs (val (at_m (b_D B) j k) - d k) <= 10 * INR n * uro * arow k).
  { unfold arow. destruct (Nat.eqb_spec k j) as [->|N]; [exact G|]. eapply Rle_trans; [now apply O|]. apply Rmult_le_compat_r; [apply Rabs_pos|]. apply Rmult_le_compat_r; [lra|lra]. }
  split; [exact X|]. pose proof (d_le_arow k Hk). replace (val (at_m (b_D B) j k)) with ((val (at_m (b_D B) j k) - d k) + d k) by ring. eapply Rle_trans; [apply Rabs_triang|].
  assert (INR (5 * n) * uro <= / 4) by (apply small_k; pose proof (n_small tau b Hb Hn'); lia). rewrite mult_INR in *. change (INR 5) with (1 + 1 + 1 + 1 + 1) in *. assert (10 * INR n * uro <= 1) by lra. nra.
Qed.
(** One element of [np.dot(c, D.T)] *)
Lemma ddot_acc (u : nat -> f64) f : (forall k, (k < n)%nat -> Finite (u k) /\ Rabs (val (u k)) <= 2 ^ 300) -> PolyLt n f -> (forall k, (k < n)%nat -> f (node rt k) = val (u k)) ->
  exists v, is_derive f (node rt j) v /\ Rabs v <= Sum n (fun k => Rabs (val (u k)) * arow k) /\ Finite (nsum n (fun k => nmul (u k) (at_m (b_D B) j k))) /\
    Rabs (val (nsum n (fun k => nmul (u k) (at_m (b_D B) j k))) - v) <= (14 * INR n + 4) * uro * Sum n (fun k => Rabs (val (u k)) * arow k) + INR n * / 2 ^ 1074 /\
    Sum n (fun k => Rabs (val (u k)) * arow k) <= 2 ^ 920.
Proof.
  intros Hu Hf Hv. pose proof (n_small tau b Hb Hn') as SN. pose proof uro_small as U. pose proof (pos_INR n) as PN. exists (Sum n (fun k => val (u k) * d k)). split; [|split; [|]].
  - apply (is_derive_ext (fun t => Sum n (fun k => val (u k) * L k t))).
    + intros t. rewrite (lagrange_interp rt f (rt_nodup tau b Hs)) by now rewrite map_length. rewrite map_length. apply Sum_ext. intros k Hk. now rewrite Hv, (card_lagrange tau b Hs L HL) by exact Hk.
    + apply (is_derive_Sum n (fun k t => val (u k) * L k t) (fun k _ => val (u k) * d k)). intros k Hk. apply is_derive_scal. now apply Hd.
  - eapply Rle_trans; [apply rsum_abs|]. apply rsum_le. intros k Hk. rewrite Rabs_mult. apply Rmult_le_compat_l; [apply Rabs_pos|now apply d_le_arow].
  - destruct (dot_any n u (fun k => at_m (b_D B) j k) SN) as [F E].
    { intros k Hk. destruct (D_near k Hk) as (Fd & _ & M). destruct (Hu k Hk) as [Fu Bu]. split; [exact Fu|]. split; [exact Fd|]. rewrite Rabs_mult. apply Rle_trans with (2 ^ 300 * (2 * 2 ^ 610)).
      - apply Rmult_le_compat; try apply Rabs_pos; [exact Bu|]. eapply Rle_trans; [exact M|]. apply Rmult_le_compat_l; [lra|now apply arow_mag].
      - rewrite <- p2_next, <- pow_add. apply p2_le. lia. }
    split; [exact F|]. split.
    + set (S := Sum n (fun k => Rabs (val (u k)) * arow k)).
      replace (val (nsum n (fun k => nmul (u k) (at_m (b_D B) j k))) - Sum n (fun k => val (u k) * d k)) with
        ((val (nsum n (fun k => nmul (u k) (at_m (b_D B) j k))) - Sum n (fun k => val (u k) * val (at_m (b_D B) j k))) + Sum n (fun k => val (u k) * (val (at_m (b_D B) j k) - d k))).
      2:{ rewrite (Sum_ext _ (fun k => val (u k) * (val (at_m (b_D B) j k) - d k)) (fun k => val (u k) * val (at_m (b_D B) j k) - val (u k) * d k)) by (intros; ring). rewrite Sum_minus. ring. }
      eapply Rle_trans; [apply Rabs_triang|]. assert (E1 : Sum n (fun k => Rabs (val (u k) * val (at_m (b_D B) j k))) <= 2 * S).
      { unfold S. rewrite <- Sum_scal. apply rsum_le. intros k Hk. destruct (D_near k Hk) as (_ & _ & M). rewrite Rabs_mult. pose proof (Rabs_pos (val (u k))). nra. }
      assert (E2 : Rabs (Sum n (fun k => val (u k) * (val (at_m (b_D B) j k) - d k))) <= 10 * INR n * uro * S).
      { eapply Rle_trans; [apply rsum_abs|]. unfold S. rewrite <- Sum_scal. apply rsum_le. intros k Hk. destruct (D_near k Hk) as (_ & M & _). rewrite Rabs_mult. pose proof (Rabs_pos (val (u k))). nra. }
      assert (E3 : 2 * (INR n + 1) * uro * Sum n (fun k => Rabs (val (u k) * val (at_m (b_D B) j k))) <= 2 * (INR n + 1) * uro * (2 * S)) by (apply Rmult_le_compat_l; [apply Rmult_le_pos; lra|exact E1]). lra.
    + apply Rle_trans with (Sum n (fun _ => 2 ^ 300 * 2 ^ 610)).
      * apply rsum_le. intros k Hk. apply Rmult_le_compat; [apply Rabs_pos|apply arow_pos|now apply Hu|now apply arow_mag].
      * rewrite rsum_const, <- pow_add. rewrite (pow_add 2 10 910 : 2 ^ 920 = _). apply Rmult_le_compat_r; [left; apply p2_pos|]. apply Rle_trans with (INR 300); [now apply le_INR|]. rewrite INR_IZR_INZ, p2_bpow. simpl. lra.
Qed.
End Deriv.

(** The quotient by the length of the interval *)
Lemma quot_acc (v S E : R) (f ta tb : f64) : Finite f -> Finite ta -> Finite tb -> / 2 ^ 60 <= Rabs (val tb - val ta) <= 2 ^ 60 -> Rabs v <= S -> S <= 2 ^ 920 -> Rabs (val f - v) <= E -> E <= 2 ^ 921 ->
  Finite (ndiv f (nsub tb ta)) /\ Rabs (val (ndiv f (nsub tb ta)) - v / (val tb - val ta)) <= (2 * E + 4 * uro * S) / Rabs (val tb - val ta) + / 2 ^ 1075.
Proof.
  intros Ff Fa Fb Hh Hv HS HE HE'. set (h := val tb - val ta) in *. assert (MH : Mag 60 h) by exact Hh. pose proof (Mag_neq _ _ MH) as NH. pose proof uro_small as U.
  destruct (App_sub tb ta Fb Fa) as [FD (t1 & R1 & V1)]; [fold h; eapply Rle_trans; [apply Hh|apply p2_le; lia]|]. fold h in V1. pose proof (Range_half 1 t1 ltac:(lia) R1) as H1.
  destruct (rnd_any (val f / val (nsub tb ta))) as (d & e & D & Ee & X). change (nsub tb ta) with (SFsub 53 1024 tb ta) in *. rewrite V1 in X.
  assert (HP : 0 < Rabs h) by now apply Rabs_pos_lt.
  assert (IH : / Rabs h <= 2 ^ 60) by (rewrite <- Rabs_inv; apply (Mag_inv _ _ MH)). assert (IP : 0 < / Rabs h) by now apply Rinv_0_lt_compat.
  assert (T1 : / t1 <= 2) by (apply Rmult_le_reg_r with t1; [lra|]; rewrite Rinv_l by lra; lra). assert (T0 : 0 < / t1) by (apply Rinv_0_lt_compat; lra).
  assert (BF : Rabs (val f) <= 2 ^ 922). { replace (val f) with ((val f - v) + v) by ring. eapply Rle_trans; [apply Rabs_triang|]. rewrite (p2_next 921 : 2 ^ 922 = _). assert (2 ^ 920 <= 2 ^ 921) by (apply p2_le; lia). lra. }
  assert (BQ : Rabs (val f / (h * t1)) <= 2 ^ 983).
  { unfold Rdiv. rewrite Rabs_mult, Rabs_inv, Rabs_mult, (Rabs_pos_eq t1), Rinv_mult by lra. replace (2 ^ 983) with (2 ^ 922 * (2 ^ 60 * 2)) by (rewrite (pow_add 2 922 61 : 2 ^ 983 = _), (p2_next 60 : 2 ^ 61 = _); ring).
    apply Rmult_le_compat; [apply Rabs_pos|apply Rmult_le_pos; lra|exact BF|]. apply Rmult_le_compat; lra. }
  assert (BR : Rabs (RndThms.rnd' (val f / (h * t1))) <= 2 ^ 985).
  { unfold rnd'. rewrite X. eapply Rle_trans; [apply Rabs_triang|]. rewrite Rabs_mult. assert (Rabs (1 + d) <= 2) by (apply Rabs_le; apply Rabs_le_inv in D; lra).
    rewrite (p2_next 984 : 2 ^ 985 = _), (p2_next 983 : 2 ^ 984 = _). pose proof (p2_ge1 983). pose proof (inv_p2_1 1075). pose proof (Rabs_pos (1 + d)). pose proof (Rabs_pos (val f / (h * t1))).
    assert (Rabs (val f / (h * t1)) * Rabs (1 + d) <= 2 ^ 983 * 2) by (apply Rmult_le_compat; assumption). lra. }
  unfold rnd' in BR. assert (NZ : h * t1 <> 0) by (apply Rmult_integral_contrapositive_currified; lra).
  destruct (div_ok f (SFsub 53 1024 tb ta) Ff FD) as [G V]; [now rewrite V1| |].
  { rewrite V1, ovf_p2. eapply Rle_lt_trans; [exact BR|apply p2_lt; lia]. }
  split; [exact G|]. change (ndiv f (SFsub 53 1024 tb ta)) with (SFdiv 53 1024 f (SFsub 53 1024 tb ta)). rewrite V, V1, X.
  set (th := (1 + d) * / t1). assert (RT : Range 2 th) by (unfold th; apply (Range_mul 1 1); [now apply Range_eps|now apply Range_inv]).
  pose proof (Range_half 2 th ltac:(lia) RT) as H2. assert (E2 : Rabs (th - 1) <= 2 * INR 2 * uro) by (apply Range_err; [|exact RT]; change (INR 2) with (1 + 1); lra). change (INR 2) with (1 + 1) in E2.
  replace (val f / (h * t1) * (1 + d) + e - v / h) with (((val f - v) * th + v * (th - 1)) * / h + e) by (unfold th; field; split; lra).
  eapply Rle_trans; [apply Rabs_triang|]. apply Rplus_le_compat; [|exact Ee]. rewrite Rabs_mult, Rabs_inv. unfold Rdiv. apply Rmult_le_compat_r; [lra|]. eapply Rle_trans; [apply Rabs_triang|]. rewrite !Rabs_mult, (Rabs_pos_eq th) by lra.
  pose proof (Rabs_pos (val f - v)). pose proof (Rabs_pos v). pose proof (Rabs_pos (th - 1)). nra.
Qed.

Lemma rmapM_idx {A C} (g : nat * A -> res C) (dA : A) (dC : C) l : (forall i, (i < length l)%nat -> exists y, g (i, nth i l dA) = Ok y) ->
  exists r, rmapM g (combine (seq 0 (length l)) l) = Ok r /\ length r = length l /\ forall i, (i < length l)%nat -> g (i, nth i l dA) = Ok (nth i r dC).
Proof.
  intros H. assert (LC : length (combine (seq 0 (length l)) l) = length l) by (rewrite combine_length, seq_length; lia).
  assert (NC : forall i, (i < length l)%nat -> nth i (combine (seq 0 (length l)) l) (0%nat, dA) = (i, nth i l dA)) by (intros i Hi; rewrite combine_nth by apply seq_length; now rewrite seq_nth).
  destruct (rmapM_fwd g (fun a y => g a = Ok y) (combine (seq 0 (length l)) l)) as (r & E & F).
  { intros a Ha. destruct (In_nth _ _ (0%nat, dA) Ha) as (i & Hi & <-). rewrite LC in Hi. rewrite NC by exact Hi. destruct (H i Hi) as (y & Y). eauto. }
  exists r. split; [exact E|]. split; [rewrite (F2_len _ _ _ F); exact LC|]. intros i Hi. rewrite <- NC by exact Hi. apply (Forall2_nth' _ _ _ (0%nat, dA) dC i F). now rewrite LC.
Qed.

Theorem derivative_accuracy tau b L p : Spread b tau -> (1 <= b)%nat -> (b * length tau <= 200)%nat -> basis_ (PVec tau) = Ok (pp_b p) -> Cardinals (map val tau) L ->
  (2 <= length (pp_t p))%nat -> length (pp_c p) = (length (pp_t p) - 1)%nat -> FiniteAll (pp_t p) ->
  (forall i, (i < length (pp_c p))%nat -> nc (nth i (pp_c p) no_mat) = length tau /\ Moderate (nth i (pp_c p) no_mat) /\ Apart 60 (val (fnode (pp_t p) (i + 1))) (val (fnode (pp_t p) i))) ->
  exists q, pp_derivative p = Ok q /\ pp_t q = pp_t p /\ pp_b q = pp_b p /\ length (pp_c q) = length (pp_c p) /\
    forall i r j d f, (i < length (pp_c p))%nat -> (r < nr (nth i (pp_c p) no_mat))%nat -> (j < length tau)%nat -> PolyLt (length tau) f ->
      (forall k, (k < length tau)%nat -> f (node (map val tau) k) = val (at_m (nth i (pp_c p) no_mat) r k) /\ is_derive (L k) (node (map val tau) j) (d k)) ->
      let h := val (fnode (pp_t p) (i + 1)) - val (fnode (pp_t p) i) in
      let e := at_m (nth i (pp_c q) no_mat) r j in
      exists v, is_derive f (node (map val tau) j) v /\ Finite e /\
        Rabs (val e - v / h) <= ((28 * INR (length tau) + 12) * uro * dcond (length tau) j d (fun k => f (node (map val tau) k)) + 2 * INR (length tau) * / 2 ^ 1074) / Rabs h + / 2 ^ 1075.
Proof.
  intros Hs Hb Hn EB HL H2 HC FT HI. set (n := length tau) in *. destruct (basis64_eq tau _ EB) as [_ EB'].
  assert (ND : nc (b_D (pp_b p)) = n) by (rewrite EB'; reflexivity).
  set (g := fun ic : nat * mat f64 => let* d := mdot (snd ic) (mtr (b_D (pp_b p))) in Ok (mdivs d (nsub (vget (pp_t p) (fst ic + 1)) (vget (pp_t p) (fst ic))))).
  assert (HG : forall i, (i < length (pp_c p))%nat -> g (i, nth i (pp_c p) no_mat) = Ok (Mat (nr (nth i (pp_c p) no_mat)) (nr (b_D (pp_b p)))
     (fun r j => ndiv (nsum n (fun k => nmul (at_m (nth i (pp_c p) no_mat) r k) (at_m (b_D (pp_b p)) j k))) (nsub (fnode (pp_t p) (i + 1)) (fnode (pp_t p) i))))).
  { intros i Hi. destruct (HI i Hi) as (NC & _). unfold g. cbn [fst snd]. unfold mdot. cbn [mtr nr nc at_m]. rewrite NC, ND, Nat.eqb_refl. reflexivity. }
  destruct (rmapM_idx g no_mat no_mat (pp_c p)) as (cs & E & LC & HN); [intros i Hi; rewrite (HG i Hi); eauto|].
  exists (PPoly (pp_t p) cs (pp_b p)). split.
  { unfold pp_derivative. fold g. rewrite E. cbn [rbind]. unfold ppoly_. assert (X : (1 <? length (pp_t p))%nat = true) by (apply Nat.ltb_lt; lia). rewrite X. cbn [rassert rbind]. rewrite LC, HC, Nat.eqb_refl. reflexivity. }
  split; [reflexivity|]. split; [reflexivity|]. split; [exact LC|]. intros i r j d f Hi Hr Hj Hf Hv h e. cbn [pp_c] in e.
  destruct (HI i Hi) as (NC & MC & HH). assert (EE := HN i Hi). rewrite (HG i Hi) in EE. injection EE as EE. unfold e. rewrite <- EE. cbn [at_m]. clear e.
  set (u := fun k => at_m (nth i (pp_c p) no_mat) r k).
  destruct (ddot_acc tau b Hs Hb Hn (pp_b p) EB L HL j Hj d (fun k Hk => proj2 (Hv k Hk)) u f) as (v & Dv & Bv & F & EV & BS).
  - intros k Hk. apply MC; [exact Hr|]. rewrite NC. exact Hk.
  - exact Hf.
  - intros k Hk. apply Hv. exact Hk.
  - exists v. split; [exact Dv|]. fold n in F, EV, BS, Bv |- *. set (S := Sum n (fun k => Rabs (val (u k)) * arow tau j d k)) in *.
    assert (ES : dcond n j d (fun k => f (node (map val tau) k)) = S). { unfold dcond, S, arow. apply Sum_ext. intros k Hk. rewrite (proj1 (Hv k Hk)). reflexivity. }
    pose proof uro_small as U. pose proof (pos_INR n) as PN. assert (S0 : 0 <= S) by (pose proof (Rabs_pos v); lra). assert (Hn3 : (b * n <= 300)%nat) by lia. pose proof (n_small tau b Hb Hn3) as SN. fold n in SN.
    destruct (quot_acc v S ((14 * INR n + 4) * uro * S + INR n * / 2 ^ 1074) (nsum n (fun k => nmul (u k) (at_m (b_D (pp_b p)) j k))) (fnode (pp_t p) i) (fnode (pp_t p) (i + 1))) as [FQ EQ]; auto.
    + apply FT, fnode_in. lia.
    + apply FT, fnode_in. lia.
    + assert (C1 : (14 * INR n + 4) * uro <= / 2). { assert (INR n <= INR 300) by now apply le_INR. rewrite (INR_IZR_INZ 300) in *. simpl in *. nra. }
      assert (C2 : INR n * / 2 ^ 1074 <= 1). { apply Rle_trans with (2 ^ 10 * / 2 ^ 10); [|right; field]. apply Rmult_le_compat; [exact PN|left; apply Rinv_0_lt_compat, p2_pos| |apply p2_inv_le; lia].
        apply Rle_trans with (INR 300); [now apply le_INR|]. rewrite INR_IZR_INZ, p2_bpow. simpl. lra. }
      rewrite (p2_next 920 : 2 ^ 921 = _). pose proof (p2_ge1 920). nra.
    + split; [exact FQ|]. eapply Rle_trans; [exact EQ|]. fold h. apply Rplus_le_compat_r. unfold Rdiv. apply Rmult_le_compat_r; [left; apply Rinv_0_lt_compat; apply Rabs_pos_lt; exact (Mag_neq 60 _ HH)|]. rewrite ES. lra.
Qed.
