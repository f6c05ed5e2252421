(** binary64 arithmetic by means of Flocq. *)
From Coq Require Import Reals Lra.
From Coq Require Import Floats.SpecFloat.
From Flocq Require Import Core IEEE754.BinarySingleNaN Plus_error Relative.
From Verif Require Import PyBase NumModel NumInst PolySpec F64Spec.
Open Scope list_scope. Open Scope nat_scope. Open Scope R_scope.

Local Instance Hprec : FLX.Prec_gt_0 53 := eq_refl _.
Local Instance Hmax : Prec_lt_emax 53 1024 := eq_refl _.
Notation bf := (binary_float 53 1024).
Notation fx := (SpecFloat.fexp 53 1024).
Notation rnd := (round radix2 fx ZnearestE).
Notation ovf := (bpow radix2 1024).

(** ** The operations of the standard library are those of Flocq. *)
Lemma nearest_even_equiv s m l : round_nearest_even m l = choice_mode mode_NE s m l.
Proof. case l; [reflexivity|intro c]. case c; [ | reflexivity..]. now simpl; unfold Round.cond_incr; case Z.even. Qed.
Lemma round_aux_equiv sx mx ex lx : SpecFloat.binary_round_aux 53 1024 sx mx ex lx = binary_round_aux 53 1024 mode_NE sx mx ex lx.
Proof.
  unfold SpecFloat.binary_round_aux, binary_round_aux. set (mrse' := shr_fexp _ _ _ _ _). case mrse'; intros mrs' e'; simpl.
  now rewrite (nearest_even_equiv sx).
Qed.
Lemma binround_equiv s m e : SpecFloat.binary_round 53 1024 s m e = binary_round 53 1024 mode_NE s m e.
Proof. unfold SpecFloat.binary_round, binary_round, shl_align_fexp. set (mez := shl_align _ _ _); case mez as [mz ez]. apply round_aux_equiv. Qed.
Lemma normalize_equiv m e z : SpecFloat.binary_normalize 53 1024 m e z = B2SF (binary_normalize 53 1024 Hprec Hmax mode_NE m e z).
Proof. case m as [ | p | p]; [now simpl| |]; simpl; rewrite B2SF_SF2B; apply binround_equiv. Qed.
Lemma mul_equiv (x y : bf) : SFmul 53 1024 (B2SF x) (B2SF y) = B2SF (Bmult mode_NE x y).
Proof.
  case x as [sx|sx| |sx mx ex Bx]; case y as [sy|sy| |sy my ey By]; [now trivial.. | ]. simpl. rewrite B2SF_SF2B. apply round_aux_equiv.
Qed.
Lemma add_equiv (x y : bf) : SFadd 53 1024 (B2SF x) (B2SF y) = B2SF (Bplus mode_NE x y).
Proof.
  case x as [sx|sx| |sx mx ex Bx]; case y as [sy|sy| |sy my ey By]; [now (trivial || simpl; case Bool.eqb).. | ]. apply normalize_equiv.
Qed.
Lemma sub_equiv (x y : bf) : SFsub 53 1024 (B2SF x) (B2SF y) = B2SF (Bminus mode_NE x y).
Proof.
  case x as [sx|sx| |sx mx ex Bx]; case y as [sy|sy| |sy my ey By]; [now (trivial || simpl; case Bool.eqb).. | ].
  simpl. unfold Zminus. rewrite <- cond_Zopp_negb. apply normalize_equiv.
Qed.
Lemma div_equiv (x y : bf) : SFdiv 53 1024 (B2SF x) (B2SF y) = B2SF (Bdiv mode_NE x y).
Proof.
  case x as [sx|sx| |sx mx ex Bx]; case y as [sy|sy| |sy my ey By]; [now (trivial || simpl; case Bool.eqb).. | ].
  simpl. rewrite B2SF_SF2B. set (melz := SFdiv_core_binary _ _ _ _ _ _). case melz as [[mz ez] lz]. apply round_aux_equiv.
Qed.

(** ** Finite numbers *)
Lemma lift x : Finite x -> exists b : bf, x = B2SF b /\ is_finite b = true /\ val x = B2R b.
Proof.
  intros [H F]. exists (SF2B x H). rewrite B2SF_SF2B, is_finite_SF2B. repeat split; auto. unfold val. now rewrite B2R_SF2B.
Qed.
Lemma drop (b : bf) : is_finite b = true -> Finite (B2SF b) /\ val (B2SF b) = B2R b.
Proof.
  intros F. repeat split; [apply valid_binary_B2SF| now rewrite is_finite_SF_B2SF |]. unfold val. apply SF2R_B2SF.
Qed.
Lemma val_format x : Finite x -> generic_format radix2 fx (val x).
Proof. intros H. destruct (lift _ H) as (b & -> & _ & ->). apply generic_format_B2R. Qed.
Lemma val_lt x : Finite x -> Rabs (val x) < ovf.
Proof. intros H. destruct (lift _ H) as (b & -> & _ & ->). apply abs_B2R_lt_emax. Qed.
Lemma round_val x : Finite x -> rnd (val x) = val x.
Proof. intros H. apply round_generic; [typeclasses eauto|]. now apply val_format. Qed.

Lemma add_ok x y : Finite x -> Finite y -> Rabs (rnd (val x + val y)) < ovf -> Is (SFadd 53 1024 x y) (rnd (val x + val y)).
Proof.
  intros Hx Hy. destruct (lift _ Hx) as (b & -> & F & ->), (lift _ Hy) as (c & -> & G & ->). intros H. rewrite add_equiv.
  generalize (Bplus_correct 53 1024 Hprec Hmax mode_NE b c F G). simpl round_mode. rewrite Rlt_bool_true by exact H. intros (E & K & _).
  destruct (drop _ K) as [D V]. split; [exact D| now rewrite V].
Qed.
Lemma sub_ok x y : Finite x -> Finite y -> Rabs (rnd (val x - val y)) < ovf -> Is (SFsub 53 1024 x y) (rnd (val x - val y)).
Proof.
  intros Hx Hy. destruct (lift _ Hx) as (b & -> & F & ->), (lift _ Hy) as (c & -> & G & ->). intros H. rewrite sub_equiv.
  generalize (Bminus_correct 53 1024 Hprec Hmax mode_NE b c F G). simpl round_mode. rewrite Rlt_bool_true by exact H. intros (E & K & _).
  destruct (drop _ K) as [D V]. split; [exact D| now rewrite V].
Qed.
Lemma mul_ok x y : Finite x -> Finite y -> Rabs (rnd (val x * val y)) < ovf -> Is (SFmul 53 1024 x y) (rnd (val x * val y)).
Proof.
  intros Hx Hy. destruct (lift _ Hx) as (b & -> & F & ->), (lift _ Hy) as (c & -> & G & ->). intros H. rewrite mul_equiv.
  generalize (Bmult_correct 53 1024 Hprec Hmax mode_NE b c). simpl round_mode. rewrite Rlt_bool_true by exact H. intros (E & K & _).
  rewrite F, G in K. destruct (drop _ K) as [D V]. split; [exact D| now rewrite V].
Qed.
Lemma div_ok x y : Finite x -> Finite y -> val y <> 0 -> Rabs (rnd (val x / val y)) < ovf -> Is (SFdiv 53 1024 x y) (rnd (val x / val y)).
Proof.
  intros Hx Hy. destruct (lift _ Hx) as (b & -> & F & ->), (lift _ Hy) as (c & -> & G & ->). intros N H. rewrite div_equiv.
  generalize (Bdiv_correct 53 1024 Hprec Hmax mode_NE b c N). simpl round_mode. rewrite Rlt_bool_true by exact H. intros (E & K & _).
  rewrite F in K. destruct (drop _ K) as [D V]. split; [exact D| now rewrite V].
Qed.
(** What the result is when it is finite *)
Lemma sub_val x y : Finite x -> Finite y -> Finite (SFsub 53 1024 x y) -> val (SFsub 53 1024 x y) = rnd (val x - val y).
Proof.
  intros Hx Hy. destruct (lift _ Hx) as (b & -> & F & ->), (lift _ Hy) as (c & -> & G & ->). rewrite sub_equiv.
  generalize (Bminus_correct 53 1024 Hprec Hmax mode_NE b c F G). simpl round_mode. destruct Rlt_bool eqn:E.
  - intros (V & K & _) _. destruct (drop _ K) as [_ ->]. exact V.
  - intros (V & _) [_ K]. rewrite V in K. discriminate K.
Qed.
Lemma add_val x y : Finite x -> Finite y -> Finite (SFadd 53 1024 x y) -> val (SFadd 53 1024 x y) = rnd (val x + val y).
Proof.
  intros Hx Hy. destruct (lift _ Hx) as (b & -> & F & ->), (lift _ Hy) as (c & -> & G & ->). rewrite add_equiv.
  generalize (Bplus_correct 53 1024 Hprec Hmax mode_NE b c F G). simpl round_mode. destruct Rlt_bool eqn:E.
  - intros (V & K & _) _. destruct (drop _ K) as [_ ->]. exact V.
  - intros (V & _) [_ K]. rewrite V in K. discriminate K.
Qed.
Lemma ltb_val x y : Finite x -> Finite y -> SFltb x y = Rlt_b (val x) (val y).
Proof.
  intros Hx Hy. destruct (lift _ Hx) as (b & -> & F & ->), (lift _ Hy) as (c & -> & G & ->).
  change (Bltb b c = Rlt_b (B2R b) (B2R c)). rewrite Bltb_correct by assumption. unfold Rlt_b. destruct Rlt_dec; [apply Rlt_bool_true|apply Rlt_bool_false]; lra.
Qed.
Lemma eqb_val x y : Finite x -> Finite y -> SFeqb x y = Req_b (val x) (val y).
Proof.
  intros Hx Hy. destruct (lift _ Hx) as (b & -> & F & ->), (lift _ Hy) as (c & -> & G & ->).
  change (Beqb b c = Req_b (B2R b) (B2R c)). rewrite Beqb_correct by assumption. unfold Req_b. destruct Req_EM_T; [now apply Req_bool_true|now apply Req_bool_false].
Qed.
Lemma zero_fin : Is (S754_zero false) 0.
Proof. repeat split. Qed.
Lemma one_fin : Is (f64_of_Z 1) 1.
Proof. split; [split; reflexivity|]. unfold val. replace (f64_of_Z 1) with (S754_finite false 4503599627370496 (-52)) by reflexivity. simpl. unfold F2R. simpl. lra. Qed.

(** ** Exact results *)
Lemma add_exact x y r : Finite x -> Finite y -> val x + val y = r -> generic_format radix2 fx r -> Rabs r < ovf -> Is (SFadd 53 1024 x y) r.
Proof.
  intros Hx Hy E F B. assert (K : rnd (val x + val y) = r) by (rewrite E; apply round_generic; [typeclasses eauto|exact F]).
  rewrite <- K. apply add_ok; auto. now rewrite K.
Qed.
Lemma mul_exact x y r : Finite x -> Finite y -> val x * val y = r -> generic_format radix2 fx r -> Rabs r < ovf -> Is (SFmul 53 1024 x y) r.
Proof.
  intros Hx Hy E F B. assert (K : rnd (val x * val y) = r) by (rewrite E; apply round_generic; [typeclasses eauto|exact F]).
  rewrite <- K. apply mul_ok; auto. now rewrite K.
Qed.
Lemma ovf_pos : 0 < ovf. Proof. apply bpow_gt_0. Qed.
Lemma mul_zero x y : Finite x -> Is y 0 -> Is (SFmul 53 1024 x y) 0.
Proof. intros Hx [Hy E]. apply mul_exact; auto; [rewrite E; ring|apply generic_format_0|rewrite Rabs_R0; apply ovf_pos]. Qed.
Lemma zero_mul x y : Is x 0 -> Finite y -> Is (SFmul 53 1024 x y) 0.
Proof. intros [Hx E] Hy. apply mul_exact; auto; [rewrite E; ring|apply generic_format_0|rewrite Rabs_R0; apply ovf_pos]. Qed.
Lemma mul_one x y : Finite x -> Is y 1 -> Is (SFmul 53 1024 x y) (val x).
Proof. intros Hx [Hy E]. apply mul_exact; auto; [rewrite E; ring|now apply val_format|now apply val_lt]. Qed.
Lemma add_zero x y r : Is x r -> Is y 0 -> Is (SFadd 53 1024 x y) r.
Proof. intros [Hx <-] [Hy E]. apply add_exact; auto; [rewrite E; ring|now apply val_format|now apply val_lt]. Qed.
Lemma zero_add x y r : Is x 0 -> Is y r -> Is (SFadd 53 1024 x y) r.
Proof. intros [Hx E] [Hy <-]. apply add_exact; auto; [rewrite E; ring|now apply val_format|now apply val_lt]. Qed.

(** ** Local times *)
Lemma rnd_le x y : x <= y -> rnd x <= rnd y.
Proof. apply round_le; typeclasses eauto. Qed.
Lemma rnd_0 : rnd 0 = 0.
Proof. apply round_0. typeclasses eauto. Qed.
Lemma format_1 : generic_format radix2 fx 1.
Proof. destruct one_fin as [F <-]. now apply val_format. Qed.
Lemma rnd_1 : rnd 1 = 1.
Proof. apply round_generic; [typeclasses eauto|apply format_1]. Qed.
Lemma one_lt_ovf : 1 < ovf.
Proof. change 1 with (bpow radix2 0). apply bpow_lt. lia. Qed.

Section Local.
Context (a b : f64) (Fa : Finite a) (Fb : Finite b) (Hab : val a < val b) (Fh : Finite (SFsub 53 1024 b a)).
Notation h := (SFsub 53 1024 b a).
Lemma h_val : val h = rnd (val b - val a).
Proof. now apply sub_val. Qed.
Lemma h_pos : 0 < val h.
Proof.
  rewrite h_val. assert (0 <= rnd (val b - val a)) by (rewrite <- rnd_0; apply rnd_le; lra).
  assert (rnd (val b - val a) <> 0); [|lra]. unfold Rminus. apply round_plus_neq_0; try typeclasses eauto; [now apply val_format|apply generic_format_opp; now apply val_format|lra].
Qed.
Lemma dist_ok t : Finite t -> val a <= val t <= val b -> Is (SFsub 53 1024 t a) (rnd (val t - val a)) /\ 0 <= rnd (val t - val a) <= val h.
Proof.
  intros Ft [L U]. assert (K : 0 <= rnd (val t - val a) <= val h).
  { rewrite h_val. split; [rewrite <- rnd_0|]; apply rnd_le; lra. }
  split; [|exact K]. apply sub_ok; auto. rewrite Rabs_pos_eq by tauto. apply Rle_lt_trans with (val h); [tauto|]. rewrite <- (Rabs_pos_eq (val h)) by (pose proof h_pos; lra). now apply val_lt.
Qed.
Definition ltime t := SFdiv 53 1024 (SFsub 53 1024 t a) h.
Lemma quot_range t : Finite t -> val a <= val t <= val b -> 0 <= rnd (val t - val a) / val h <= 1.
Proof.
  intros Ft H. destruct (dist_ok t Ft H) as [_ [K0 K1]]. pose proof h_pos as P. split.
  - apply Rmult_le_pos; [exact K0|]. left. now apply Rinv_0_lt_compat.
  - apply Rmult_le_reg_r with (val h); [exact P|]. unfold Rdiv. rewrite Rmult_assoc, Rinv_l by lra. lra.
Qed.
Lemma ltime_val t : Finite t -> val a <= val t <= val b -> Is (ltime t) (rnd (rnd (val t - val a) / val h)) /\ 0 <= val (ltime t) <= 1.
Proof.
  intros Ft H. destruct (dist_ok t Ft H) as [[D E] _]. pose proof (quot_range t Ft H) as Q. pose proof h_pos as P.
  assert (B : 0 <= rnd (rnd (val t - val a) / val h) <= 1).
  { split; [rewrite <- rnd_0|rewrite <- rnd_1]; apply rnd_le; tauto. }
  assert (K : Is (ltime t) (rnd (rnd (val t - val a) / val h))).
  { rewrite <- E. unfold ltime. apply div_ok; auto; [lra|]. rewrite E. rewrite Rabs_pos_eq by tauto. pose proof one_lt_ovf. lra. }
  split; [exact K|]. destruct K as [_ ->]. exact B.
Qed.
Lemma ltime_left t : Finite t -> val t = val a -> Is (ltime t) 0.
Proof.
  intros Ft E. assert (R : val a <= val t <= val b) by lra. destruct (ltime_val t Ft R) as [K _]. rewrite E, Rminus_eq_0 in K. unfold Rdiv in K. rewrite rnd_0, Rmult_0_l, rnd_0 in K. exact K.
Qed.
Lemma ltime_right t : Finite t -> val t = val b -> Is (ltime t) 1.
Proof.
  intros Ft E. assert (R : val a <= val t <= val b) by lra. destruct (ltime_val t Ft R) as [K _]. rewrite E, <- h_val in K. pose proof h_pos. unfold Rdiv in K. rewrite Rinv_r, rnd_1 in K by lra. exact K.
Qed.
Lemma ltime_mono t t' : Finite t -> Finite t' -> val a <= val t -> val t <= val t' -> val t' <= val b -> val (ltime t) <= val (ltime t').
Proof.
  intros F F' H1 H2 H3. destruct (ltime_val t F) as [[_ ->] _]; [lra|]. destruct (ltime_val t' F') as [[_ ->] _]; [lra|].
  apply rnd_le. unfold Rdiv. apply Rmult_le_compat_r; [left; apply Rinv_0_lt_compat, h_pos|]. apply rnd_le. lra.
Qed.
Lemma rnd_minus x y : Finite x -> Finite y -> exists d, Rabs d <= bpow radix2 (-53) /\ rnd (val x - val y) = (val x - val y) * (1 + d).
Proof.
  intros Fx Fy. destruct (FLT_plus_error_N_ex radix2 (SpecFloat.emin 53 1024) 53 (fun x => negb (Z.even x)) (val x) (- val y)) as (d & D & E).
  - apply (val_format x Fx).
  - apply generic_format_opp. apply (val_format y Fy).
  - exists d. split; [|exact E]. eapply Rle_trans; [exact D|]. unfold u_ro. replace (/ 2 * bpow radix2 (- (53) + 1)) with (bpow radix2 (-53)) by (simpl; lra).
    assert (P := bpow_gt_0 radix2 (-53)). apply Rmult_le_reg_r with (1 + bpow radix2 (-53)); [lra|]. unfold Rdiv. rewrite Rmult_assoc, Rinv_l by lra. nra.
Qed.
Lemma rnd_unit x : 0 <= x <= 1 -> Rabs (rnd x - x) <= bpow radix2 (-53).
Proof.
  intros H. eapply Rle_trans; [apply error_le_half_ulp; typeclasses eauto|].
  replace (bpow radix2 (-53)) with (/ 2 * ulp radix2 fx 1).
  - apply Rmult_le_compat_l; [lra|]. apply ulp_le; try typeclasses eauto. rewrite !Rabs_pos_eq by lra. lra.
  - rewrite ulp_neq_0 by lra. unfold cexp. rewrite mag_1. simpl. lra.
Qed.
Lemma ltime_error t : Finite t -> val a <= val t <= val b -> Rabs (val (ltime t) - (val t - val a) / (val b - val a)) <= 4 * bpow radix2 (-53).
Proof.
  intros Ft H. destruct (ltime_val t Ft H) as [[_ ->] _]. pose proof (quot_range t Ft H) as Q. pose proof (rnd_unit _ Q) as R1.
  destruct (rnd_minus t a Ft Fa) as (d1 & D1 & E1). destruct (rnd_minus b a Fb Fa) as (d2 & D2 & E2). rewrite h_val, E1, E2 in *.
  set (u := bpow radix2 (-53)) in *. assert (U : 0 < u <= /1000) by (unfold u; simpl; lra).
  apply Rabs_le_inv in D1, D2.
  set (A := val t - val a) in *. set (H0 := val b - val a) in *. assert (0 <= A <= H0) by (unfold A, H0; lra). assert (0 < H0) by (unfold H0; lra).
  assert (S : 0 <= A / H0 <= 1).
  { split; [apply Rmult_le_pos; [tauto|left; now apply Rinv_0_lt_compat]|]. apply Rmult_le_reg_r with H0; [assumption|]. unfold Rdiv. rewrite Rmult_assoc, Rinv_l by lra. lra. }
  assert (X : A * (1 + d1) / (H0 * (1 + d2)) - A / H0 = A / H0 * ((d1 - d2) / (1 + d2))) by (field; lra).
  assert (Y : Rabs ((d1 - d2) / (1 + d2)) <= 2 * u + u / 2).
  { unfold Rdiv. rewrite Rabs_mult, (Rabs_pos_eq (/ (1 + d2))) by (left; apply Rinv_0_lt_compat; lra).
    apply Rmult_le_reg_r with (1 + d2); [lra|]. rewrite Rmult_assoc, Rinv_l, Rmult_1_r by lra. apply Rabs_le. split; nra. }
  assert (W : Rabs (A * (1 + d1) / (H0 * (1 + d2)) - A / H0) <= 2 * u + u / 2).
  { rewrite X, Rabs_mult, (Rabs_pos_eq (A / H0)) by tauto. pose proof (Rabs_pos ((d1 - d2) / (1 + d2))). nra. }
  replace (rnd (A * (1 + d1) / (H0 * (1 + d2))) - A / H0) with (rnd (A * (1 + d1) / (H0 * (1 + d2))) - A * (1 + d1) / (H0 * (1 + d2)) + (A * (1 + d1) / (H0 * (1 + d2)) - A / H0)) by ring.
  eapply Rle_trans; [apply Rabs_triang|]. lra.
Qed.
End Local.
