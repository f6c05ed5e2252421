(** Accuracy of [interpolationMatrix], [barycentricInterpolator], the differentiation
    matrix and [PiecewisePoly] in binary64 (C105). *)
From Coq Require Import Reals Lra Lia.
From Coq Require Import Floats.SpecFloat.
From Coquelicot Require Import Coquelicot.
From Verif Require Import PyBase NumModel NumInst PolynomialModel PiecewiseModel PolySpec PolyMath PolynomialBase PolynomialThms F64Spec F64Thms F64Thms2 F64Thms3 RndSpec RndThms RndThms2.
Open Scope list_scope. Open Scope nat_scope. Open Scope R_scope.
#[local] Existing Instance numF.

Lemma basis64_eq (tau : list f64) B : basis_ (PVec tau) = Ok B -> tau <> [] /\ B = Basis (map (lagrange tau) (seq 0 (length tau)))
    (Mat (length tau) (length tau) (diff_entry tau (map (bary_lam tau) (seq 0 (length tau))))) tau (map (bary_lam tau) (seq 0 (length tau))).
Proof. unfold basis_. cbn [atleast_1d rbind]. destruct tau; intros E; [discriminate|]. split; [discriminate|]. cbn in E. injection E as <-. reflexivity. Qed.

Section Acc.
Context (tau : list f64) (b : nat).
Notation n := (length tau).
Notation rt := (map val tau).
Context (Hs : Spread b tau) (Hb : (1 <= b)%nat) (Hn : (b * n <= 300)%nat) (B : basis f64) (EB : basis_ (PVec tau) = Ok B).
Context (L : nat -> R -> R) (HL : Cardinals rt L).

Lemma pos_n : (0 < n)%nat. Proof. destruct (basis64_eq tau B EB) as [N _]. destruct tau; [contradiction|simpl; lia]. Qed.
Lemma card_lagrange k t : (k < n)%nat -> L k t = polyval (lagrange rt k) t.
Proof.
  intros Hk. assert (Hk' : (k < length rt)%nat) by now rewrite map_length. pose proof (rt_nodup tau b Hs) as ND. destruct (HL k Hk') as [P V].
  apply (poly_unique (length rt) _ _ rt); auto; [now apply lagrange_poly|]. intros a Ha. apply node_in in Ha. destruct Ha as (j & Hj & <-). rewrite V, lagrange_delta by assumption. rewrite Nat.eqb_sym. reflexivity.
Qed.
Lemma rate_pos : 0 < rate n. Proof. unfold rate. pose proof (pos_INR n). pose proof uro_small. nra. Qed.
Lemma leb_eq x : Leb n L x = Sum n (fun k => Rabs (polyval (lagrange rt k) x)).
Proof. unfold Leb. apply Sum_ext. intros k Hk. now rewrite card_lagrange. Qed.
Lemma err_pos f x : 0 <= err_bound rt L f x.
Proof.
  unfold err_bound, cond, Leb. rewrite map_length. pose proof rate_pos. pose proof (pos_INR n). pose proof (Rinv_0_lt_compat _ (p2_pos 1074)).
  assert (S0 : forall g, (forall k, (k < n)%nat -> 0 <= g k) -> 0 <= Sum n g). { intros g Hg. apply Rle_trans with (Sum n (fun _ => 0)); [rewrite Sum_0; [lra|reflexivity]|]. now apply rsum_le. }
  assert (0 <= Sum n (fun k => Rabs (f (node rt k)) * Rabs (L k x))) by (apply S0; intros; apply Rmult_le_pos; apply Rabs_pos).
  assert (0 <= Sum n (fun k => Rabs (L k x))) by (apply S0; intros; apply Rabs_pos). pose proof (Rabs_pos (f x)).
  apply Rplus_le_le_0_compat; [apply Rmult_le_pos; [lra|apply Rplus_le_le_0_compat; [assumption|now apply Rmult_le_pos]]|apply Rmult_le_pos; lra].
Qed.

(** One query *)
Lemma query_acc x : Query b tau x -> rate n * Leb n L (val x) <= / 2 ->
  exists row, interp_row B x = Ok row /\ length row = n /\
    (forall k, (k < n)%nat -> Finite (vget row k) /\ Rabs (val (vget row k) - L k (val x)) <= 4 * rate n * Leb n L (val x) * Rabs (L k (val x))) /\
    forall (u : nat -> f64) f, (forall k, (k < n)%nat -> Finite (u k) /\ Rabs (val (u k)) <= 2 ^ 300) -> PolyLt n f -> (forall k, (k < n)%nat -> f (node rt k) = val (u k)) ->
      Finite (nsum n (fun k => nmul (u k) (vget row k))) /\ Rabs (val (nsum n (fun k => nmul (u k) (vget row k))) - f (val x)) <= err_bound rt L f (val x).
Proof.
  intros [Fx HQ] Hc. pose proof pos_n as Hpos. pose proof (rt_nodup tau b Hs) as ND. destruct (basis64_eq tau B EB) as [Hne EB'].
  assert (HD : DistinctF (b_tau B)) by (rewrite EB'; cbn [b_tau]; split; [apply Hs|exact ND]).
  destruct HQ as [(j & Hj & E)|HA].
  - destruct (row_node B x j HD) as (row & ER & LR & HR); [rewrite EB'; exact Hj|exact Fx|rewrite EB'; exact E|]. replace (b_tau B) with tau in * by (rewrite EB'; reflexivity).
    exists row. split; [exact ER|]. split; [exact LR|].
    assert (VL : forall k, (k < n)%nat -> L k (val x) = if (k =? j)%nat then 1 else 0).
    { intros k Hk. rewrite E, fnode_val. rewrite (proj2 (HL k ltac:(now rewrite map_length)) j) by now rewrite map_length. now rewrite Nat.eqb_sym. }
    split.
    + intros k Hk. rewrite HR, VL by exact Hk. pose proof rate_pos. assert (0 <= Leb n L (val x)). { unfold Leb. apply Rle_trans with (Sum n (fun _ => 0)); [rewrite Sum_0; [lra|reflexivity]|]. apply rsum_le. intros. apply Rabs_pos. }
      destruct (Nat.eqb_spec k j).
      * destruct one_fin as [F V]. split; [exact F|]. change (@n1 f64 _) with (f64_of_Z 1). rewrite V. replace (1 - 1) with 0 by ring. rewrite Rabs_R0. apply Rmult_le_pos; [nra|apply Rabs_pos].
      * split; [apply zero_fin|]. change (val (@n0 f64 _)) with 0. replace (0 - 0) with 0 by ring. rewrite Rabs_R0. lra.
    + intros u f Hu Hf Hv. assert (I : Is (nsum n (fun k => nmul (u k) (vget row k))) (val (u j))).
      { apply (sum_single _ _ j); [exact Hj| |].
        - rewrite HR, Nat.eqb_refl by exact Hj. apply mul_one; [now apply Hu|apply one_fin].
        - intros k Hk Nk. rewrite HR by exact Hk. destruct (Nat.eqb_spec k j); [contradiction|]. apply mul_zero; [now apply Hu|apply zero_fin]. }
      destruct I as [F V]. split; [exact F|]. rewrite V, E, fnode_val, <- (Hv j Hj), Rminus_eq_0, Rabs_R0. apply err_pos.
  - rewrite leb_eq in Hc. unfold rate in Hc. destruct (row_near tau b Hs Hb Hn x Fx HA Hpos Hc) as (row & sg & phi & ER & LR & SG & HR). rewrite <- EB' in ER. exists row. split; [exact ER|]. split; [exact LR|]. split.
    + intros k Hk. destruct (HR k Hk) as [R I]. split; [apply I|]. rewrite leb_eq. rewrite card_lagrange by exact Hk. exact (entry_near tau b Hs Hb Hn x Hpos Hc (vget row k) sg phi k SG R I).
    + intros u f Hu Hf Hv. destruct (dot_near tau b Hs Hb Hn x HA Hpos Hc u (fun k => vget row k) sg phi SG HR Hu) as [F E]. split; [exact F|].
      assert (EV : Sum n (fun k => val (u k) * polyval (lagrange rt k) (val x)) = f (val x)).
      { rewrite (lagrange_interp rt f ND) by now rewrite map_length. rewrite map_length. apply Sum_ext. intros k Hk. now rewrite Hv. }
      rewrite EV in E. eapply Rle_trans; [exact E|]. unfold err_bound, cond, rate. rewrite map_length, leb_eq. right. do 3 f_equal. apply Sum_ext. intros k Hk. now rewrite Hv, card_lagrange.
Qed.
Lemma rows_acc ts : (forall x, In x ts -> Query b tau x /\ rate n * Leb n L (val x) <= / 2) -> ts <> [] ->
  exists M, interp_matrix B (PVec ts) = Ok M /\ nr M = length ts /\ nc M = n /\ forall i, (i < length ts)%nat ->
    (forall k, (k < n)%nat -> Finite (at_m M i k) /\ Rabs (val (at_m M i k) - L k (val (fnode ts i))) <= 4 * rate n * Leb n L (val (fnode ts i)) * Rabs (L k (val (fnode ts i)))) /\
    forall (u : nat -> f64) f, (forall k, (k < n)%nat -> Finite (u k) /\ Rabs (val (u k)) <= 2 ^ 300) -> PolyLt n f -> (forall k, (k < n)%nat -> f (node rt k) = val (u k)) ->
      Finite (nsum n (fun k => nmul (u k) (at_m M i k))) /\ Rabs (val (nsum n (fun k => nmul (u k) (at_m M i k))) - f (val (fnode ts i))) <= err_bound rt L f (val (fnode ts i)).
Proof.
  intros H Hne. assert (ET : b_tau B = tau) by (destruct (basis64_eq tau B EB) as [_ ->]; reflexivity). unfold interp_matrix. cbn [atleast_1d rbind].
  destruct (rmapM_fwd (interp_row B) (fun x row =>
    (forall k, (k < n)%nat -> Finite (vget row k) /\ Rabs (val (vget row k) - L k (val x)) <= 4 * rate n * Leb n L (val x) * Rabs (L k (val x))) /\
    forall (u : nat -> f64) f, (forall k, (k < n)%nat -> Finite (u k) /\ Rabs (val (u k)) <= 2 ^ 300) -> PolyLt n f -> (forall k, (k < n)%nat -> f (node rt k) = val (u k)) ->
      Finite (nsum n (fun k => nmul (u k) (vget row k))) /\ Rabs (val (nsum n (fun k => nmul (u k) (vget row k))) - f (val x)) <= err_bound rt L f (val x)) ts) as (rr & Er & Hr).
  { intros x Hx. destruct (H x Hx) as [HQ Hc]. destruct (query_acc x HQ Hc) as (row & E & _ & P). eauto. }
  rewrite Er. cbn [rbind]. assert (LR : length rr = length ts) by (eapply F2_len; eauto). destruct rr as [|r0 rr']; [destruct ts; [contradiction|discriminate LR]|]. set (rr := r0 :: rr') in *.
  eexists. split; [reflexivity|]. cbn [vstack_rows nr nc at_m]. rewrite ET. split; [exact LR|]. split; [reflexivity|]. intros i Hi. pose proof (Forall2_nth' _ ts rr (S754_zero false) [] i Hr Hi) as P. exact P.
Qed.

(** [interpolationMatrix] *)
Theorem matrix_accuracy ts : (forall x, In x ts -> Query b tau x /\ rate n * Leb n L (val x) <= / 2) -> ts <> [] ->
  exists M, interp_matrix B (PVec ts) = Ok M /\ nr M = length ts /\ nc M = n /\ forall i k, (i < length ts)%nat -> (k < n)%nat ->
    Finite (at_m M i k) /\ Rabs (val (at_m M i k) - L k (val (fnode ts i))) <= 4 * rate n * Leb n L (val (fnode ts i)) * Rabs (L k (val (fnode ts i))).
Proof. intros H Hne. destruct (rows_acc ts H Hne) as (M & E & A & C & P). exists M. repeat (split; [assumption|]). intros i k Hi Hk. now apply P. Qed.
Lemma dot_acc (u M : mat f64) (x : nat -> R) : nc u = n -> Moderate u -> nc M = n ->
  (forall i, (i < nr M)%nat -> forall (u : nat -> f64) f, (forall k, (k < n)%nat -> Finite (u k) /\ Rabs (val (u k)) <= 2 ^ 300) -> PolyLt n f -> (forall k, (k < n)%nat -> f (node rt k) = val (u k)) ->
      Finite (nsum n (fun k => nmul (u k) (at_m M i k))) /\ Rabs (val (nsum n (fun k => nmul (u k) (at_m M i k))) - f (x i)) <= err_bound rt L f (x i)) ->
  exists Y, mdot u (mtr M) = Ok Y /\ nr Y = nr u /\ nc Y = nr M /\ forall i k f, (i < nr u)%nat -> (k < nr M)%nat -> PolyLt n f -> (forall j, (j < n)%nat -> f (node rt j) = val (at_m u i j)) ->
    Finite (at_m Y i k) /\ Rabs (val (at_m Y i k) - f (x k)) <= err_bound rt L f (x k).
Proof.
  intros Hu Mu NM H. unfold mdot. cbn [mtr nr nc at_m]. rewrite NM, Hu, Nat.eqb_refl. eexists. split; [reflexivity|]. cbn [nr nc at_m]. split; [reflexivity|]. split; [reflexivity|].
  intros i k f Hi Hk Hf Hv. apply (H k Hk (fun j => at_m u i j) f); auto. intros j Hj. apply Mu; [exact Hi|now rewrite Hu].
Qed.
(** [PiecewisePoly] with this basis *)
Section Call.
Context (p : ppoly f64) (EP : pp_b p = B) (Hl : (2 <= length (pp_t p))%nat) (HC : length (pp_c p) = (length (pp_t p) - 1)%nat) (HA : AscF (pp_t p)) (HS : StepsF (pp_t p)).
Theorem call_accuracy x c i : Finite x -> c = "left"%string \/ c = "right"%string -> Within (map val (pp_t p)) (to_right c) (val x) i ->
  val (fnode (pp_t p) i) <= val x <= val (fnode (pp_t p) (i + 1)) ->
  let s := local_time (pp_t p) i x in let C := nth i (pp_c p) no_mat in
  Query b tau s -> rate n * Leb n L (val s) <= / 2 -> nc C = n -> Moderate C ->
  exists Y, pp_call p (PNum x) c = Ok Y /\ nr Y = nr C /\ nc Y = 1%nat /\
    forall r f g G, (r < nr C)%nat -> PolyLt n f -> (forall j, (j < n)%nat -> f (node rt j) = val (at_m C r j)) ->
      (forall t, 0 <= t <= 1 -> is_derive f t (g t) /\ Rabs (g t) <= G) ->
      Finite (at_m Y r 0) /\
      Rabs (val (at_m Y r 0) - f ((val x - val (fnode (pp_t p) i)) / (val (fnode (pp_t p) (i + 1)) - val (fnode (pp_t p) i)))) <= err_bound rt L f (val s) + 4 * uro * G.
Proof.
  intros Fx Hc HW HI s C HQ Hr NC MC. rewrite (call_local p Hl HC HA x c i Fx Hc HW). fold s C. rewrite EP. change (interp_matrix B (PNum s)) with (interp_matrix B (PVec [s])).
  destruct (rows_acc [s]) as (M & EM & M1 & M2 & HM); [intros y [<-|[]]; auto|discriminate|]. rewrite EM. cbn [rbind].
  destruct (dot_acc C M (fun _ => val s) NC MC M2) as (Y & EY & Y1 & Y2 & HY); [intros k Hk u f Hu Hf Hv; rewrite M1 in Hk; cbn in Hk; destruct k; [|lia]; apply (HM 0%nat ltac:(simpl; lia)); auto|].
  exists Y. split; [exact EY|]. split; [exact Y1|]. split; [rewrite Y2, M1; reflexivity|]. intros r f g G Hrr Hf Hv Hg.
  destruct (HY r 0%nat f Hrr) as [F E]; auto; [rewrite M1; simpl; lia|]. split; [exact F|].
  assert (Hi : (i + 1 < length (pp_t p))%nat) by (destruct HW as (Hi & _); rewrite map_length in Hi; exact Hi).
  destruct (local_range (pp_t p) HA HS i Hi x Fx HI) as (_ & R01 & EL & _). fold s in R01, EL. destruct (times_side (pp_t p) HA HS i Hi) as (_ & _ & Hab & _).
  set (q := (val x - val (fnode (pp_t p) i)) / (val (fnode (pp_t p) (i + 1)) - val (fnode (pp_t p) i))) in *.
  assert (Q01 : 0 <= q <= 1).
  { unfold q. split; [apply Rmult_le_pos; [lra|left; apply Rinv_0_lt_compat; lra]|]. apply Rmult_le_reg_r with (val (fnode (pp_t p) (i + 1)) - val (fnode (pp_t p) i)); [lra|]. unfold Rdiv. rewrite Rmult_assoc, Rinv_l by lra. lra. }
  replace (val (at_m Y r 0) - f q) with ((val (at_m Y r 0) - f (val s)) + (f (val s) - f q)) by ring. eapply Rle_trans; [apply Rabs_triang|]. apply Rplus_le_compat; [exact E|].
  assert (G0 : 0 <= G) by (pose proof (proj2 (Hg 0 ltac:(lra))); pose proof (Rabs_pos (g 0)); lra).
  destruct (MVT_gen f q (val s) g) as (z & Hz & EZ).
  - intros t Ht. apply Hg. unfold Rmin, Rmax in Ht. destruct (Rle_dec q (val s)); lra.
  - intros t Ht. apply continuity_pt_filterlim. apply (ex_derive_continuous f). eexists. apply Hg. unfold Rmin, Rmax in Ht. destruct (Rle_dec q (val s)); lra.
  - rewrite EZ, Rabs_mult, Rmult_comm. apply Rmult_le_compat; [apply Rabs_pos|apply Rabs_pos| |].
    + eapply Rle_trans; [exact EL|]. right. f_equal.
    + apply Hg. unfold Rmin, Rmax in Hz. destruct (Rle_dec q (val s)); lra.
Qed.
End Call.
(** The differentiation matrix *)
Theorem diff_accuracy : nr (b_D B) = n /\ nc (b_D B) = n /\ forall j (d : nat -> R), (j < n)%nat -> (forall k, (k < n)%nat -> is_derive (L k) (node rt j) (d k)) ->
  (forall k, (k < n)%nat -> Finite (at_m (b_D B) j k)) /\
  (forall k, (k < n)%nat -> k <> j -> Rabs (val (at_m (b_D B) j k) - d k) <= (8 * INR n + 2) * uro * Rabs (d k)) /\
  Rabs (val (at_m (b_D B) j j) - d j) <= 10 * INR n * uro * SumBut n j (fun k => Rabs (d k)).
Proof.
  destruct (basis64_eq tau B EB) as [_ EB']. rewrite EB'. cbn [b_D nr nc at_m]. split; [reflexivity|]. split; [reflexivity|]. intros j d Hj Hd.
  pose proof (rt_nodup tau b Hs) as ND. pose proof (n_small tau b Hb Hn).
  assert (E : forall k, (k < n)%nat -> d k = dcoef rt j k).
  { intros k Hk. assert (D1 : is_derive (L k) (node rt j) (dcoef rt j k)).
    { apply (is_derive_ext (polyval (lagrange rt k))); [intros t; symmetry; now apply card_lagrange|]. apply dcoef_derive; auto; now rewrite map_length. }
    apply is_derive_unique in D1. rewrite <- D1. symmetry. apply is_derive_unique. now apply Hd. }
  destruct (diff_diag tau b Hs Hb Hn j Hj) as [FD ED]. split; [|split].
  - intros k Hk. destruct (Nat.eq_dec k j) as [->|N]; [exact FD|]. apply (diff_off tau b Hs Hb Hn j k Hj Hk). auto.
  - intros k Hk N. rewrite E by exact Hk. destruct (diff_off tau b Hs Hb Hn j k Hj Hk) as [_ NR]; [auto|]. eapply Rle_trans; [apply Near_err with (k := (4 * n + 1)%nat); [lia|exact NR]|]. right. f_equal. f_equal.
    rewrite plus_INR, mult_INR. change (INR 4) with (1 + 1 + 1 + 1). change (INR 1) with 1. ring.
  - rewrite E by exact Hj. eapply Rle_trans; [exact ED|]. right. f_equal. unfold SumBut. apply Sum_ext. intros k Hk. now rewrite E.
Qed.
End Acc.

(** [barycentricInterpolator] *)
Theorem interpolator_accuracy tau b L u ts : Spread b tau -> (1 <= b)%nat -> (b * length tau <= 300)%nat -> Cardinals (map val tau) L -> tau <> [] -> ts <> [] -> nc u = length tau -> Moderate u ->
  (forall x, In x ts -> Query b tau x /\ rate (length tau) * Leb (length tau) L (val x) <= / 2) ->
  exists Y, bary_interpolator (PVec tau) u (PVec ts) = Ok Y /\ nr Y = nr u /\ nc Y = length ts /\
    forall i k f, (i < nr u)%nat -> (k < length ts)%nat -> PolyLt (length tau) f -> (forall j, (j < length tau)%nat -> f (node (map val tau) j) = val (at_m u i j)) ->
      Finite (at_m Y i k) /\ Rabs (val (at_m Y i k) - f (val (fnode ts k))) <= err_bound (map val tau) L f (val (fnode ts k)).
Proof.
  intros Hs Hb Hn HL Ht Hts Hu Mu HQ. unfold bary_interpolator. destruct (basis_ (PVec tau)) as [B|] eqn:EB; [|unfold basis_ in EB; cbn [atleast_1d rbind] in EB; destruct tau; [contradiction|discriminate EB]].
  cbn [rbind]. destruct (rows_acc tau b Hs Hb Hn B EB L HL ts HQ Hts) as (M & EM & M1 & M2 & HM). rewrite EM. cbn [rbind].
  destruct (dot_acc tau L u M (fun k => val (fnode ts k)) Hu Mu M2) as (Y & EY & Y1 & Y2 & HY); [intros i Hi; rewrite M1 in Hi; apply (HM i Hi)|].
  exists Y. split; [exact EY|]. split; [exact Y1|]. split; [congruence|]. intros i k f Hi Hk. apply HY; [exact Hi|]. now rewrite M1.
Qed.
