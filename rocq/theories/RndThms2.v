(** Rounding errors of barycentric interpolation and of the differentiation matrix in
    binary64 (C105). *)
From Coq Require Import Reals Lra Lia Permutation.
From Coq Require Import Floats.SpecFloat.
From Coquelicot Require Import Coquelicot.
From Flocq Require Import Core.
From Verif Require Import PyBase NumModel NumInst PolynomialModel PolySpec PolyMath PolynomialBase PolynomialThms F64Spec F64Thms F64Thms2 RndSpec RndThms.
Open Scope list_scope. Open Scope nat_scope. Open Scope R_scope.
#[local] Existing Instance numF.

Lemma rsum_abs n f : Rabs (Sum n f) <= Sum n (fun k => Rabs (f k)).
Proof. induction n as [|n IH]; simpl; [rewrite Rabs_R0; lra|]. eapply Rle_trans; [apply Rabs_triang|lra]. Qed.
Lemma rsum_le n f g : (forall k, (k < n)%nat -> f k <= g k) -> Sum n f <= Sum n g.
Proof. intros H. induction n as [|n IH]; simpl; [lra|]. pose proof (H n ltac:(lia)). assert (Sum n f <= Sum n g) by (apply IH; intros; apply H; lia). lra. Qed.
Lemma rsum_const n c : Sum n (fun _ => c) = INR n * c.
Proof. induction n as [|n IH]; [simpl; ring|]. rewrite S_INR. cbn [Sum]. rewrite IH. ring. Qed.

Lemma fin_choice (P : nat -> R -> Prop) m : (forall k, (k < m)%nat -> exists p, P k p) -> exists f, forall k, (k < m)%nat -> P k (f k).
Proof.
  induction m as [|m IH]; intros H; [exists (fun _ => 1); intros; lia|]. destruct IH as (f & Hf); [intros; apply H; lia|]. destruct (H m ltac:(lia)) as (p & Hp).
  exists (fun k => if Nat.eqb k m then p else f k). intros k Hk. destruct (Nat.eqb_spec k m) as [->|]; [exact Hp|apply Hf; lia].
Qed.
(** Sums over indices *)
Lemma lsum_le (l : list nat) f g : (forall k, In k l -> f k <= g k) -> lsum (map f l) <= lsum (map g l).
Proof. intros H. induction l as [|k l IH]; simpl in *; [lra|]. pose proof (H k (or_introl eq_refl)). assert (lsum (map f l) <= lsum (map g l)) by auto. unfold lsum in *. lra. Qed.
Lemma lsum_const (l : list nat) c : lsum (map (fun _ => c) l) = INR (length l) * c.
Proof. induction l as [|k l IH]; [simpl; ring|]. simpl length. rewrite S_INR. cbn [map]. unfold lsum in *. cbn [fold_right]. rewrite IH. ring. Qed.
Lemma near_fun m (x : nat -> R) l : NoDup l -> forall ys, Forall2 (Near m) (map x l) ys -> exists th, (forall k, In k l -> Range m (th k)) /\ ys = map (fun k => x k * th k) l.
Proof.
  induction 1 as [|a l Ha Hl IH]; intros ys H; simpl in H; inversion H as [|? y ? ys' N F]; subst.
  - exists (fun _ => 1). split; [intros k []|reflexivity].
  - destruct (IH _ F) as (th & R & ->). destruct N as (t & T & ->). exists (fun k => if Nat.eqb k a then t else th k). split.
    + intros k [<-|Hk]; [now rewrite Nat.eqb_refl|]. destruct (Nat.eqb_spec k a); auto.
    + simpl. rewrite Nat.eqb_refl. f_equal. apply map_ext_in. intros k Hk. destruct (Nat.eqb_spec k a); [subst; contradiction|reflexivity].
Qed.
Lemma App_sum_idx a l (x : nat -> R) (f : nat -> f64) : NoDup l -> (forall k, In k l -> App a (x k) (f k)) -> lsum (map (fun k => Rabs (x k)) l) <= 2 ^ 1000 -> (Z.of_nat (a + length l) <= K)%Z ->
  exists th, (forall k, In k l -> Range (a + length l) (th k)) /\ Is (nsuml (map f l)) (lsum (map (fun k => x k * th k) l)).
Proof.
  intros Hl H S L. destruct (App_sum a (map f l) (map x l)) as (ys & Y & I).
  - clear -H. induction l as [|k l IH]; simpl; constructor; [apply H; now left|apply IH; intros; apply H; now right].
  - unfold labs. now rewrite map_map.
  - now rewrite map_length.
  - rewrite map_length in Y. destruct (near_fun _ x l Hl ys Y) as (th & R & ->). eauto.
Qed.
Lemma nsum_nsuml n (f : nat -> f64) : nsum n f = nsuml (map f (seq 0 n)).
Proof. unfold nsum, nsuml. generalize (@n0 f64 _). generalize (seq 0 n). induction l as [|k l IH]; intros a; simpl; auto. Qed.

Lemma SumBut_lsum m j f : (j < m)%nat -> SumBut m j f = lsum (map f (others m j)).
Proof. intros Hj. unfold SumBut. rewrite (Sum_split _ _ j Hj), Nat.eqb_refl, Rplus_0_l. f_equal. apply map_ext_in. intros k Hk. apply in_others in Hk. destruct (Nat.eqb_spec k j); [lia|reflexivity]. Qed.

Section Basis.
Context (tau : list f64) (b : nat).
Notation n := (length tau).
Notation rt := (map val tau).
Context (Hs : Spread b tau) (Hb : (1 <= b)%nat) (Hn : (b * n <= 300)%nat).

Lemma n_small : (n <= 300)%nat. Proof. clear -Hb Hn. nia. Qed.
Lemma tau_fin k : (k < n)%nat -> Finite (fnode tau k).
Proof. intros H. apply (proj1 Hs), fnode_in, H. Qed.
Lemma tau_mag j k : (j < n)%nat -> (k < n)%nat -> j <> k -> Mag b (node rt j - node rt k).
Proof. intros Hj Hk N. rewrite <- !fnode_val. exact (proj2 Hs j k Hj Hk N). Qed.
Lemma rt_len : length rt = n. Proof. apply map_length. Qed.
Lemma rt_nodup : NoDup rt.
Proof.
  apply (NoDup_nth _ 0). rewrite rt_len. intros i j Hi Hj E. destruct (Nat.eq_dec i j) as [|N]; [assumption|]. exfalso. apply (Mag_neq _ _ (tau_mag i j Hi Hj N)). unfold node. lra.
Qed.
Lemma tau_sub j k : (j < n)%nat -> (k < n)%nat -> j <> k -> App 1 (node rt j - node rt k) (nsub (vget tau j) (vget tau k)).
Proof.
  intros Hj Hk N. pose proof (tau_mag j k Hj Hk N) as [_ M]. rewrite <- !fnode_val in *. apply App_sub; [now apply tau_fin|now apply tau_fin|]. eapply Rle_trans; [exact M|]. apply p2_le. clear -Hn Hj. nia.
Qed.
Lemma lam_mag k : (k < n)%nat -> Mag (b * (n - 1)) (bary_lam rt k).
Proof.
  intros Hk. rewrite lam_val. apply Mag_inv. unfold dprod. rewrite rt_len, <- (others_len n k Hk).
  assert (A : Forall (fun r => Mag b (node rt k - node rt r)) (others n k)).
  { apply Forall_forall. intros r Hr. apply in_others in Hr. apply tau_mag; auto; lia. }
  induction A as [|r l M A IH]; [rewrite Nat.mul_0_r; apply Mag_1|]. simpl. replace (b * S (length l))%nat with (b + b * length l)%nat by lia. now apply Mag_mul.
Qed.
Lemma lam_app k : (k < n)%nat -> App (2 * n - 1) (bary_lam rt k) (bary_lam tau k).
Proof.
  intros Hk. pose proof n_small. pose proof (lam_mag k Hk) as ML. assert (D : dprod rt k (node rt k) <> 0) by (apply dprod_nonzero; [apply rt_nodup|now rewrite rt_len]).
  rewrite lam_val in *. replace (/ dprod rt k (node rt k)) with (1 / dprod rt k (node rt k)) in * by (field; exact D). unfold bary_lam. fold (others n k).
  assert (P : App ((1 + 1) * length (map (fun r => node rt k - node rt r) (others n k))) (dprod rt k (node rt k)) (nprodl (map (fun r => nsub (vget tau k) (vget tau r)) (others n k)))).
  { unfold dprod. rewrite rt_len. pose proof (others_len n k Hk) as LO. apply App_prod with (b := b); rewrite ?map_length, ?LO.
    - clear LO. assert (A : forall r, In r (others n k) -> (r < n)%nat /\ r <> k) by (intros r; apply in_others). induction (others n k) as [|r l IH]; simpl; constructor.
      + destruct (A r (or_introl eq_refl)). apply tau_sub; auto.
      + apply IH. intros; apply A; now right.
    - apply Forall_forall. intros y Hy. apply in_map_iff in Hy. destruct Hy as (r & <- & Hr). apply in_others in Hr. apply tau_mag; auto; lia.
    - clear -Hn Hk. nia.
    - lia. }
  rewrite map_length, (others_len n k Hk) in P. eapply App_weak; [|apply (App_div 0 _ 1 _ (@n1 f64 _) _) with (5 := P)]; auto.
  - lia.
  - lia.
  - eapply Mag_weak; [|exact ML]. clear -Hn Hk. nia.
  - apply App_Is, one_fin.
Qed.
Lemma lam_vget k : (k < n)%nat -> vget (map (bary_lam tau) (seq 0 n)) k = bary_lam tau k.
Proof. intros H. unfold vget. now apply nth_map_seq. Qed.

(** ** The differentiation matrix *)
Lemma dcoef_mag j k : (j < n)%nat -> (k < n)%nat -> j <> k -> Mag 900 (dcoef rt j k).
Proof.
  intros Hj Hk N. rewrite dcoef_off by (rewrite ?rt_len; auto). eapply Mag_weak; [|apply Mag_div; [apply Mag_div; apply lam_mag|apply tau_mag]]; auto. clear -Hn Hj. nia.
Qed.
Lemma quot_app j k : (j < n)%nat -> (k < n)%nat -> j <> k -> App (4 * n + 1) (dcoef rt j k) (ndiv (ndiv (bary_lam tau k) (bary_lam tau j)) (nsub (vget tau j) (vget tau k))).
Proof.
  intros Hj Hk N. pose proof n_small. pose proof (dcoef_mag j k Hj Hk N) as M. rewrite dcoef_off in * by (rewrite ?rt_len; auto).
  assert (Q : App (2 * n - 1 + (2 * n - 1) + 1) (bary_lam rt k / bary_lam rt j) (ndiv (bary_lam tau k) (bary_lam tau j))).
  { apply App_div; [lia| |apply (Mag_neq _ _ (lam_mag j Hj))|now apply lam_app|now apply lam_app]. eapply Mag_weak; [|apply Mag_div; apply lam_mag; auto]. clear -Hn Hj. nia. }
  eapply App_weak; [|apply App_div with (4 := Q) (5 := tau_sub j k Hj Hk N)].
  - lia.
  - lia.
  - eapply Mag_weak; [|exact M]. lia.
  - apply (Mag_neq b), tau_mag; auto.
Qed.
Notation D := (diff_entry tau (map (bary_lam tau) (seq 0 n))).
Lemma diff_off j k : (j < n)%nat -> (k < n)%nat -> j <> k -> App (4 * n + 1) (dcoef rt j k) (D j k).
Proof. intros Hj Hk N. unfold diff_entry. destruct (Nat.eqb_spec j k); [contradiction|]. cbn [negb]. rewrite !lam_vget by assumption. now apply quot_app. Qed.
Lemma neg_val f : Finite f -> Finite (SFopp f) /\ val (SFopp f) = - val f.
Proof.
  intros [A B]. unfold val. destruct f as [s|s| |s m e]; try discriminate B; simpl.
  - split; [split; reflexivity|]. ring.
  - split; [split; [exact A|reflexivity]|]. unfold Defs.F2R. cbn [Defs.Fnum Defs.Fexp]. destruct s; cbn [negb]; unfold cond_Zopp; cbn [Z.opp]; [change (IZR (Z.neg m)) with (- IZR (Z.pos m))|change (IZR (Z.neg m)) with (- IZR (Z.pos m))]; ring.
Qed.
Lemma diff_diag j : (j < n)%nat -> Finite (D j j) /\ Rabs (val (D j j) - dcoef rt j j) <= 10 * INR n * uro * SumBut n j (fun k => Rabs (dcoef rt j k)).
Proof.
  intros Hj. pose proof n_small. rewrite SumBut_lsum, dcoef_diag, rt_len by (rewrite ?rt_len; exact Hj).
  destruct (App_sum_idx (4 * n + 1) (others n j) (dcoef rt j) (fun i => D j i)) as (th & R & F & V).
  - apply NoDup_filter, seq_NoDup.
  - intros k Hk. apply in_others in Hk. apply diff_off; auto; lia.
  - apply Rle_trans with (lsum (map (fun _ => 2 ^ 900) (others n j))).
    + apply lsum_le. intros k Hk. apply in_others in Hk. apply (dcoef_mag j k); auto; lia.
    + rewrite lsum_const, (others_len n j Hj). replace (2 ^ 1000) with (2 ^ 100 * 2 ^ 900) by (rewrite <- pow_add; reflexivity). apply Rmult_le_compat_r; [left; apply p2_pos|].
      apply Rle_trans with (INR 300); [apply le_INR; lia|]. rewrite INR_IZR_INZ, p2_bpow. simpl. lra.
  - rewrite (others_len n j Hj). lia.
  - assert (E : D j j = SFopp (nsuml (map (fun i => D j i) (others n j)))).
    { unfold diff_entry at 1. rewrite Nat.eqb_refl. cbn [negb]. fold (others n j). change (nopp ?x) with (SFopp x). f_equal. f_equal. apply map_ext_in. intros k Hk. apply in_others in Hk.
      unfold diff_entry. destruct (Nat.eqb_spec j k); [lia|]. reflexivity. }
    rewrite E. destruct (neg_val _ F) as [F' ->]. split; [exact F'|]. rewrite V. rewrite (others_len n j Hj) in R.
    replace (- lsum (map (fun k => dcoef rt j k * th k) (others n j)) - - lsum (map (dcoef rt j) (others n j))) with (- lsum (map (fun k => dcoef rt j k * (th k - 1)) (others n j))).
    + rewrite Rabs_Ropp. assert (B : forall k, In k (others n j) -> Rabs (th k - 1) <= 10 * INR n * uro).
      { intros k Hk. pose proof uro_small. eapply Rle_trans; [apply Range_err; [|apply R, Hk]|].
        - assert (INR (4 * n + 1 + (n - 1)) * uro <= / 4) by (apply small_k; lia). lra.
        - replace (4 * n + 1 + (n - 1))%nat with (5 * n)%nat by lia. rewrite mult_INR. change (INR 5) with (1 + 1 + 1 + 1 + 1). nra. }
      clear R V F F' E. induction (others n j) as [|k l IH]; simpl; [rewrite Rabs_R0; lra|]. eapply Rle_trans; [apply Rabs_triang|]. rewrite Rabs_mult. pose proof (B k (or_introl eq_refl)). pose proof (Rabs_pos (dcoef rt j k)).
      assert (IH' := IH ltac:(intros; apply B; now right)). simpl in IH'. nra.
    + clear. induction (others n j) as [|k l IH]; simpl in *; [ring|]. lra.
Qed.

(** ** Interpolation *)
Section Query.
Context (x : f64) (Fx : Finite x) (Hx : forall k, (k < n)%nat -> Apart b (val x) (val (fnode tau k))) (Hpos : (0 < n)%nat).
Notation L k := (polyval (lagrange rt k) (val x)).
Notation w k := (bary_lam rt k / (val x - node rt k)).
Notation wf k := (ndiv (bary_lam tau k) (nsub x (vget tau k))).
Notation s := (Sum n (fun k => w k)).
Notation Lam := (Sum n (fun k => Rabs (L k))).
Notation gam := ((6 * INR n + 6) * uro).
Context (Hc : gam * Lam <= / 2).

Lemma xd_mag k : (k < n)%nat -> Mag b (val x - node rt k).
Proof. intros Hk. rewrite <- fnode_val. exact (Hx k Hk). Qed.
Lemma x_notin : ~ In (val x) rt.
Proof. intros H. apply node_in in H. destruct H as (k & Hk & E). rewrite rt_len in Hk. apply (Mag_neq _ _ (xd_mag k Hk)). lra. Qed.
Lemma w_mag k : (k < n)%nat -> Mag (b * n) (w k).
Proof. intros Hk. eapply Mag_weak; [|apply Mag_div; [now apply lam_mag|now apply xd_mag]]. clear -Hk. nia. Qed.
Lemma w_app k : (k < n)%nat -> App (2 * n + 1) (w k) (wf k).
Proof.
  intros Hk. pose proof n_small. assert (S : App 1 (val x - node rt k) (nsub x (vget tau k))).
  { pose proof (xd_mag k Hk) as [_ M]. rewrite <- fnode_val in *. apply App_sub; [exact Fx|now apply tau_fin|]. eapply Rle_trans; [exact M|]. apply p2_le. clear -Hn Hk. nia. }
  eapply App_weak; [|apply App_div with (5 := S) (4 := lam_app k Hk)].
  - lia.
  - lia.
  - eapply Mag_weak; [|now apply w_mag]. lia.
  - apply (Mag_neq b). now apply xd_mag.
Qed.
Lemma s_mag : Mag (b * n) s.
Proof.
  set (W := lprod (map (fun r => val x - node rt r) (seq 0 n))).
  assert (NZ : forall k, (k < n)%nat -> val x - node rt k <> 0) by (intros k Hk; apply (Mag_neq b); now apply xd_mag).
  assert (LL : forall k, (k < n)%nat -> L k = W * w k).
  { intros k Hk. rewrite lagrange_lam. unfold W. rewrite (lprod_split _ _ k Hk). unfold dprod. rewrite rt_len. field. now apply NZ. }
  assert (WS : W * s = 1).
  { rewrite <- Sum_scal. rewrite <- (lagrange_sum1 rt (val x) rt_nodup) by now rewrite rt_len. rewrite rt_len. apply Sum_ext. intros k Hk. now rewrite LL. }
  assert (MW : Mag (b * n) W).
  { unfold W. assert (A : Forall (fun r => Mag b (val x - node rt r)) (seq 0 n)) by (apply Forall_forall; intros r Hr; apply in_seq in Hr; apply xd_mag; lia).
    rewrite <- (seq_length n 0) at 1. clear WS LL W. induction A as [|r l M A IH]; [rewrite Nat.mul_0_r; apply Mag_1|]. simpl length. replace (b * S (length l))%nat with (b + b * length l)%nat by lia. apply Mag_mul; [exact M|exact IH]. }
  replace s with (/ W); [now apply Mag_inv|]. apply (Rmult_eq_reg_l W); [rewrite WS; field; exact (Mag_neq _ _ MW)|exact (Mag_neq _ _ MW)].
Qed.
Lemma L_w k : (k < n)%nat -> L k = w k / s.
Proof. intros Hk. rewrite <- (bary_weights rt (val x) rt_nodup) by (rewrite ?rt_len; auto using x_notin). now rewrite rt_len. Qed.
Lemma L_mag k : (k < n)%nat -> Mag (2 * (b * n)) (L k).
Proof. intros Hk. rewrite L_w by exact Hk. eapply Mag_weak; [|apply Mag_div; [now apply w_mag|apply s_mag]]. lia. Qed.
Lemma L_sum : Sum n (fun k => L k) = 1.
Proof. rewrite <- (lagrange_sum1 rt (val x) rt_nodup) by now rewrite rt_len. now rewrite rt_len. Qed.

Lemma wsum_app : exists sg, Rabs (sg - 1) <= gam * Lam /\ Is (nsuml (map (fun k => wf k) (seq 0 n))) (s * sg).
Proof.
  pose proof n_small. destruct (App_sum_idx (2 * n + 1) (seq 0 n) (fun k => w k) (fun k => wf k)) as (th & R & F & V).
  - apply seq_NoDup.
  - intros k Hk. apply in_seq in Hk. apply w_app. lia.
  - apply Rle_trans with (lsum (map (fun _ => 2 ^ 300) (seq 0 n))).
    + apply lsum_le. intros k Hk. apply in_seq in Hk. eapply Rle_trans; [apply w_mag; lia|]. now apply p2_le.
    + rewrite lsum_const, seq_length. apply Rle_trans with (2 ^ 100 * 2 ^ 300); [|rewrite <- pow_add; apply p2_le; lia]. apply Rmult_le_compat_r; [left; apply p2_pos|].
      apply Rle_trans with (INR 300); [apply le_INR; lia|]. rewrite INR_IZR_INZ, p2_bpow. simpl. lra.
  - rewrite seq_length. lia.
  - rewrite seq_length in R. rewrite lsum_seq in V. exists (Sum n (fun k => L k * th k)). split.
    + rewrite <- L_sum, <- Sum_minus. rewrite (Sum_ext _ _ (fun k => L k * (th k - 1))) by (intros; ring). eapply Rle_trans; [apply rsum_abs|]. rewrite <- Sum_scal. apply rsum_le. intros k Hk. rewrite Rabs_mult, Rmult_comm. apply Rmult_le_compat_r; [apply Rabs_pos|].
      pose proof uro_small. eapply Rle_trans; [apply Range_err; [|apply R; apply in_seq; lia]|].
      * assert (INR (2 * n + 1 + n) * uro <= / 4) by (apply small_k; lia). lra.
      * replace (2 * n + 1 + n)%nat with (3 * n + 1)%nat by lia. rewrite plus_INR, mult_INR. change (INR 3) with (1 + 1 + 1). change (INR 1) with 1. pose proof (pos_INR n). nra.
    + split; [exact F|]. rewrite V, <- Sum_scal. apply Sum_ext. intros k Hk. rewrite L_w by exact Hk. field. split; [apply (Mag_neq b); now apply xd_mag|apply (Mag_neq _ _ s_mag)].
Qed.
Notation B := (Basis (map (lagrange tau) (seq 0 n)) (Mat n n D) tau (map (bary_lam tau) (seq 0 n))).
Lemma row_near : exists row sg phi, interp_row B x = Ok row /\ length row = n /\ Rabs (sg - 1) <= gam * Lam /\
  forall k, (k < n)%nat -> Range (2 * n + 2) (phi k) /\ Is (vget row k) (L k * phi k / sg).
Proof.
  pose proof n_small. destruct wsum_app as (sg & SG & SI). exists (map (fun y => ndiv y (nsuml (map (fun k => wf k) (seq 0 n)))) (map (fun k => wf k) (seq 0 n))), sg.
  assert (SG' : / 2 <= sg <= 2) by (apply Rabs_le_inv in SG; lra).
  assert (P : forall k, (k < n)%nat -> exists phi, Range (2 * n + 2) phi /\ Is (ndiv (wf k) (nsuml (map (fun k => wf k) (seq 0 n)))) (L k * phi / sg)).
  { intros k Hk. destruct SI as [SF SV]. assert (A : App (2 * n + 1 + 0 + 1) (w k / (s * sg)) (ndiv (wf k) (nsuml (map (fun k => wf k) (seq 0 n))))).
    { apply App_div; [lia| | |now apply w_app|split; [exact SF|rewrite SV; apply Near_refl]].
      - replace (w k / (s * sg)) with (L k * / sg) by (rewrite L_w by exact Hk; field; repeat split; first [lra|apply (Mag_neq _ _ s_mag)|apply (Mag_neq b); now apply xd_mag]).
        eapply Mag_weak; [|apply Mag_mul with (b := 1%nat); [now apply L_mag|]]; [clear -Hn; lia|]. apply Mag_inv. unfold Mag. rewrite pow_1, Rabs_pos_eq by lra. lra.
      - apply Rmult_integral_contrapositive_currified; [apply (Mag_neq _ _ s_mag)|lra]. }
    destruct A as [F (phi & R & E)]. exists phi. split; [eapply Range_weak; [|exact R]; lia|]. split; [exact F|]. rewrite E, L_w by exact Hk. field. repeat split; first [lra|apply (Mag_neq _ _ s_mag)|apply (Mag_neq b); now apply xd_mag]. }
  assert (C : exists phi, forall k, (k < n)%nat -> Range (2 * n + 2) (phi k) /\ Is (ndiv (wf k) (nsuml (map (fun k => wf k) (seq 0 n)))) (L k * phi k / sg)).
  { exact (fin_choice (fun k phi => Range (2 * n + 2) phi /\ Is (ndiv (wf k) (nsuml (map (fun k => wf k) (seq 0 n)))) (L k * phi / sg)) n P). }
  destruct C as (phi & C). exists phi. split; [|split; [now rewrite !map_length, seq_length|split; [exact SG|]]].
  - unfold interp_row. cbn [b_tau b_lam].
    assert (E : existsb (fun y => y) (map (fun t => neqb x t) tau) = false).
    { apply not_true_is_false. intros E. apply existsb_exists in E. destruct E as (y & Hy & ->). apply in_map_iff in Hy. destruct Hy as (t & Et & It). apply x_notin.
      apply in_map_iff. exists t. split; [|exact It]. change (SFeqb x t = true) in Et. rewrite eqb_val in Et by (auto; now apply (proj1 Hs)). symmetry. now apply Req_b_iff. }
    rewrite E. assert (M : map (fun k => ndiv (vget (map (bary_lam tau) (seq 0 n)) k) (nsub x (vget tau k))) (seq 0 n) = map (fun k => wf k) (seq 0 n)).
    { apply map_ext_in. intros k Hk. apply in_seq in Hk. rewrite lam_vget by lia. reflexivity. }
    rewrite M. reflexivity.
  - intros k Hk. destruct (C k Hk) as [R I]. split; [exact R|]. unfold vget at 1. rewrite map_map, nth_map_seq by exact Hk. exact I.
Qed.
Lemma entry_near row sg phi k : Rabs (sg - 1) <= gam * Lam -> Range (2 * n + 2) (phi k) -> Is row (L k * phi k / sg) -> Rabs (val row - L k) <= 4 * gam * Lam * Rabs (L k).
Proof.
  intros SG R [_ ->]. pose proof n_small. assert (SG' : / 2 <= sg <= 2) by (apply Rabs_le_inv in SG; lra). pose proof uro_small as U. pose proof (pos_INR n).
  assert (E : Rabs (phi k - 1) <= gam).
  { eapply Rle_trans; [apply Range_err; [|exact R]|].
    - assert (INR (2 * n + 2) * uro <= / 4) by (apply small_k; lia). lra.
    - rewrite plus_INR, mult_INR. change (INR 2) with (1 + 1). nra. }
  assert (G : 0 <= gam) by nra.
  assert (LL : 1 <= Lam). { rewrite <- L_sum. eapply Rle_trans; [apply Rle_abs|]. apply rsum_abs. }
  replace (L k * phi k / sg - L k) with (L k * ((phi k - 1) - (sg - 1)) / sg) by (field; lra).
  unfold Rdiv. rewrite !Rabs_mult, Rabs_inv, (Rabs_pos_eq sg) by lra.
  assert (I : / sg <= 2) by (apply Rmult_le_reg_r with sg; [lra|]; rewrite Rinv_l by lra; lra). assert (0 < / sg) by (apply Rinv_0_lt_compat; lra).
  pose proof (Rabs_triang (phi k - 1) (- (sg - 1))) as T. rewrite Rabs_Ropp in T. change (phi k - 1 + - (sg - 1)) with (phi k - 1 - (sg - 1)) in T.
  assert (X : Rabs (phi k - 1 - (sg - 1)) <= 2 * gam * Lam) by nra. pose proof (Rabs_pos (L k)). pose proof (Rabs_pos (phi k - 1 - (sg - 1))).
  rewrite Rmult_assoc. rewrite (Rmult_comm (4 * gam * Lam)). apply Rmult_le_compat_l; [assumption|]. nra.
Qed.
Lemma dot_near (u y : nat -> f64) sg phi : Rabs (sg - 1) <= gam * Lam -> (forall k, (k < n)%nat -> Range (2 * n + 2) (phi k) /\ Is (y k) (L k * phi k / sg)) ->
  (forall k, (k < n)%nat -> Finite (u k) /\ Rabs (val (u k)) <= 2 ^ 300) ->
  Finite (nsum n (fun k => nmul (u k) (y k))) /\
  Rabs (val (nsum n (fun k => nmul (u k) (y k))) - Sum n (fun k => val (u k) * L k)) <=
    2 * gam * (Sum n (fun k => Rabs (val (u k)) * Rabs (L k)) + Lam * Rabs (Sum n (fun k => val (u k) * L k))) + INR n * / 2 ^ 1074.
Proof.
  intros SG HY HU. pose proof n_small. assert (SG' : / 2 <= sg <= 2) by (apply Rabs_le_inv in SG; lra). pose proof uro_small as U. pose proof (pos_INR n) as PN.
  assert (I : / sg <= 2) by (apply Rmult_le_reg_r with sg; [lra|]; rewrite Rinv_l by lra; lra). assert (I0 : 0 < / sg) by (apply Rinv_0_lt_compat; lra).
  assert (Z1 : / 2 ^ 1075 <= / 2 ^ 0) by (apply p2_inv_le; lia). rewrite pow_O, Rinv_1 in Z1.
  assert (P : forall k, (k < n)%nat -> exists d e, Rabs d <= uro /\ Rabs e <= / 2 ^ 1075 /\ Is (nmul (u k) (y k)) (val (u k) * (L k * phi k / sg) * (1 + d) + e) /\ Rabs (val (nmul (u k) (y k))) <= 2 ^ 904).
  { intros k Hk. destruct (HY k Hk) as [R [Fy Vy]]. destruct (HU k Hk) as [Fu Bu]. destruct (rnd_any (val (u k) * val (y k))) as (d & e & D & E & X).
    assert (BL : Rabs (val (u k) * val (y k)) <= 2 ^ 902).
    { rewrite Vy. unfold Rdiv. rewrite !Rabs_mult, (Rabs_pos_eq (/ sg)) by lra. pose proof (Range_half (2 * n + 2) _ ltac:(lia) R) as RH. rewrite (Rabs_pos_eq (phi k)) by lra.
      destruct (L_mag k Hk) as [_ BL]. replace (2 ^ 902) with (2 ^ 300 * (2 ^ 600 * 2 * 2)) by (rewrite (pow_add 2 300 602 : 2 ^ 902 = _), (pow_add 2 600 2 : 2 ^ 602 = _); generalize (2 ^ 300) (2 ^ 600); intros; simpl; ring).
      apply Rmult_le_compat; try assumption; [apply Rabs_pos| |]. { pose proof (Rabs_pos (L k)). apply Rmult_le_pos; [apply Rmult_le_pos; lra|lra]. }
      pose proof (Rabs_pos (L k)). apply Rmult_le_compat; [apply Rmult_le_pos; lra|lra| |lra]. apply Rmult_le_compat; [lra|lra| |lra]. eapply Rle_trans; [exact BL|]. apply p2_le. lia. }
    assert (BR : Rabs (RndThms.rnd' (val (u k) * val (y k))) <= 2 ^ 904).
    { unfold rnd'. rewrite X. eapply Rle_trans; [apply Rabs_triang|]. rewrite Rabs_mult. assert (Rabs (1 + d) <= 2) by (apply Rabs_le; apply Rabs_le_inv in D; lra).
      replace (2 ^ 904) with (2 * 2 ^ 902 + 2 * 2 ^ 902) by (rewrite !tech_pow_Rmult; change (2 ^ 904) with (2 * 2 ^ 903); ring). assert (1 <= 2 ^ 902) by (change 1 with (2 ^ 0) at 1; apply p2_le; lia).
      pose proof (Rabs_pos (1 + d)). pose proof (Rabs_pos (val (u k) * val (y k))). assert (Rabs (val (u k) * val (y k)) * Rabs (1 + d) <= 2 ^ 902 * 2) by (apply Rmult_le_compat; assumption). lra. }
    unfold rnd' in BR. destruct (mul_ok (u k) (y k) Fu Fy) as [G V]. { rewrite ovf_p2. eapply Rle_lt_trans; [exact BR|apply p2_lt; lia]. }
    exists d, e. split; [exact D|]. split; [exact E|]. change (nmul (u k) (y k)) with (SFmul 53 1024 (u k) (y k)). split; [split; [exact G|]|now rewrite V]. rewrite V, X, Vy. reflexivity. }
  destruct (fin_choice (fun k d => exists e, Rabs d <= uro /\ Rabs e <= / 2 ^ 1075 /\ Is (nmul (u k) (y k)) (val (u k) * (L k * phi k / sg) * (1 + d) + e) /\ Rabs (val (nmul (u k) (y k))) <= 2 ^ 904) n P) as (d & P1). clear P.
  destruct (fin_choice (fun k e => Rabs (d k) <= uro /\ Rabs e <= / 2 ^ 1075 /\ Is (nmul (u k) (y k)) (val (u k) * (L k * phi k / sg) * (1 + d k) + e) /\ Rabs (val (nmul (u k) (y k))) <= 2 ^ 904) n P1) as (e & P). clear P1.
  rewrite nsum_nsuml. destruct (App_sum_idx 0 (seq 0 n) (fun k => val (nmul (u k) (y k))) (fun k => nmul (u k) (y k))) as (th & R & F & V).
  - apply seq_NoDup.
  - intros k Hk. apply in_seq in Hk. apply App_val. apply P. lia.
  - apply Rle_trans with (lsum (map (fun _ => 2 ^ 904) (seq 0 n))).
    + apply lsum_le. intros k Hk. apply in_seq in Hk. apply P. lia.
    + rewrite lsum_const, seq_length. apply Rle_trans with (2 ^ 96 * 2 ^ 904); [|rewrite <- pow_add; apply p2_le; lia]. apply Rmult_le_compat_r; [left; apply p2_pos|].
      apply Rle_trans with (INR 300); [apply le_INR; lia|]. rewrite INR_IZR_INZ, p2_bpow. simpl. lra.
  - rewrite seq_length. lia.
  - rewrite seq_length in R. rewrite lsum_seq in V. split; [exact F|]. rewrite V.
    set (p := Sum n (fun k => val (u k) * L k)).
    assert (E : Sum n (fun k => val (nmul (u k) (y k)) * th k) - p = / sg * Sum n (fun k => val (u k) * L k * (phi k * (1 + d k) * th k - 1)) + (1 - sg) * / sg * p + Sum n (fun k => e k * th k)).
    { unfold p. rewrite <- !Sum_scal, <- Sum_minus, <- !Sum_plus. apply Sum_ext. intros k Hk. destruct (P k Hk) as (_ & _ & [_ ->] & _). field. lra. }
    rewrite E. assert (T1 : Rabs (Sum n (fun k => val (u k) * L k * (phi k * (1 + d k) * th k - 1))) <= gam * Sum n (fun k => Rabs (val (u k)) * Rabs (L k))).
    { eapply Rle_trans; [apply rsum_abs|]. rewrite <- Sum_scal. apply rsum_le. intros k Hk. rewrite !Rabs_mult, Rmult_comm. apply Rmult_le_compat_r; [apply Rmult_le_pos; apply Rabs_pos|].
      destruct (P k Hk) as (Dk & _). destruct (HY k Hk) as [Rk _].
      assert (RR : Range (2 * n + 2 + 1 + (0 + n)) (phi k * (1 + d k) * th k)) by (apply Range_mul; [apply Range_mul; [exact Rk|now apply Range_eps]|apply R; apply in_seq; lia]).
      eapply Rle_trans; [apply Range_err; [|exact RR]|].
      - assert (INR (2 * n + 2 + 1 + (0 + n)) * uro <= / 4) by (apply small_k; lia). lra.
      - replace (2 * n + 2 + 1 + (0 + n))%nat with (3 * n + 3)%nat by lia. rewrite plus_INR, mult_INR. change (INR 3) with (1 + 1 + 1). nra. }
    assert (T2 : Rabs (Sum n (fun k => e k * th k)) <= INR n * / 2 ^ 1074).
    { eapply Rle_trans; [apply rsum_abs|]. rewrite <- rsum_const. apply rsum_le. intros k Hk. destruct (P k Hk) as (_ & Ek & _). rewrite Rabs_mult. pose proof (Range_half (0 + n) _ ltac:(lia) (R k ltac:(apply in_seq; lia))) as RH.
      rewrite (Rabs_pos_eq (th k)) by lra. replace (/ 2 ^ 1074) with (/ 2 ^ 1075 * 2). - apply Rmult_le_compat; try lra. apply Rabs_pos. - change (2 ^ 1075) with (2 * 2 ^ 1074). field. }
    eapply Rle_trans; [apply Rabs_triang|]. apply Rplus_le_compat; [|exact T2]. eapply Rle_trans; [apply Rabs_triang|]. rewrite !Rabs_mult, (Rabs_pos_eq (/ sg)) by lra. rewrite (Rabs_minus_sym 1 sg).
    set (S := Sum n (fun k => Rabs (val (u k)) * Rabs (L k))) in *. pose proof (Rabs_pos p). pose proof (Rabs_pos (sg - 1)). set (X := Rabs (Sum n _)) in *. assert (0 <= X) by apply Rabs_pos.
    assert (A1 : / sg * X <= 2 * (gam * S)) by (apply Rmult_le_compat; lra). assert (A2 : Rabs (sg - 1) * / sg <= gam * Lam * 2) by (apply Rmult_le_compat; lra).
    assert (A3 : Rabs (sg - 1) * / sg * Rabs p <= gam * Lam * 2 * Rabs p) by (apply Rmult_le_compat_r; assumption). lra.
Qed.
End Query.
End Basis.
