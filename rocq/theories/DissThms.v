(** Errors that do not depend on stiffness: one step (C109). *)
From Coq Require Import Reals Lra.
From Coquelicot Require Import Coquelicot.
From Verif Require Import PyBase IndexModel DMModel DMProofs StructModel StructSpec PowerModel EntryModel StructsModel IneqModel DaeModel StructsSpec StructsThms11 NumModel NumInst NumSpec PolynomialModel PiecewiseModel PdqModel SchemeModel
  PolySpec PiecewiseSpec PdqSpec SchemeSpec PolyMath PolynomialBase PolynomialThms PolynomialThms2 PiecewiseThms PdqThms PdqThms2 SchemeThms SchemeThms2 SchemeThms3 SchemeThms4 SchemeThms5 OrderSpec OrderMath OrderThms ConvSpec ConvThms GridSpec GridThms StiffThms MonoSpec MonoThms MonoThms2 MonoThms3 MonoThms4 DissSpec.
Open Scope R_scope.

(** ** The norm *)
Lemma quad_sup2 n S v w e e' : (forall i, (i < n)%nat -> Rabs (v i) <= e) -> (forall i, (i < n)%nat -> Rabs (w i) <= e') -> Rabs (quad n S v w) <= Sum n (fun i => Sum n (fun j => Rabs (S i j))) * (e * e').
Proof.
  intros H H'. unfold quad. eapply Rle_trans; [apply sum_abs|]. rewrite <- Sum_scal_r. apply sum_le. intros i Hi. eapply Rle_trans; [apply sum_abs|]. rewrite <- Sum_scal_r. apply sum_le. intros j Hj. rewrite !Rabs_mult. apply Rmult_le_compat_l; [apply Rabs_pos|].
  apply Rmult_le_compat; try apply Rabs_pos; [now apply H|now apply H'].
Qed.
Lemma sq_sup n S v w e e' : (forall i, (i < n)%nat -> Rabs (v i) <= e) -> (forall i, (i < n)%nat -> Rabs (w i) <= e') -> Rabs (sq n S v w) <= 2 * Sum n (fun i => Sum n (fun j => Rabs (S i j))) * (e * e').
Proof.
  intros H H'. unfold sq. eapply Rle_trans; [apply Rabs_triang|]. pose proof (quad_sup2 n S v w e e' H H'). pose proof (quad_sup2 n S w v e' e H' H). lra.
Qed.
Lemma sum_S_pos n (S : nat -> nat -> R) : 0 <= Sum n (fun i => Sum n (fun j => Rabs (S i j))).
Proof. apply sum_pos. intros. apply sum_pos. intros. apply Rabs_pos. Qed.
Lemma cauchy n S v w : PSD n S -> sq n S v w * sq n S v w <= 4 * quad n S v v * quad n S w w.
Proof.
  intros HS. assert (P : forall a, 0 <= quad n S w w + a * sq n S v w + a * a * quad n S v v) by (intros a; rewrite <- quad_move; apply HS). pose proof (HS v) as Hv. pose proof (HS w) as Hw. set (q := quad n S v v) in *. set (r := quad n S w w) in *. set (s := sq n S v w) in *.
  destruct (Req_dec q 0) as [E|E].
  - rewrite E in *. destruct (Req_dec s 0) as [->|Es]; [lra|]. specialize (P (- (r + 1) / s)). replace (- (r + 1) / s * s) with (- (r + 1)) in P by (field; exact Es). lra.
  - specialize (P (- s / (2 * q))). replace (r + - s / (2 * q) * s + - s / (2 * q) * (- s / (2 * q)) * q) with (r - s * s / (4 * q)) in P by (field; exact E). assert (0 < q) by lra. apply (Rmult_le_compat_l (4 * q)) in P; [|lra]. replace (4 * q * (r - s * s / (4 * q))) with (4 * q * r - s * s) in P by (field; exact E). lra.
Qed.
Lemma norm_pos n S v : 0 <= norm n S v. Proof. apply sqrt_pos. Qed.
Lemma norm_sq n S v : PSD n S -> norm n S v * norm n S v = quad n S v v. Proof. intros HS. apply sqrt_sqrt, HS. Qed.
Lemma norm_triangle n S v w : PSD n S -> norm n S (fun i => v i + w i) <= norm n S v + norm n S w.
Proof.
  intros HS. pose proof (norm_pos n S v). pose proof (norm_pos n S w). apply Rsqr_incr_0_var; [|lra]. unfold Rsqr. rewrite norm_sq by exact HS. rewrite quad_add_l, !quad_add_r. pose proof (cauchy n S v w HS) as C. unfold sq in C. rewrite <- (norm_sq n S v HS), <- (norm_sq n S w HS) in *.
  set (a := norm n S v) in *. set (b := norm n S w) in *. set (s := quad n S v w + quad n S w v) in *. assert (s <= 2 * (a * b)). { destruct (Rle_dec s 0); [nra|]. apply Rsqr_incr_0_var; [unfold Rsqr; lra|nra]. } unfold s in *. lra.
Qed.
Lemma norm_ext n S v w : (forall i, (i < n)%nat -> v i = w i) -> norm n S v = norm n S w.
Proof. intros H. unfold norm. f_equal. now apply quad_ext. Qed.
Lemma norm_sup n S v e : PSD n S -> 0 <= e -> (forall i, (i < n)%nat -> Rabs (v i) <= e) -> norm n S v <= sqrt (Sum n (fun i => Sum n (fun j => Rabs (S i j)))) * e.
Proof.
  intros HS He H. rewrite <- (sqrt_square e) at 1 by exact He. rewrite <- sqrt_mult; [|apply sum_S_pos|nra]. unfold norm. apply sqrt_le_1; [apply HS|apply Rmult_le_pos; [apply sum_S_pos|nra]|]. now apply quad_sup.
Qed.
Lemma norm_each n S : PosDef n S -> exists C, 0 <= C /\ forall v i, (i < n)%nat -> Rabs (v i) <= C * norm n S v.
Proof.
  intros HS. pose proof HS as (c & Hc & H). assert (Hp : 0 < / c) by now apply Rinv_0_lt_compat. exists (sqrt (/ c)). split; [apply sqrt_pos|]. intros v i Hi. apply sq_le; [apply Rmult_le_pos; apply sqrt_pos|].
  replace (sqrt (/ c) * norm n S v * (sqrt (/ c) * norm n S v)) with ((sqrt (/ c) * sqrt (/ c)) * (norm n S v * norm n S v)) by ring. rewrite sqrt_sqrt by lra. rewrite norm_sq by now apply posdef_psd.
  apply (Rmult_le_reg_l c); [exact Hc|]. replace (c * (/ c * quad n S v v)) with (quad n S v v) by (field; lra). eapply Rle_trans; [|apply H]. apply Rmult_le_compat_l; [lra|]. apply (sum_each n (fun i => v i * v i) i); [intros; apply Rle_0_sqr|exact Hi].
Qed.

(** ** Stages *)
Section Stage.
Context (tau : list R) (A : nat -> nat -> R) (b : nat -> R) (M m : nat) (S_ : nat -> nat -> R) (al : R) (d : nat -> R).
Context (HM : length tau = M) (H1 : (1 <= M)%nat) (Hd : NoDup tau) (H0 : ~ In 0 tau) (HR : RungeKutta tau A b) (HS : PosDef m S_) (Hco : Coercive tau A al d) (Hal : 0 < al).
Notation W k j i := (Sum M (fun l => A j l * k l i)).
(** [k]: the differences of the slopes times the step; [W + del]: those of the stages *)
Lemma stage_stab : exists C, 0 <= C /\ forall nu (k del : nat -> nat -> R) dl, 0 <= nu -> 4 * nu <= al -> 0 <= dl ->
  (forall j, (j < M)%nat -> sq m S_ (k j) (fun i => W k j i + del j i) <= 2 * nu * quad m S_ (fun i => W k j i + del j i) (fun i => W k j i + del j i)) ->
  (forall j i, (j < M)%nat -> (i < m)%nat -> Rabs (del j i) <= dl) -> forall j i, (j < M)%nat -> (i < m)%nat -> Rabs (W k j i) <= C * dl /\ Rabs (k j i) <= C * dl.
Proof.
  destruct (norm_low tau A M m S_ al d HM HS Hco) as (C1 & HC1 & Low). destruct Hco as [Hp Hc]. rewrite HM in Hp. pose proof (posdef_psd _ _ HS) as HP. set (SS := Sum m (fun i => Sum m (fun j => Rabs (S_ i j)))). pose proof (sum_S_pos m S_) as HSS. fold SS in HSS.
  set (B := inv_bound tau). assert (HB : 0 <= B) by apply inv_pos. set (Ds := Sum M d). assert (HDs : 0 <= Ds) by (apply sum_pos; intros j Hj; left; now apply Hp).
  set (Q := 1 + C1 * (Ds * SS) + C1 * (Ds * (2 * SS * B)) / al). assert (HQ0 : 0 <= C1 * (Ds * SS)) by (repeat apply Rmult_le_pos; assumption). assert (HQ1 : 0 <= C1 * (Ds * (2 * SS * B)) / al) by (apply Rmult_le_pos; [repeat apply Rmult_le_pos; lra|left; now apply Rinv_0_lt_compat]).
  assert (HQ : 0 <= Q) by (unfold Q; lra). exists (Q + B * Q). split; [assert (0 <= B * Q) by (now apply Rmult_le_pos); lra|]. intros nu k del dl Hnu Hnu4 Hdl HO Hdel j0 i0 Hj0 Hi0.
  destruct (fin_max2 M m (fun j i => Rabs (W k j i)) H1 ltac:(lia)) as (jm & im & Hjm & Him & Hmax). set (e := Rabs (W k jm im)) in *. assert (He : 0 <= e) by apply Rabs_pos.
  assert (Hk : forall j i, (j < M)%nat -> (i < m)%nat -> Rabs (k j i) <= B * e).
  { intros j i Hj Hi. pose proof (A_inverse tau A b Hd H0 HR (fun l => k l i) j ltac:(lia)) as E. rewrite HM in E. rewrite <- E. apply sum_abs_le; [pose proof (inv_row tau j ltac:(lia)) as IR; now rewrite HM in IR|exact He|]. intros l Hl. now apply Hmax. }
  set (NW := Sum M (fun j => d j * quad m S_ (fun i => W k j i) (fun i => W k j i))).
  assert (Eb : al * NW <= al * (Ds * SS * (dl * dl)) + Ds * (2 * SS * B) * (e * dl)).
  { specialize (Hc m S_ (fun i l => k l i) HP). rewrite HM in Hc. fold NW in Hc.
    assert (U : Sum M (fun j => d j * sq m S_ (fun i => k j i) (fun i => W k j i)) <= al * NW + al * (Ds * SS * (dl * dl)) + Ds * (2 * SS * B) * (e * dl)); [|lra].
    unfold NW, Ds. replace (al * (Sum M d * SS * (dl * dl))) with (Sum M (fun j => d j * (al * SS * (dl * dl)))) by (rewrite Sum_scal_r; ring). replace (Sum M d * (2 * SS * B) * (e * dl)) with (Sum M (fun j => d j * (2 * SS * (B * e * dl)))) by (rewrite Sum_scal_r; ring).
    rewrite <- Sum_scal, <- !Sum_plus. apply sum_le. intros j Hj. replace (al * (d j * quad m S_ (fun i => W k j i) (fun i => W k j i)) + d j * (al * SS * (dl * dl)) + d j * (2 * SS * (B * e * dl))) with (d j * (al * quad m S_ (fun i => W k j i) (fun i => W k j i) + al * SS * (dl * dl) + 2 * SS * (B * e * dl))) by ring.
    apply Rmult_le_compat_l; [left; now apply Hp|]. specialize (HO j Hj). set (w := fun i => W k j i) in *. set (dv := del j) in *. change (sq m S_ (k j) (fun i => w i + dv i) <= 2 * nu * quad m S_ (fun i => w i + dv i) (fun i => w i + dv i)) in HO.
    assert (E1 : sq m S_ (k j) (fun i => w i + dv i) = sq m S_ (k j) w + sq m S_ (k j) dv) by (unfold sq; rewrite quad_add_l, quad_add_r; ring).
    assert (E2 : quad m S_ (fun i => w i + dv i) (fun i => w i + dv i) <= 2 * quad m S_ w w + 2 * quad m S_ dv dv). { rewrite quad_add_l, !quad_add_r. pose proof (HP (fun i => w i + -1 * dv i)) as HN. rewrite quad_move in HN. unfold sq in HN. lra. }
    pose proof (quad_sup m S_ dv dl (fun i Hi => Hdel j i Hj Hi)) as E3. fold SS in E3.
    pose proof (sq_sup m S_ (k j) dv (B * e) dl (fun i Hi => Hk j i Hj Hi) (fun i Hi => Hdel j i Hj Hi)) as E4. fold SS in E4. apply Rabs_le_between in E4. change (fun i => k j i) with (k j).
    assert (E5 : 2 * nu * quad m S_ (fun i => w i + dv i) (fun i => w i + dv i) <= al * quad m S_ w w + al * quad m S_ dv dv). { apply Rle_trans with (2 * nu * (2 * quad m S_ w w + 2 * quad m S_ dv dv)); [apply Rmult_le_compat_l; lra|]. pose proof (HP w) as P1. pose proof (HP dv) as P2. pose proof (Rmult_le_compat_r _ _ _ P1 Hnu4). pose proof (Rmult_le_compat_r _ _ _ P2 Hnu4). lra. }
    assert (E6 : al * quad m S_ dv dv <= al * (SS * (dl * dl))) by (apply Rmult_le_compat_l; lra). lra. }
  assert (He2 : e * e <= C1 * NW). { pose proof (Low (fun j i => W k j i) jm im Hjm Him) as L. cbv beta in L. unfold e. rewrite <- Rabs_mult, Rabs_pos_eq by apply Rle_0_sqr. exact L. }
  assert (HeQ : e <= Q * dl).
  { destruct (Rle_dec e dl) as [Hle|Hgt]; [apply Rle_trans with (1 * dl); [lra|]; apply Rmult_le_compat_r; [exact Hdl|unfold Q; lra]|]. assert (0 < e) by lra.
    assert (NWb : NW <= Ds * SS * (dl * dl) + Ds * (2 * SS * B) / al * (e * dl)). { apply (Rmult_le_reg_l al); [exact Hal|]. eapply Rle_trans; [exact Eb|]. apply Req_le. field. lra. }
    assert (X : C1 * NW <= C1 * (Ds * SS) * (dl * dl) + C1 * (Ds * (2 * SS * B)) / al * (e * dl)). { apply (Rmult_le_compat_l C1) in NWb; [|exact HC1]. eapply Rle_trans; [exact NWb|]. apply Req_le. field. lra. }
    assert (Y : C1 * (Ds * SS) * (dl * dl) <= C1 * (Ds * SS) * (e * dl)) by (apply Rmult_le_compat_l; [exact HQ0|apply Rmult_le_compat_r; lra]).
    apply (Rmult_le_reg_l e); [assumption|]. assert (0 <= e * dl) by (apply Rmult_le_pos; lra). replace (e * (Q * dl)) with (e * dl + C1 * (Ds * SS) * (e * dl) + C1 * (Ds * (2 * SS * B)) / al * (e * dl)) by (unfold Q; ring). lra. }
  assert (HBQ : 0 <= B * Q * dl) by (repeat apply Rmult_le_pos; assumption). assert (HQd : 0 <= Q * dl) by now apply Rmult_le_pos. split.
  - eapply Rle_trans; [now apply Hmax|]. fold e. lra.
  - eapply Rle_trans; [now apply Hk|]. apply Rle_trans with (B * (Q * dl)); [now apply Rmult_le_compat_l|lra].
Qed.
End Stage.
