(** Dissipative dynamics: the equations have exactly one solution, however long the steps (C108). *)
From Coq Require Import Reals Lra.
From Coquelicot Require Import Coquelicot.
From Verif Require Import PyBase IndexModel DMModel DMProofs StructModel StructSpec PowerModel EntryModel StructsModel IneqModel DaeModel StructsSpec StructsThms11 NumModel NumInst NumSpec PolynomialModel PiecewiseModel PdqModel SchemeModel
  PolySpec PiecewiseSpec PdqSpec SchemeSpec PolyMath PolynomialBase PolynomialThms PolynomialThms2 PiecewiseThms PdqThms PdqThms2 SchemeThms SchemeThms2 SchemeThms3 OrderSpec OrderMath OrderThms ConvSpec ConvThms StiffThms MonoSpec.
Open Scope R_scope.

(** ** The points lie inside *)
Lemma nodal_cut l1 l2 c x : nodal (l1 ++ c :: l2) x = (x - c) * nodal (l1 ++ l2) x.
Proof. rewrite !nodal_app. simpl. ring. Qed.
Lemma sign_zero k f l : PolyLt k f -> (forall x, nodal l x <> 0 -> f x <> 0) -> (forall x, 0 <= x <= 1 -> 0 <= f x) -> is_RInt f 0 1 0 -> False.
Proof. intros P H Hp HI. destruct (nodal_other l) as (x & Hx). apply (H x Hx). now apply (int_zero k f P). Qed.
Lemma gauss_inside tau c : Ortho tau (length tau) -> In c tau -> 0 < c < 1.
Proof.
  intros Ho Hc. destruct (in_split _ _ Hc) as (l1 & l2 & E). set (l := l1 ++ l2). assert (El : S (length l) = length tau) by (unfold l; rewrite E, !app_length; simpl; lia).
  pose proof (nodal_poly l) as Pl. rewrite El in Pl. pose proof (Ho _ Pl) as HI. assert (En : forall x, nodal tau x = (x - c) * nodal l x) by (intros x; rewrite E; apply nodal_cut).
  assert (PP : PolyLt (length tau + S (length tau)) (fun x => nodal l x * nodal tau x)) by (apply PolyLt_mul; [apply (PolyLt_mon (length tau)); [lia|exact Pl]|apply nodal_poly]).
  assert (NZ : forall x, nodal tau x <> 0 -> nodal l x * nodal tau x <> 0). { intros x Hx. apply Rmult_integral_contrapositive_currified; [|exact Hx]. intros H0. apply Hx. rewrite En, H0. ring. }
  split; apply Rnot_le_lt; intros Hle.
  - apply (sign_zero _ _ tau PP NZ); [|exact HI]. intros x Hx. rewrite En. replace (nodal l x * ((x - c) * nodal l x)) with ((x - c) * (nodal l x * nodal l x)) by ring. apply Rmult_le_pos; [lra|apply Rle_0_sqr].
  - apply (sign_zero (length tau + S (length tau)) (fun x => (-1) * (nodal l x * nodal tau x)) tau); [now apply PolyLt_scal| | |].
    + intros x Hx. specialize (NZ x Hx). lra.
    + intros x Hx. rewrite En. replace (-1 * (nodal l x * ((x - c) * nodal l x))) with ((c - x) * (nodal l x * nodal l x)) by ring. apply Rmult_le_pos; [lra|apply Rle_0_sqr].
    + replace 0 with (-1 * 0) at 2 by ring. apply (is_RInt_scal (V := R_NormedModule) (fun x => nodal l x * nodal tau x) 0 1 (-1) 0 HI).
Qed.
Lemma radau_inside tau c : Ortho tau (length tau - 1) -> In 1 tau -> In c tau -> 0 < c <= 1.
Proof.
  intros Ho H1 Hc. destruct (Req_dec c 1) as [->|Hne]; [lra|]. destruct (in_split _ _ Hc) as (l1 & l2 & E). assert (H1' : In 1 (l1 ++ l2)). { rewrite E in H1. apply in_app_iff in H1 as [H1|[H1|H1]]; [apply in_app_iff; now left|congruence|apply in_app_iff; now right]. }
  destruct (in_split _ _ H1') as (k1 & k2 & E'). set (l := k1 ++ k2). assert (El : S (length l) = (length tau - 1)%nat). { assert (EL : length (l1 ++ l2) = S (length l)) by (rewrite E'; unfold l; rewrite !app_length; simpl; lia). rewrite E, app_length. rewrite app_length in EL. simpl. lia. }
  pose proof (nodal_poly l) as Pl. rewrite El in Pl. pose proof (Ho _ Pl) as HI. assert (En : forall x, nodal tau x = (x - c) * ((x - 1) * nodal l x)) by (intros x; rewrite E, nodal_cut, E', nodal_cut; reflexivity).
  assert (PP : PolyLt (length tau + S (length tau)) (fun x => nodal l x * nodal tau x)) by (apply PolyLt_mul; [apply (PolyLt_mon (length tau - 1)); [lia|exact Pl]|apply nodal_poly]).
  assert (NZ : forall x, nodal tau x <> 0 -> nodal l x * nodal tau x <> 0). { intros x Hx. apply Rmult_integral_contrapositive_currified; [|exact Hx]. intros H0. apply Hx. rewrite En, H0. ring. }
  split; [apply Rnot_le_lt|apply Rnot_lt_le]; intros Hle.
  - apply (sign_zero (length tau + S (length tau)) (fun x => (-1) * (nodal l x * nodal tau x)) tau); [now apply PolyLt_scal| | |].
    + intros x Hx. specialize (NZ x Hx). lra.
    + intros x Hx. rewrite En. replace (-1 * (nodal l x * ((x - c) * ((x - 1) * nodal l x)))) with ((x - c) * (1 - x) * (nodal l x * nodal l x)) by ring. apply Rmult_le_pos; [apply Rmult_le_pos; lra|apply Rle_0_sqr].
    + replace 0 with (-1 * 0) at 2 by ring. apply (is_RInt_scal (V := R_NormedModule) (fun x => nodal l x * nodal tau x) 0 1 (-1) 0 HI).
  - apply (sign_zero _ _ tau PP NZ); [|exact HI]. intros x Hx. rewrite En. replace (nodal l x * ((x - c) * ((x - 1) * nodal l x))) with ((c - x) * (1 - x) * (nodal l x * nodal l x)) by ring. apply Rmult_le_pos; [apply Rmult_le_pos; lra|apply Rle_0_sqr].
Qed.

(** ** The coefficients can be inverted from both sides *)
Lemma inverse_A tau A b : NoDup tau -> ~ In 0 tau -> RungeKutta tau A b -> forall v j, (j < length tau)%nat -> Sum (length tau) (fun l => A j l * Sum (length tau) (fun i => inv_A tau l i * v i)) = v j.
Proof.
  intros Hd H0 HR v j Hj. set (M := length tau) in *. assert (Hd' : NoDup (0 :: tau)) by now constructor. set (L := fun i => polyval (lagrange (0 :: tau) (S i))).
  assert (PL : forall i, (i < M)%nat -> PolyLt (S M) (L i)) by (intros i Hi; apply (lagrange_poly (0 :: tau) (S i)); simpl; fold M; lia).
  set (F := fun s => Sum M (fun i => v i * L i s)). assert (PF : PolyLt (S M) F) by (apply (PolyLt_Sum (S M) M (fun i s => v i * L i s)); intros i Hi; apply PolyLt_scal; now apply PL).
  destruct (PolyLt_derive _ _ PF) as (D & PD & HD).
  assert (ED : forall l, D (node tau l) = Sum M (fun i => inv_A tau l i * v i)).
  { intros l. rewrite <- (is_derive_unique _ _ _ (HD (node tau l))). apply is_derive_unique. rewrite (Sum_ext M _ (fun i => v i * Derive (L i) (node tau l))) by (intros i Hi; unfold inv_A, L; ring).
    apply (is_derive_Sum M (fun i s => v i * L i s) (fun i s => v i * Derive (L i) s)). intros i Hi. apply (is_derive_scal (L i)). apply Derive_correct. apply (PolyLt_ex_derive (S M)). now apply PL. }
  assert (EL : forall i k, (i < M)%nat -> (k <= M)%nat -> L i (node (0 :: tau) k) = if Nat.eqb (S i) k then 1 else 0) by (intros i k Hi Hk; unfold L; apply lagrange_delta; simpl; fold M; try lia; exact Hd').
  assert (F0 : F 0 = 0). { unfold F. apply Sum_0. intros i Hi. pose proof (EL i 0%nat Hi ltac:(lia)) as E0. change (node (0 :: tau) 0) with 0 in E0. cbn [Nat.eqb] in E0. rewrite E0. ring. }
  assert (Fj : F (node tau j) = v j). { unfold F. change (node tau j) with (node (0 :: tau) (S j)). rewrite (Sum_single M j _ Hj); [rewrite EL, Nat.eqb_refl by lia; ring|]. intros i Hi Hn. rewrite EL by lia. destruct (Nat.eqb_spec (S i) (S j)); [lia|ring]. }
  destruct (HR D PD) as [H1 _]. pose proof (int_unique _ _ _ _ _ (is_RInt_poly _ _ F 0 (node tau j) PD HD) (H1 j Hj)) as E. rewrite F0, Fj in E. fold M in E. rewrite (Sum_ext M _ (fun l => A j l * D (node tau l))) by (intros l Hl; now rewrite ED). lra.
Qed.

(** ** Coercivity *)
(** The rate of change of the square norm when the stage values [v] change at the rates [k] *)
Definition sq (m : nat) (S : nat -> nat -> R) (v w : nat -> R) : R := quad m S v w + quad m S w v.
Section Coercive.
Context (tau : list R) (A : nat -> nat -> R) (b : nat -> R) (m : nat) (S_ : nat -> nat -> R) (k : nat -> nat -> R).
Notation M := (length tau).
Context (Hd : NoDup tau) (HM : (1 <= M)%nat) (HR : RungeKutta tau A b).
Notation V j := (fun i => Sum M (fun l => A j l * k i l)).
Notation Wp G W := (forall i x, (i < m)%nat -> G i x = x * W i x).
Lemma split_poly : exists W DW D : nat -> R -> R, forall i, (i < m)%nat -> PolyLt M (W i) /\ PolyLt (M - 1) (DW i) /\ (forall x, is_derive (W i) x (DW i x)) /\ (forall x, D i x = W i x + x * DW i x) /\
  forall j, (j < M)%nat -> node tau j * W i (node tau j) = V j i /\ D i (node tau j) = k i j.
Proof.
  destruct (rk_poly tau A b m 1 (fun _ => 0) k Hd HR) as (G & D & H).
  assert (HW : forall i, (i < m)%nat -> exists W : (R -> R) * (R -> R), PolyLt M (fst W) /\ PolyLt (M - 1) (snd W) /\ (forall x, is_derive (fst W) x (snd W x)) /\ (forall x, D i x = fst W x + x * snd W x) /\ forall j, (j < M)%nat -> node tau j * fst W (node tau j) = V j i).
  { intros i Hi. destruct (H i Hi) as (PG & PD & DG & G0 & _ & HJ). destruct (factor M (G i) 0 PG G0) as (W & PW & EW). assert (PW' : PolyLt (S (M - 1)) W) by (apply (PolyLt_mon M); [lia|exact PW]).
    destruct (PolyLt_derive _ _ PW') as (DW & PDW & HDW). exists (W, DW). cbn [fst snd]. split; [exact PW|]. split; [exact PDW|]. split; [exact HDW|]. split.
    - intros x. rewrite <- (is_derive_unique _ _ _ (DG x)). apply is_derive_unique. apply (is_derive_ext (fun x => x * W x)); [intros y; rewrite EW; now rewrite Rminus_0_r|]. evar_last; [apply (is_derive_mult (K := R_AbsRing)); [apply is_derive_id|apply HDW|intros; apply Rmult_comm]|]. unfold plus, mult, one. simpl. ring.
    - intros j Hj. destruct (HJ j Hj) as [EG _]. rewrite EW in EG. rewrite Rminus_0_r in EG. rewrite EG. ring. }
  apply (fin_choice ((fun _ => 0), (fun _ => 0))) in HW as (q & Hq). exists (fun i => fst (q i)), (fun i => snd (q i)), D. intros i Hi. destruct (Hq i Hi) as (P1 & P2 & P3 & P4 & P5). repeat (split; [assumption|]). intros j Hj. split; [now apply P5|].
  destruct (H i Hi) as (_ & _ & _ & _ & _ & HJ). destruct (HJ j Hj) as [_ ->]. ring.
Qed.
Section Poly.
Context (W DW D : nat -> R -> R) (H : forall i, (i < m)%nat -> PolyLt M (W i) /\ PolyLt (M - 1) (DW i) /\ (forall x, is_derive (W i) x (DW i x)) /\ (forall x, D i x = W i x + x * DW i x) /\
  forall j, (j < M)%nat -> node tau j * W i (node tau j) = V j i /\ D i (node tau j) = k i j).
Let Q x := quad m S_ (fun i => W i x) (fun i => W i x).
Let rate x := sq m S_ (fun i => D i x) (fun i => W i x).
Let dQ x := Sum m (fun i => Sum m (fun j => S_ i j * (DW i x * W j x + W i x * DW j x))).
Lemma Q_der x : is_derive Q x (dQ x).
Proof.
  unfold Q, dQ, quad. apply (is_derive_Sum m (fun i x => Sum m (fun j => S_ i j * (W i x * W j x))) (fun i x => Sum m (fun j => S_ i j * (DW i x * W j x + W i x * DW j x)))). intros i Hi.
  apply (is_derive_Sum m (fun j x => S_ i j * (W i x * W j x)) (fun j x => S_ i j * (DW i x * W j x + W i x * DW j x))). intros j Hj. destruct (H i Hi) as (_ & _ & Di & _), (H j Hj) as (_ & _ & Dj & _).
  apply (is_derive_scal (fun x => W i x * W j x) x (S_ i j)). evar_last; [apply (is_derive_mult (K := R_AbsRing)); [apply Di|apply Dj|intros; apply Rmult_comm]|]. unfold plus, mult. simpl. ring.
Qed.
Lemma rate_split x : rate x = 2 * Q x + x * dQ x.
Proof.
  unfold rate, sq, Q, dQ. rewrite quad_plus. unfold quad. rewrite <- !Sum_scal, <- Sum_plus. apply Sum_ext. intros i Hi. rewrite <- !Sum_scal, <- Sum_plus. apply Sum_ext. intros j Hj. destruct (H i Hi) as (_ & _ & _ & Di & _), (H j Hj) as (_ & _ & _ & Dj & _). rewrite Di, Dj. ring.
Qed.
Lemma Q_poly : PolyLt (M + (M - 1)) Q.
Proof.
  apply (PolyLt_Sum _ _ (fun i x => Sum m (fun j => S_ i j * (W i x * W j x)))). intros i Hi. apply (PolyLt_Sum _ _ (fun j x => S_ i j * (W i x * W j x))). intros j Hj. apply PolyLt_scal. apply (PolyLt_mon ((M - 1) + M)); [lia|]. destruct (H i Hi) as (Pi & _), (H j Hj) as (Pj & _).
  apply PolyLt_mul; [apply (PolyLt_mon M); [lia|exact Pi]|exact Pj].
Qed.
Lemma rate_polyM : PolyLt (M + (M - 1)) rate.
Proof.
  apply (PolyLt_ext _ (fun x => Sum m (fun i => Sum m (fun j => S_ i j * (D i x * W j x + W i x * D j x))))); [intros x; unfold rate, sq; now rewrite quad_plus|].
  assert (PD : forall i, (i < m)%nat -> PolyLt M (D i)). { intros i Hi. destruct (H i Hi) as (P1 & P2 & _ & E & _). apply (PolyLt_ext _ (fun x => W i x + x * DW i x)); [intros; now rewrite E|]. apply PolyLt_plus; [exact P1|]. apply (PolyLt_mon (S (M - 1))); [lia|]. now apply PolyLt_mulx. }
  apply (PolyLt_Sum _ _ (fun i x => Sum m (fun j => S_ i j * (D i x * W j x + W i x * D j x)))). intros i Hi. apply (PolyLt_Sum _ _ (fun j x => S_ i j * (D i x * W j x + W i x * D j x))). intros j Hj. apply PolyLt_scal. apply (PolyLt_mon ((M - 1) + M)); [lia|]. destruct (H i Hi) as (Pi & _), (H j Hj) as (Pj & _).
  apply PolyLt_plus; apply PolyLt_mul; auto; apply (PolyLt_mon M); auto; lia.
Qed.
Lemma gauss_id : Ortho tau M -> Sum M (fun j => b j * ((1 - node tau j) * rate (node tau j))) = Sum M (fun j => b j * Q (node tau j)).
Proof.
  intros Ho. assert (He : ExactLt tau b (M + M)) by (apply order_iff; [exact Hd|apply (rk_exact tau A b HR)|exact Ho]).
  set (F := fun x => (1 - x) * rate x - Q x). assert (PF : PolyLt (M + M) F).
  { apply PolyLt_minus; [|apply (PolyLt_mon (M + (M - 1))); [lia|apply Q_poly]]. apply (PolyLt_mon (S (M + (M - 1)))); [lia|]. apply (PolyLt_ext _ (fun x => (-1) * ((x - 1) * rate x))); [intros; ring|]. apply PolyLt_scal, PolyLt_lin, rate_polyM. }
  assert (DR : forall x, is_derive (fun x => x * (1 - x) * Q x) x (F x)).
  { intros x. evar_last; [apply (is_derive_mult (K := R_AbsRing) (fun x => x * (1 - x)) Q x (1 - 2 * x) (dQ x)); [auto_derive; [exact I|ring]|apply Q_der|intros; apply Rmult_comm]|]. unfold plus, mult. simpl. unfold F. rewrite rate_split. ring. }
  pose proof (int_unique _ _ _ _ _ (is_RInt_poly _ _ _ 0 1 PF DR) (He _ PF)) as E. unfold F in E. rewrite (Sum_ext M _ (fun j => b j * ((1 - node tau j) * rate (node tau j)) - b j * Q (node tau j))) in E by (intros; ring). rewrite Sum_minus in E. lra.
Qed.
Lemma radau_id : PSD m S_ -> Ortho tau (M - 1) -> Sum M (fun j => b j * Q (node tau j)) <= Sum M (fun j => b j * rate (node tau j)).
Proof.
  intros HS Ho. assert (He : ExactLt tau b (M + (M - 1))) by (apply order_iff; [exact Hd|apply (rk_exact tau A b HR)|exact Ho]).
  set (F := fun x => rate x - Q x). assert (PF : PolyLt (M + (M - 1)) F) by (apply PolyLt_minus; [apply rate_polyM|apply Q_poly]).
  assert (DR : forall x, is_derive (fun x => x * Q x) x (F x)).
  { intros x. evar_last; [apply (is_derive_mult (K := R_AbsRing) (fun x => x) Q x 1 (dQ x)); [apply (is_derive_id x)|apply Q_der|intros; apply Rmult_comm]|]. unfold plus, mult. simpl. unfold F. rewrite rate_split. ring. }
  pose proof (int_unique _ _ _ _ _ (is_RInt_poly _ _ _ 0 1 PF DR) (He _ PF)) as E. unfold F in E. rewrite (Sum_ext M _ (fun j => b j * rate (node tau j) - b j * Q (node tau j))) in E by (intros; ring). rewrite Sum_minus in E. pose proof (HS (fun i => W i 1)) as H1. fold (Q 1) in H1. lra.
Qed.
(** At the points, [W] is the stage value divided by the point. *)
Lemma Q_at j : (j < M)%nat -> node tau j <> 0 -> Q (node tau j) = / (node tau j * node tau j) * quad m S_ (V j) (V j).
Proof.
  intros Hj Hc. unfold Q. set (c := node tau j) in *. transitivity (quad m S_ (fun i => / c * V j i) (fun i => / c * V j i)); [|rewrite quad_scal_l, quad_scal_r; field; exact Hc].
  apply quad_ext; intros i Hi; destruct (H i Hi) as (_ & _ & _ & _ & HJ); destruct (HJ j Hj) as [<- _]; fold c; field; exact Hc.
Qed.
Lemma rate_at j : (j < M)%nat -> node tau j <> 0 -> rate (node tau j) = / node tau j * sq m S_ (fun i => k i j) (V j).
Proof.
  intros Hj Hc. unfold rate, sq. set (c := node tau j) in *. transitivity (quad m S_ (fun i => k i j) (fun i => / c * V j i) + quad m S_ (fun i => / c * V j i) (fun i => k i j)); [|rewrite quad_scal_l, quad_scal_r; field; exact Hc].
  f_equal; apply quad_ext; intros i Hi; destruct (H i Hi) as (_ & _ & _ & _ & HJ); destruct (HJ j Hj) as [E1 E2]; fold c in E1, E2; rewrite ?E2; try reflexivity; rewrite <- E1; field; exact Hc.
Qed.
End Poly.
End Coercive.

(** The stage values cannot grow while all of them shrink. *)
Definition Coercive (tau : list R) (A : nat -> nat -> R) (al : R) (d : nat -> R) : Prop := (forall j, (j < length tau)%nat -> 0 < d j) /\
  forall m S k, PSD m S -> 2 * al * Sum (length tau) (fun j => d j * quad m S (fun i => Sum (length tau) (fun l => A j l * k i l)) (fun i => Sum (length tau) (fun l => A j l * k i l)))
    <= Sum (length tau) (fun j => d j * sq m S (fun i => k i j) (fun i => Sum (length tau) (fun l => A j l * k i l))).
Lemma gauss_coercive tau A b : NoDup tau -> (1 <= length tau)%nat -> RungeKutta tau A b -> Ortho tau (length tau) -> Coercive tau A 2 (fun j => b j * (1 - node tau j) / node tau j).
Proof.
  intros Hd HM HR Ho. set (M := length tau) in *. assert (Hc : forall j, (j < M)%nat -> 0 < node tau j < 1) by (intros j Hj; apply (gauss_inside tau); [exact Ho|now apply node_in]).
  assert (Hb : forall j, (j < M)%nat -> 0 < b j) by (apply (rk_weights tau A b); try assumption; apply (ortho_mon _ M); [lia|exact Ho]).
  split; [intros j Hj; specialize (Hc j Hj); specialize (Hb j Hj); apply Rdiv_lt_0_compat; [apply Rmult_lt_0_compat|]; lra|]. intros m S k HS.
  destruct (split_poly tau A b m k Hd HM HR) as (W & DW & D & H). pose proof (gauss_id tau A b m S k Hd HM HR W DW D H Ho) as E. fold M in E |- *.
  apply Rle_trans with (Sum M (fun j => b j * quad m S (fun i => W i (node tau j)) (fun i => W i (node tau j)))).
  - rewrite <- Sum_scal. apply sum_le. intros j Hj. specialize (Hc j Hj). specialize (Hb j Hj). rewrite (Q_at tau A m S k W DW D H j Hj) by lra. fold M. set (q := quad m S _ _). assert (0 <= q) by apply HS.
    set (c := node tau j) in *. apply (Rmult_le_reg_r (c * c)); [nra|]. replace (2 * 2 * (b j * (1 - c) / c * q) * (c * c)) with (b j * (q * (4 * (c * (1 - c))))) by (field; lra). replace (b j * (/ (c * c) * q) * (c * c)) with (b j * (q * 1)) by (field; lra).
    apply Rmult_le_compat_l; [lra|]. apply Rmult_le_compat_l; [assumption|]. pose proof (Rle_0_sqr (1 - 2 * c)) as Hs. unfold Rsqr in Hs. lra.
  - rewrite <- E. apply Req_le, Sum_ext. intros j Hj. specialize (Hc j Hj). rewrite (rate_at tau A m S k W DW D H j Hj) by lra. fold M. field. lra.
Qed.
Lemma radau_coercive tau A b : NoDup tau -> (1 <= length tau)%nat -> RungeKutta tau A b -> Ortho tau (length tau - 1) -> In 1 tau -> Coercive tau A (1 / 2) (fun j => b j / node tau j).
Proof.
  intros Hd HM HR Ho H1. set (M := length tau) in *. assert (Hc : forall j, (j < M)%nat -> 0 < node tau j <= 1) by (intros j Hj; apply (radau_inside tau); [exact Ho|exact H1|now apply node_in]).
  assert (Hb : forall j, (j < M)%nat -> 0 < b j) by (now apply (rk_weights tau A b)).
  split; [intros j Hj; specialize (Hc j Hj); specialize (Hb j Hj); apply Rdiv_lt_0_compat; lra|]. intros m S k HS.
  destruct (split_poly tau A b m k Hd HM HR) as (W & DW & D & H). pose proof (radau_id tau A b m S k Hd HM HR W DW D H HS Ho) as E. fold M in E |- *.
  apply Rle_trans with (Sum M (fun j => b j * quad m S (fun i => W i (node tau j)) (fun i => W i (node tau j)))).
  - rewrite <- Sum_scal. apply sum_le. intros j Hj. specialize (Hc j Hj). specialize (Hb j Hj). rewrite (Q_at tau A m S k W DW D H j Hj) by lra. fold M. set (q := quad m S _ _). assert (0 <= q) by apply HS.
    set (c := node tau j) in *. apply (Rmult_le_reg_r (c * c)); [nra|]. replace (2 * (1 / 2) * (b j / c * q) * (c * c)) with (b j * (q * c)) by (field; lra). replace (b j * (/ (c * c) * q) * (c * c)) with (b j * (q * 1)) by (field; lra).
    apply Rmult_le_compat_l; [lra|]. apply Rmult_le_compat_l; [assumption|]. lra.
  - eapply Rle_trans; [exact E|]. apply Req_le, Sum_ext. intros j Hj. specialize (Hc j Hj). rewrite (rate_at tau A m S k W DW D H j Hj) by lra. fold M. field. lra.
Qed.
