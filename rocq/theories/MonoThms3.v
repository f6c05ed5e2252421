(** Dissipative dynamics: a solution exists (C108). *)
From Coq Require Import Reals Lra.
From Coquelicot Require Import Coquelicot.
From Verif Require Import PyBase IndexModel DMModel DMProofs StructModel StructSpec PowerModel EntryModel StructsModel IneqModel DaeModel StructsSpec StructsThms11 NumModel NumInst NumSpec PolynomialModel PiecewiseModel PdqModel SchemeModel
  PolySpec PiecewiseSpec PdqSpec SchemeSpec PolyMath PolynomialBase PolynomialThms PolynomialThms2 PiecewiseThms PdqThms PdqThms2 SchemeThms SchemeThms2 SchemeThms3 SchemeThms4 SchemeThms5 OrderSpec OrderMath OrderThms ConvSpec ConvThms GridSpec GridThms StiffThms MonoSpec MonoThms MonoThms2.
Open Scope R_scope.

(** ** Contractions in another norm *)
Section Norm.
Context (M m : nat) (Nrm : (nat -> nat -> R) -> R) (C1 C2 kap : R) (Phi : (nat -> nat -> R) -> nat -> nat -> R).
Notation rng j i := ((j < M)%nat -> (i < m)%nat).
Context (Hk : 0 <= kap < 1) (HC1 : 0 <= C1) (Ext : forall v w, (forall j i, (j < M)%nat -> (i < m)%nat -> v j i = w j i) -> Nrm v = Nrm w).
Context (Low : forall v j i, (j < M)%nat -> (i < m)%nat -> v j i * v j i <= C1 * Nrm v) (Up : forall v e, (forall j i, (j < M)%nat -> (i < m)%nat -> Rabs (v j i) <= e) -> 0 <= e -> Nrm v <= C2 * (e * e)).
Context (HPhi : forall v w, Nrm (fun j i => Phi v j i - Phi w j i) <= kap * Nrm (fun j i => v j i - w j i)).
Fixpoint iterN (k : nat) (v : nat -> nat -> R) : nat -> nat -> R := match k with O => v | S k => Phi (iterN k v) end.
Lemma iterN_comm k v : iterN k (Phi v) = Phi (iterN k v). Proof. induction k as [|k IH]; simpl; [reflexivity|now rewrite IH]. Qed.
Lemma iterN_norm k v w : Nrm (fun j i => iterN k v j i - iterN k w j i) <= kap ^ k * Nrm (fun j i => v j i - w j i).
Proof. induction k as [|k IH]; simpl; [lra|]. eapply Rle_trans; [apply HPhi|]. rewrite Rmult_assoc. apply Rmult_le_compat_l; [lra|exact IH]. Qed.
Lemma sq_le a e : 0 <= e -> a * a <= e * e -> Rabs a <= e. Proof. intros He H. apply Rsqr_incr_0_var; [|exact He]. rewrite <- Rsqr_abs. exact H. Qed.
Lemma norm_fix : exists v, forall j i, (j < M)%nat -> (i < m)%nat -> Phi v j i = v j i.
Proof.
  assert (exists K, (1 <= K)%nat /\ kap ^ K * (C1 * C2) <= 1 / 4 /\ kap ^ K < 1) as (K & HK1 & HK & HK2).
  { assert (HL : is_lim_seq (fun k => kap ^ k * (C1 * C2)) 0). { replace (Finite 0) with (Rbar_mult 0 (C1 * C2)) by (simpl; f_equal; ring). apply is_lim_seq_scal_r, is_lim_seq_geom. rewrite Rabs_pos_eq; lra. }
    apply is_lim_seq_spec in HL. destruct (HL (mkposreal (1 / 4) ltac:(lra))) as (k & H). exists (S k). specialize (H (S k) ltac:(lia)). simpl pos in H. rewrite Rminus_0_r in H. split; [lia|]. split; [left; eapply Rle_lt_trans; [apply Rle_abs|exact H]|].
    apply pow_lt_1_compat; [lra|lia]. }
  destruct (banach M m (iterN K) (1 / 2) ltac:(lra)) as (v & Hv).
  { intros v w e Hvw j i Hj Hi. assert (He : 0 <= e) by (eapply Rle_trans; [apply Rabs_pos|now apply (Hvw j i)]). apply sq_le; [lra|]. eapply Rle_trans; [apply (Low (fun j i => iterN K v j i - iterN K w j i) j i Hj Hi)|].
    pose proof (iterN_norm K v w) as B1. pose proof (Up (fun j i => v j i - w j i) e Hvw He) as B2. assert (Kp : 0 <= kap ^ K) by (apply pow_le; lra). pose proof (Rmult_le_compat_l _ _ _ Kp B2) as B3. pose proof (Rmult_le_compat_l _ _ _ HC1 (Rle_trans _ _ _ B1 B3)) as B4.
    eapply Rle_trans; [exact B4|]. replace (C1 * (kap ^ K * (C2 * (e * e)))) with (kap ^ K * (C1 * C2) * (e * e)) by ring. assert (0 <= e * e) by nra. nra. }
  exists v. assert (Z0 : forall w : nat -> nat -> R, Nrm (fun j i => w j i) <= 0 -> forall j i, (j < M)%nat -> (i < m)%nat -> w j i = 0).
  { intros w Hw j i Hj Hi. pose proof (Low w j i Hj Hi) as B. pose proof (Rmult_le_compat_l _ _ _ HC1 Hw) as B2. cbv beta in B2. pose proof (Rle_0_sqr (w j i)) as B3. unfold Rsqr in B3. assert (w j i * w j i = 0) as E by (change (fun j i => w j i) with w in B2; lra). apply Rmult_integral in E. tauto. }
  assert (E1 : forall j i, (j < M)%nat -> (i < m)%nat -> iterN K (Phi v) j i = Phi v j i).
  { intros j i Hj Hi. rewrite iterN_comm. apply Rminus_diag_uniq. apply (Z0 (fun j i => Phi (iterN K v) j i - Phi v j i)); [|exact Hj|exact Hi]. eapply Rle_trans; [apply HPhi|]. pose proof (Up (fun j i => iterN K v j i - v j i) 0) as B. rewrite !Rmult_0_r in B.
    replace 0 with (kap * 0) by ring. apply Rmult_le_compat_l; [lra|]. apply B; [|lra]. intros j' i' Hj' Hi'. rewrite Hv by assumption. rewrite Rminus_eq_0, Rabs_R0. lra. }
  intros j i Hj Hi. apply Rminus_diag_uniq. apply (Z0 (fun j i => Phi v j i - v j i)); [|exact Hj|exact Hi].
  pose proof (iterN_norm K (Phi v) v) as B. rewrite (Ext (fun j i => iterN K (Phi v) j i - iterN K v j i) (fun j i => Phi v j i - v j i)) in B by (intros; now rewrite E1, Hv). nra.
Qed.
End Norm.

(** ** Bilinearity *)
Lemma quad_add_l n S v w z : quad n S (fun i => v i + w i) z = quad n S v z + quad n S w z.
Proof. unfold quad. rewrite <- Sum_plus. apply Sum_ext. intros i Hi. rewrite <- Sum_plus. apply Sum_ext. intros. ring. Qed.
Lemma quad_add_r n S v w z : quad n S z (fun i => v i + w i) = quad n S z v + quad n S z w.
Proof. unfold quad. rewrite <- Sum_plus. apply Sum_ext. intros i Hi. rewrite <- Sum_plus. apply Sum_ext. intros. ring. Qed.
Lemma sq_ext n S v w v' w' : (forall i, (i < n)%nat -> v i = v' i) -> (forall i, (i < n)%nat -> w i = w' i) -> sq n S v w = sq n S v' w'.
Proof. intros Hv Hw. unfold sq. f_equal; apply quad_ext; assumption. Qed.
Lemma quad_move n S a v w : quad n S (fun i => v i + a * w i) (fun i => v i + a * w i) = quad n S v v + a * sq n S w v + a * a * quad n S w w.
Proof. rewrite quad_add_l, !quad_add_r, !quad_scal_l, !quad_scal_r. unfold sq. ring. Qed.
Lemma sq_minus n S v w z : sq n S (fun i => v i - w i) z = sq n S v z - sq n S w z.
Proof.
  transitivity (sq n S (fun i => v i + (-1) * w i) z); [apply sq_ext; intros; ring|]. unfold sq. rewrite quad_add_l, quad_add_r, quad_scal_l, quad_scal_r. ring.
Qed.
Lemma quad_sup n S v e : (forall i, (i < n)%nat -> Rabs (v i) <= e) -> quad n S v v <= Sum n (fun i => Sum n (fun j => Rabs (S i j))) * (e * e).
Proof.
  intros H. unfold quad. rewrite <- Sum_scal_r. apply sum_le. intros i Hi. rewrite <- Sum_scal_r. apply sum_le. intros j Hj. eapply Rle_trans; [apply Rle_abs|]. rewrite !Rabs_mult. apply Rmult_le_compat_l; [apply Rabs_pos|].
  apply Rmult_le_compat; try apply Rabs_pos; now apply H.
Qed.
Lemma sum_pos n f : (forall i, (i < n)%nat -> 0 <= f i) -> 0 <= Sum n f.
Proof. intros H. induction n as [|n IH]; simpl; [lra|]. specialize (H n ltac:(lia)) as H0. specialize (IH (fun i Hi => H i ltac:(lia))). lra. Qed.
Lemma sum_each n f i : (forall i, (i < n)%nat -> 0 <= f i) -> (i < n)%nat -> f i <= Sum n f.
Proof. intros H. revert i. induction n as [|n IH]; simpl; intros i Hi; [lia|]. pose proof (sum_pos n f (fun i Hi => H i ltac:(lia))). destruct (Nat.eq_dec i n) as [->|Hne]; [lra|]. specialize (IH (fun i Hi => H i ltac:(lia)) i ltac:(lia)). specialize (H n ltac:(lia)). lra. Qed.

(** ** One step *)
Section Step.
Context (tau : list R) (A : nat -> nat -> R) (b : nat -> R) (M m : nat) (S_ : nat -> nat -> R) (al nu L h : R) (d x0 : nat -> R) (F : nat -> (nat -> R) -> nat -> R).
Context (HM : length tau = M) (Hd : NoDup tau) (H0 : ~ In 0 tau) (HR : RungeKutta tau A b) (HS : PosDef m S_) (Hco : Coercive tau A al d) (Hh : 0 < h) (Hnu : h * nu < al).
Context (HO : forall j v w, (j < M)%nat -> sq m S_ (fun i => F j v i - F j w i) (fun i => v i - w i) <= 2 * nu * quad m S_ (fun i => v i - w i) (fun i => v i - w i)).
Context (HF : forall j v w e, (j < M)%nat -> (forall i, (i < m)%nat -> Rabs (v i - w i) <= e) -> forall i, (i < m)%nat -> Rabs (F j v i - F j w i) <= L * e).
Let kk (v : nat -> nat -> R) j i := Sum M (fun l => inv_A tau j l * v l i).
Let T v j i := kk v j i - F j (fun i => x0 i + h * v j i) i.
Let Nrm (v : nat -> nat -> R) := Sum M (fun j => d j * quad m S_ (v j) (v j)).
Lemma Nrm_pos v : 0 <= Nrm v.
Proof. apply sum_pos. intros j Hj. destruct Hco as [Hp _]. rewrite HM in Hp. apply Rmult_le_pos; [left; now apply Hp|apply (posdef_psd _ _ HS)]. Qed.
Lemma kk_minus v w j i : kk (fun j i => v j i - w j i) j i = kk v j i - kk w j i.
Proof. unfold kk. rewrite <- Sum_minus. apply Sum_ext. intros. ring. Qed.
(** The operator is strongly monotone. *)
Lemma T_mono v w : 2 * (al - h * nu) * Nrm (fun j i => v j i - w j i) <= Sum M (fun j => d j * sq m S_ (fun i => T v j i - T w j i) (fun i => v j i - w j i)).
Proof.
  destruct Hco as [Hp Hc]. rewrite HM in Hp. set (D := fun j i => v j i - w j i). specialize (Hc m S_ (fun i l => kk D l i) (posdef_psd _ _ HS)). rewrite HM in Hc.
  assert (EA : forall j i, (j < M)%nat -> Sum M (fun l => A j l * kk D l i) = D j i) by (intros j i Hj; pose proof (inverse_A tau A b Hd H0 HR (fun l => D l i) j) as E; rewrite HM in E; now apply E).
  rewrite (Sum_ext M (fun j => d j * quad m S_ _ _) (fun j => d j * quad m S_ (D j) (D j))) in Hc by (intros j Hj; f_equal; apply quad_ext; intros i Hi; now apply EA).
  rewrite (Sum_ext M (fun j => d j * sq m S_ _ _) (fun j => d j * sq m S_ (kk D j) (D j))) in Hc by (intros j Hj; f_equal; apply sq_ext; [reflexivity|intros i Hi; now apply EA]).
  change (2 * al * Nrm D <= Sum M (fun j => d j * sq m S_ (kk D j) (D j))) in Hc.
  assert (HFj : forall j, (j < M)%nat -> sq m S_ (fun i => F j (fun i => x0 i + h * v j i) i - F j (fun i => x0 i + h * w j i) i) (D j) <= 2 * nu * h * quad m S_ (D j) (D j)).
  { intros j Hj. pose proof (HO j (fun i => x0 i + h * v j i) (fun i => x0 i + h * w j i) Hj) as B. cbv beta in B. assert (EX : forall i, (i < m)%nat -> x0 i + h * v j i - (x0 i + h * w j i) = h * D j i) by (intros i Hi; unfold D; ring).
    rewrite (sq_ext m S_ _ (fun i => x0 i + h * v j i - (x0 i + h * w j i)) (fun i => F j (fun i => x0 i + h * v j i) i - F j (fun i => x0 i + h * w j i) i) (fun i => h * D j i)) in B by (auto; reflexivity).
    rewrite (quad_ext m S_ (fun i => x0 i + h * v j i - (x0 i + h * w j i)) (fun i => x0 i + h * v j i - (x0 i + h * w j i)) (fun i => h * D j i) (fun i => h * D j i)) in B by auto.
    unfold sq in B |- *. rewrite !quad_scal_l, !quad_scal_r in B. apply (Rmult_le_reg_l h); [exact Hh|]. lra. }
  apply Rle_trans with (Sum M (fun j => d j * sq m S_ (kk D j) (D j)) - 2 * nu * h * Nrm D); [lra|]. unfold Nrm at 1. rewrite <- Sum_scal, <- Sum_minus. apply sum_le. intros j Hj.
  rewrite (sq_ext m S_ (fun i => T v j i - T w j i) (fun i => v j i - w j i) (fun i => kk D j i - (F j (fun i => x0 i + h * v j i) i - F j (fun i => x0 i + h * w j i) i)) (D j)); [|intros i Hi; unfold T, D; rewrite kk_minus; ring|reflexivity].
  rewrite sq_minus. change (fun i => kk D j i) with (kk D j). pose proof (Rmult_le_compat_l _ _ _ (Rlt_le _ _ (Hp j Hj)) (HFj j Hj)) as B. lra.
Qed.
Lemma norm_low : exists C1, 0 <= C1 /\ forall v j i, (j < M)%nat -> (i < m)%nat -> v j i * v j i <= C1 * Nrm v.
Proof.
  destruct HS as (c & Hc & HQ). destruct Hco as [Hp _]. rewrite HM in Hp. assert (Pj : forall j, (j < M)%nat -> 0 <= / (d j * c)) by (intros j Hj; left; apply Rinv_0_lt_compat; apply Rmult_lt_0_compat; [now apply Hp|exact Hc]).
  exists (Sum M (fun j => / (d j * c))). split; [now apply sum_pos|]. intros v j i Hj Hi. pose proof (Hp j Hj) as Hdj. assert (Hdc : 0 < d j * c) by now apply Rmult_lt_0_compat.
  assert (B1 : d j * quad m S_ (v j) (v j) <= Nrm v) by (apply (sum_each M (fun j => d j * quad m S_ (v j) (v j)) j); [|exact Hj]; intros l Hl; apply Rmult_le_pos; [left; now apply Hp|apply (posdef_psd _ _ HS)]).
  assert (B2 : v j i * v j i <= Sum m (fun i => v j i * v j i)) by (apply (sum_each m (fun i => v j i * v j i) i); [|exact Hi]; intros l Hl; apply Rle_0_sqr).
  specialize (HQ (v j)). apply Rle_trans with (/ (d j * c) * Nrm v); [|apply Rmult_le_compat_r; [apply Nrm_pos|apply (sum_each M (fun j => / (d j * c)) j); assumption]].
  apply (Rmult_le_reg_l (d j * c)); [exact Hdc|]. replace (d j * c * (/ (d j * c) * Nrm v)) with (Nrm v) by (field; lra). eapply Rle_trans; [|exact B1]. rewrite Rmult_assoc. apply Rmult_le_compat_l; [lra|]. eapply Rle_trans; [|exact HQ]. apply Rmult_le_compat_l; lra.
Qed.
Lemma norm_up : exists C2, 0 <= C2 /\ forall v e, (forall j i, (j < M)%nat -> (i < m)%nat -> Rabs (v j i) <= e) -> 0 <= e -> Nrm v <= C2 * (e * e).
Proof.
  destruct Hco as [Hp _]. rewrite HM in Hp. set (SS := Sum m (fun i => Sum m (fun j => Rabs (S_ i j)))). assert (HSS : 0 <= SS) by (apply sum_pos; intros; apply sum_pos; intros; apply Rabs_pos).
  exists (Sum M d * SS). split; [apply Rmult_le_pos; [apply sum_pos; intros j Hj; left; now apply Hp|exact HSS]|]. intros v e Hv He. rewrite Rmult_assoc, <- Sum_scal_r. apply sum_le. intros j Hj. apply Rmult_le_compat_l; [left; now apply Hp|]. apply quad_sup. intros i Hi. now apply Hv.
Qed.
Lemma T_bound v w e : (forall j i, (j < M)%nat -> (i < m)%nat -> Rabs (v j i - w j i) <= e) -> 0 <= e -> forall j i, (j < M)%nat -> (i < m)%nat -> Rabs (T v j i - T w j i) <= (inv_bound tau + L * h) * e.
Proof.
  intros Hv He j i Hj Hi. unfold T. replace (kk v j i - F j (fun i => x0 i + h * v j i) i - (kk w j i - F j (fun i => x0 i + h * w j i) i)) with ((kk v j i - kk w j i) - (F j (fun i => x0 i + h * v j i) i - F j (fun i => x0 i + h * w j i) i)) by ring.
  eapply Rle_trans; [apply Rabs_triang|]. rewrite Rabs_Ropp, Rmult_plus_distr_r. apply Rplus_le_compat.
  - rewrite <- kk_minus. unfold kk. apply sum_abs_le; [|exact He|intros l Hl; now apply Hv]. pose proof (inv_row tau j ltac:(lia)) as B. now rewrite HM in B.
  - rewrite Rmult_assoc. apply HF; [exact Hj| |exact Hi]. intros q Hq. replace (x0 q + h * v j q - (x0 q + h * w j q)) with (h * (v j q - w j q)) by ring. rewrite Rabs_mult, (Rabs_pos_eq h) by lra. apply Rmult_le_compat_l; [lra|now apply Hv].
Qed.
Theorem step_solvable : exists k, forall j i, (j < M)%nat -> (i < m)%nat -> F j (fun i => x0 i + h * Sum M (fun l => A j l * k l i)) i = k j i.
Proof.
  destruct norm_low as (C1 & HC1 & Low). destruct norm_up as (C2 & HC2 & Up). set (be := al - h * nu). assert (Hbe : 0 < be) by (unfold be; lra). set (B := inv_bound tau + L * h). set (La := C2 * (B * B * C1) + be * be).
  assert (HLa0 : 0 <= C2 * (B * B * C1)) by (apply Rmult_le_pos; [exact HC2|apply Rmult_le_pos; [apply Rle_0_sqr|exact HC1]]). assert (HLa : 0 < La) by (unfold La; nra). set (rho := be / La). assert (Hrho : 0 < rho) by (apply Rdiv_lt_0_compat; assumption).
  assert (NT : forall v w, Nrm (fun j i => T v j i - T w j i) <= C2 * (B * B * C1) * Nrm (fun j i => v j i - w j i)).
  { intros v w. set (q := Nrm (fun j i => v j i - w j i)). assert (Hq : 0 <= C1 * q) by (apply Rmult_le_pos; [exact HC1|apply Nrm_pos]). set (e := sqrt (C1 * q)). assert (He : e * e = C1 * q) by now apply sqrt_sqrt. assert (He0 : 0 <= e) by apply sqrt_pos.
    assert (Hn : forall j i, (j < M)%nat -> (i < m)%nat -> Rabs (v j i - w j i) <= e) by (intros j i Hj Hi; apply sq_le; [exact He0|]; rewrite He; now apply (Low (fun j i => v j i - w j i))).
    destruct (Nat.eq_dec M 0) as [EM|NM]; [unfold q, Nrm; rewrite EM; simpl; lra|]. destruct (Nat.eq_dec m 0) as [Em|Nm].
    - apply Rle_trans with 0; [|apply Rmult_le_pos; [exact HLa0|apply Nrm_pos]]. apply Req_le. apply Sum_0. intros j Hj. unfold quad. rewrite Em. simpl. ring.
    - assert (HBe : 0 <= B * e) by (eapply Rle_trans; [apply Rabs_pos|apply (T_bound v w e Hn He0 0%nat 0%nat)]; lia). eapply Rle_trans; [apply (Up (fun j i => T v j i - T w j i) (B * e)); [intros j i Hj Hi; now apply T_bound|exact HBe]|].
      apply Req_le. replace (B * e * (B * e)) with (B * B * (e * e)) by ring. rewrite He. ring. }
  destruct (norm_fix M m Nrm C1 C2 (1 - be * be / La) (fun v j i => v j i + - rho * T v j i)) as (v & Hv).
  - assert (be * be / La <= 1) by (apply (Rmult_le_reg_r La); [exact HLa|]; unfold Rdiv; rewrite Rmult_assoc, Rinv_l by lra; unfold La; lra). assert (0 < be * be / La) by (apply Rdiv_lt_0_compat; [nra|exact HLa]). lra.
  - exact HC1.
  - intros v w H. unfold Nrm. apply Sum_ext. intros j Hj. f_equal. apply quad_ext; intros i Hi; now apply H.
  - exact Low.
  - exact Up.
  - intros v w. set (q := Nrm (fun j i => v j i - w j i)). assert (Hq : 0 <= q) by apply Nrm_pos.
    assert (EN : Nrm (fun j i => v j i + - rho * T v j i - (w j i + - rho * T w j i)) = q + - rho * Sum M (fun j => d j * sq m S_ (fun i => T v j i - T w j i) (fun i => v j i - w j i)) + - rho * - rho * Nrm (fun j i => T v j i - T w j i)).
    { unfold q, Nrm. rewrite <- !Sum_scal, <- !Sum_plus. apply Sum_ext. intros j Hj. rewrite (quad_ext m S_ _ _ (fun i => (v j i - w j i) + - rho * (T v j i - T w j i)) (fun i => (v j i - w j i) + - rho * (T v j i - T w j i))) by (intros; ring).
      rewrite (quad_move m S_ (- rho) (fun i => v j i - w j i) (fun i => T v j i - T w j i)). ring. }
    rewrite EN. pose proof (T_mono v w) as B1. fold be q in B1. pose proof (NT v w) as B2. fold q in B2. assert (B3 : C2 * (B * B * C1) * q <= La * q) by (apply Rmult_le_compat_r; [exact Hq|unfold La; nra]).
    pose proof (Rmult_le_compat_l _ _ _ (Rlt_le _ _ Hrho) B1) as B4. assert (B5 : rho * rho * Nrm (fun j i => T v j i - T w j i) <= rho * rho * (La * q)) by (apply Rmult_le_compat_l; [nra|lra]).
    replace ((1 - be * be / La) * q) with (q - rho * (2 * be * q) + rho * rho * (La * q)) by (unfold rho; field; lra). lra.
  - assert (T0 : forall j i, (j < M)%nat -> (i < m)%nat -> kk v j i = F j (fun i => x0 i + h * v j i) i).
    { intros j i Hj Hi. pose proof (Hv j i Hj Hi) as E. assert (rho * T v j i = 0) as E2 by lra. apply Rmult_integral in E2 as [E2|E2]; [lra|]. unfold T in E2. lra. }
    exists (kk v). intros j i Hj Hi. rewrite T0 by assumption. apply Rminus_diag_uniq. apply Rabs_eq_0. apply Rle_antisym; [|apply Rabs_pos]. rewrite <- (Rmult_0_r L). apply HF; [exact Hj| |exact Hi]. intros q Hq.
    pose proof (inverse_A tau A b Hd H0 HR (fun l => v l q) j) as E. rewrite HM in E. specialize (E Hj). fold (kk v) in E. unfold kk at 1. rewrite E. rewrite Rminus_eq_0, Rabs_R0. lra.
Qed.
End Step.
