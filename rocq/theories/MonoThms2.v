(** Dissipative dynamics: at most one solution (C108). *)
From Coq Require Import Reals Lra.
From Coquelicot Require Import Coquelicot.
From Verif Require Import PyBase IndexModel DMModel DMProofs StructModel StructSpec PowerModel EntryModel StructsModel IneqModel DaeModel StructsSpec StructsThms11 NumModel NumInst NumSpec PolynomialModel PiecewiseModel PdqModel SchemeModel
  PolySpec PiecewiseSpec PdqSpec SchemeSpec PolyMath PolynomialBase PolynomialThms PolynomialThms2 PiecewiseThms PdqThms PdqThms2 SchemeThms SchemeThms2 SchemeThms3 SchemeThms4 SchemeThms5 OrderSpec OrderMath OrderThms ConvSpec ConvThms GridSpec GridThms StiffThms MonoSpec MonoThms.
Open Scope R_scope.

Lemma posdef_psd n S : PosDef n S -> PSD n S.
Proof. intros (c & Hc & H) v. eapply Rle_trans; [|apply H]. apply Rmult_le_pos; [lra|]. clear. induction n as [|n IH]; simpl; [lra|]. pose proof (Rle_0_sqr (v n)) as Hs. unfold Rsqr in Hs. lra. Qed.
Lemma sum_sq_zero n v : Sum n (fun i => v i * v i) <= 0 -> forall i, (i < n)%nat -> v i = 0.
Proof.
  assert (P : forall n, 0 <= Sum n (fun i => v i * v i)). { clear n. induction n as [|n IH]; simpl; [lra|]. pose proof (Rle_0_sqr (v n)) as Hs. unfold Rsqr in Hs. lra. }
  induction n as [|n IH]; simpl; intros H i Hi; [lia|]. pose proof (P n). pose proof (Rle_0_sqr (v n)) as Hs. unfold Rsqr in Hs. destruct (Nat.eq_dec i n) as [->|Hne]; [assert (v n * v n = 0) as E by lra; apply Rmult_integral in E; tauto|]. apply IH; [lra|lia].
Qed.
Lemma posdef_zero n S v : PosDef n S -> quad n S v v <= 0 -> forall i, (i < n)%nat -> v i = 0.
Proof. intros (c & Hc & H) Hq. apply sum_sq_zero. specialize (H v). apply (Rmult_le_reg_l c); [exact Hc|]. lra. Qed.
Lemma sum_zero_each n f : (forall i, (i < n)%nat -> 0 <= f i) -> Sum n f <= 0 -> forall i, (i < n)%nat -> f i <= 0.
Proof.
  intros Hp. assert (P : forall m, (m <= n)%nat -> 0 <= Sum m f). { induction m as [|m IH]; simpl; intros Hm; [lra|]. specialize (IH ltac:(lia)). specialize (Hp m ltac:(lia)). lra. }
  revert Hp P. induction n as [|n IH]; simpl; intros Hp P H i Hi; [lia|]. pose proof (P n ltac:(lia)). destruct (Nat.eq_dec i n) as [->|Hne]; [lra|]. apply IH; [intros; apply Hp; lia|intros; apply P; lia|specialize (Hp n ltac:(lia)); lra|lia].
Qed.
Lemma moderate_coercive t tau nu A b : NoDup tau -> (1 <= length tau)%nat -> RungeKutta tau A b -> Moderate t tau nu -> ~ In 0 tau /\ exists al d, Coercive tau A al d /\ forall n, (n < ivals t)%nat -> step t n * nu < al.
Proof.
  intros Hd HM HR [[Ho Hs]|(Ho & H1 & Hs)].
  - split; [intros H0; apply (gauss_inside tau 0 Ho) in H0; lra|]. eexists _, _. split; [exact (gauss_coercive tau A b Hd HM HR Ho)|exact Hs].
  - split; [intros H0; apply (radau_inside tau 0 Ho H1) in H0; lra|]. eexists _, _. split; [exact (radau_coercive tau A b Hd HM HR Ho H1)|exact Hs].
Qed.

Section Uniq.
Context (f : daefun R) (t tau : list R) (M : nat) (rep : bool) (g : option (R -> mat R)) (x K Z x' K' Z' u p : mat R) (A : nat -> nat -> R) (b : nat -> R).
Context (HM : length tau = M) (H1 : (1 <= M)%nat) (Hd : NoDup tau) (HA : Asc t) (HR : RungeKutta tau A b).
Context (HC : CollocationEqs f t tau M A b rep g x K Z u p) (HC' : CollocationEqs f t tau M A b rep g x' K' Z' u p).
Context (S_ : nat -> nat -> R) (nu : R) (HS : PosDef (f_nx f) S_) (HO : OneSided f S_ nu) (HT : Moderate t tau nu).
Notation N := (ivals t).
Lemma step_unique n : (n < N)%nat -> (forall i, (i < f_nx f)%nat -> at_m x i n = at_m x' i n) -> forall j i, (j < M)%nat -> (i < f_nx f)%nat -> at_m K i (n * M + j) = at_m K' i (n * M + j) /\ stage_x t M A x K n j i = stage_x t M A x' K' n j i.
Proof.
  intros Hn E0. destruct (moderate_coercive t tau nu A b Hd ltac:(lia) HR HT) as (Hz & al & d & (Hdp & Hco) & Hst). specialize (Hst n Hn). pose proof (step_pos t n HA Hn) as Hh. set (h := step t n) in *. set (m := f_nx f) in *.
  set (k := fun i l => at_m K i (n * M + l) - at_m K' i (n * M + l)). set (V := fun j i => Sum M (fun l => A j l * k i l)).
  specialize (Hco m S_ k (posdef_psd _ _ HS)). rewrite HM in Hco, Hdp. change (2 * al * Sum M (fun j => d j * quad m S_ (V j) (V j)) <= Sum M (fun j => d j * sq m S_ (fun i => k i j) (V j))) in Hco.
  assert (EV : forall j i, (i < m)%nat -> stage_x t M A x K n j i - stage_x t M A x' K' n j i = h * V j i).
  { intros j i Hi. unfold stage_x, V, k. rewrite E0 by exact Hi. rewrite (Sum_ext M (fun l => A j l * (_ - _)) (fun l => A j l * at_m K i (n * M + l) - A j l * at_m K' i (n * M + l))) by (intros; ring). rewrite Sum_minus. fold h. ring. }
  assert (B : forall j, (j < M)%nat -> sq m S_ (fun i => k i j) (V j) <= 2 * nu * h * quad m S_ (V j) (V j)).
  { intros j Hj. destruct (stage_fed f t tau M A b rep g x K Z u p HC n j Hn Hj) as [S1 _]. destruct (stage_fed f t tau M A b rep g x' K' Z' u p HC' n j Hn Hj) as [S2 _].
    pose proof (HO _ _ S1 S2 ltac:(repeat split; intros; reflexivity)) as Hm. cbn [stage a_x a_xdot] in Hm. fold m in Hm.
    rewrite (quad_ext m S_ (fun i => at_m K i (n * M + j) - at_m K' i (n * M + j)) _ (fun i => k i j) (fun i => h * V j i)) in Hm by (intros; [reflexivity|now apply EV] || (intros; reflexivity) || (intros; now apply EV)).
    rewrite (quad_ext m S_ _ (fun i => at_m K i (n * M + j) - at_m K' i (n * M + j)) (fun i => h * V j i) (fun i => k i j)) in Hm by ((intros; reflexivity) || (intros; now apply EV)).
    rewrite (quad_ext m S_ (fun i => stage_x t M A x K n j i - stage_x t M A x' K' n j i) (fun i => stage_x t M A x K n j i - stage_x t M A x' K' n j i) (fun i => h * V j i) (fun i => h * V j i)) in Hm by (intros; now apply EV).
    rewrite !quad_scal_l, !quad_scal_r in Hm. unfold sq. apply (Rmult_le_reg_l h); [exact Hh|]. lra. }
  assert (PQ : forall j, 0 <= quad m S_ (V j) (V j)) by (intros j; apply (posdef_psd _ _ HS)).
  assert (BS : Sum M (fun j => d j * sq m S_ (fun i => k i j) (V j)) <= 2 * nu * h * Sum M (fun j => d j * quad m S_ (V j) (V j))).
  { rewrite <- Sum_scal. apply sum_le. intros j Hj. replace (2 * nu * h * (d j * quad m S_ (V j) (V j))) with (d j * (2 * nu * h * quad m S_ (V j) (V j))) by ring. apply Rmult_le_compat_l; [left; now apply Hdp|now apply B]. }
  assert (Q0 : Sum M (fun j => d j * quad m S_ (V j) (V j)) <= 0). { set (Q := Sum M (fun j => d j * quad m S_ (V j) (V j))) in *. apply (Rmult_le_reg_l (al - h * nu)); [lra|]. lra. }
  assert (V0 : forall j i, (j < M)%nat -> (i < m)%nat -> V j i = 0).
  { intros j i Hj Hi. apply (posdef_zero m S_ (V j) HS); [|exact Hi]. pose proof (sum_zero_each M _ (fun j Hj => Rmult_le_pos _ _ (Rlt_le _ _ (Hdp j Hj)) (PQ j)) Q0 j Hj) as Z0. cbv beta in Z0. specialize (Hdp j Hj). apply (Rmult_le_reg_l (d j)); [exact Hdp|]. lra. }
  intros j i Hj Hi. split; [|pose proof (EV j i Hi) as E; rewrite V0 in E by assumption; lra].
  pose proof (A_inverse tau A b Hd Hz HR (k i) j ltac:(lia)) as E. rewrite HM in E. rewrite Sum_0 in E; [unfold k in E; lra|]. intros l Hl. fold (V l i). rewrite V0 by assumption. ring.
Qed.
Lemma mono_unique : (forall i, (i < f_nx f)%nat -> at_m x i 0 = at_m x' i 0) -> (forall n i, (n <= N)%nat -> (i < f_nx f)%nat -> at_m x i n = at_m x' i n) /\
  (forall n j i, (n < N)%nat -> (j < M)%nat -> (i < f_nx f)%nat -> at_m K i (n * M + j) = at_m K' i (n * M + j) /\ stage_x t M A x K n j i = stage_x t M A x' K' n j i).
Proof.
  intros E0. assert (G : forall n, (n <= N)%nat -> forall i, (i < f_nx f)%nat -> at_m x i n = at_m x' i n).
  { induction n as [|n IH]; intros Hn i Hi; [now apply E0|]. replace (S n) with (n + 1)%nat by lia. destruct HC as (_ & C2 & _), HC' as (_ & C2' & _). rewrite <- (C2 n i), <- (C2' n i) by (assumption || lia). rewrite (IH ltac:(lia) i Hi). do 2 f_equal. apply Sum_ext. intros l Hl. f_equal. apply step_unique; [lia|apply IH; lia|exact Hl|exact Hi]. }
  split; [intros n i Hn Hi; now apply G|]. intros n j i Hn Hj Hi. apply step_unique; auto. apply G. lia.
Qed.
Lemma mono_unique_z : DeterminesZ f -> (forall i, (i < f_nx f)%nat -> at_m x i 0 = at_m x' i 0) -> forall n j, (n < N)%nat -> (j < M)%nat -> SameArgs f (stage t tau M A rep g x K Z u p n j) (stage t tau M A rep g x' K' Z' u p n j).
Proof.
  intros HZ E0 n j Hn Hj. destruct (mono_unique E0) as [_ G]. destruct (stage_fed f t tau M A b rep g x K Z u p HC n j Hn Hj) as [S1 _]. destruct (stage_fed f t tau M A b rep g x' K' Z' u p HC' n j Hn Hj) as [S2 _].
  assert (Gx : forall i, (i < f_nx f)%nat -> stage_x t M A x K n j i = stage_x t M A x' K' n j i) by (intros i Hi; now apply G). assert (Gk : forall i, (i < f_nx f)%nat -> at_m K i (n * M + j) = at_m K' i (n * M + j)) by (intros i Hi; now apply G).
  repeat split; try (intros; cbn; auto; reflexivity). exact (HZ _ _ S1 S2 ltac:(repeat split; intros; reflexivity) Gx Gk).
Qed.
End Uniq.
