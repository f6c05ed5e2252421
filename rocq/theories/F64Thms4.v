(** Collocation grids and the interpolators of [Pdq] in binary64 (C104). *)
From Coq Require Import Reals Lra.
From Coq Require Import Floats.SpecFloat.
From Verif Require Import PyBase NumModel NumInst PolynomialModel PiecewiseModel PdqModel PolySpec PdqSpec PiecewiseThms F64Spec F64Thms F64Thms2 F64Thms3.
Open Scope list_scope. Open Scope nat_scope.

Lemma rmapM_back {A B} (f : A -> res B) l r : rmapM f l = Ok r -> Forall2 (fun a b => f a = Ok b) l r.
Proof.
  revert r. induction l as [|a l IH]; intros r E; cbn in E; [injection E as <-; constructor|]. destruct (f a) as [b|] eqn:Ea; [|discriminate]. cbn in E. destruct (rmapM f l) as [r'|]; [|discriminate]. cbn in E. injection E as <-. constructor; auto.
Qed.
Lemma rassert_ok b : rassert b = Ok tt -> b = true.
Proof. destruct b; [reflexivity|discriminate]. Qed.
Section Parts.
Context {T : Type} {NT : Num T}.
Lemma rml_nth (l : list T) j d : j < length l - 1 -> nth j (removelast l) d = nth j l d.
Proof. revert j. induction l as [|a l IH]; intros j H; [simpl in H; lia|]. destruct l as [|b l]; [simpl in H; lia|]. change (removelast (a :: b :: l)) with (a :: removelast (b :: l)). destruct j; [reflexivity|]. cbn [nth]. apply IH. simpl in *. lia. Qed.
Lemma rml_len (l : list T) : length (removelast l) = length l - 1.
Proof. induction l as [|a l IH]; [reflexivity|]. destruct l; [reflexivity|]. change (removelast (a :: t :: l)) with (a :: removelast (t :: l)). simpl length in *. rewrite IH. lia. Qed.
Lemma blocks (f : nat -> list T) m d : (forall i, length (f i) = m) -> forall n, length (concat (map f (seq 0 n))) = n * m /\
  forall i j, i < n -> j < m -> nth (i * m + j) (concat (map f (seq 0 n))) d = nth j (f i) d.
Proof.
  intros Hf. induction n as [|n [IH1 IH2]]; [split; [reflexivity|lia]|]. rewrite seq_S, map_app, concat_app. cbn [map concat plus]. rewrite app_nil_r. split; [rewrite app_length, IH1, Hf; lia|].
  intros i j Hi Hj. destruct (Nat.eq_dec i n) as [->|].
  - rewrite app_nth2, IH1 by lia. f_equal. lia.
  - rewrite app_nth1; [apply IH2; lia|]. rewrite IH1. assert (i * m + m <= n * m) by nia. lia.
Qed.
Lemma pdq_parts colpts t order ptype tau (p : pdq T) : pdq_ colpts t order ptype = Ok p -> colpts order ptype = Ok tau ->
  2 <= length t /\ length tau = order + 1 /\ pq_t p = t /\ pq_groups p = map (fun i => seq (i * order) (order + 1)) (seq 0 (length t - 1)) /\
  length (pq_pts p) = (length t - 1) * order + 1 /\
  forall i j, i < length t - 1 -> j < order -> nth (i * order + j) (pq_pts p) n0 = (vget tau j * (vget t (i + 1) - vget t i) + vget t i)%num.
Proof.
  intros E Ec. unfold pdq_ in E. set (n := length t - 1) in *. destruct (rmapM (pdq_interval colpts t order ptype) (seq 0 n)) as [l|] eqn:El; [|discriminate]. cbn [rbind] in E. apply rmapM_back in El.
  set (lp := fun i => map (fun c => (c * (vget t (i + 1) - vget t i) + vget t i)%num) tau).
  assert (K : Forall2 (fun i x => fst x = lp i /\ length tau = order + 1) (seq 0 n) l).
  { clear E. induction El as [|i [ti b] s l H El IH]; constructor; [|exact IH]. unfold pdq_interval in H. rewrite Ec in H. cbn [rbind] in H. destruct (basis_ _) as [b'|]; [|discriminate]. cbn [rbind] in H.
    match type of H with context [rassert ?X] => destruct (rassert X); [|discriminate] end. cbn [rbind] in H. match type of H with context [rassert ?X] => destruct (rassert X) eqn:E2; [|discriminate] end. cbn [rbind] in H.
    match type of H with context [rassert ?X] => destruct (rassert X); [|discriminate] end. cbn [rbind] in H. injection H as <- _. split; [reflexivity|]. rewrite map_length in E2. destruct (Nat.eqb_spec (length tau) (order + 1)); [assumption|discriminate]. }
  destruct (rev l) as [|[tl b] rl] eqn:Er; [discriminate|]. injection E as <-. cbn [pq_t pq_groups pq_pts].
  assert (LL : length l = n) by (rewrite (F2_len _ _ _ K); apply seq_length).
  assert (n1 : 1 <= n). { rewrite <- LL, <- rev_length, Er. simpl. lia. }
  assert (LT : length tau = order + 1). { destruct K as [|? ? ? ? [_ H]]; [simpl in *; lia|exact H]. }
  assert (EM : map (fun x => removelast (fst x)) l = map (fun i => removelast (lp i)) (seq 0 n)).
  { clear -K. induction K as [|i x s l [H _] K IH]; [reflexivity|]. cbn. rewrite H, IH. reflexivity. }
  rewrite EM. assert (LB : forall i, length (removelast (lp i)) = order) by (intros i; rewrite rml_len; unfold lp; rewrite map_length; lia).
  destruct (blocks (fun i => removelast (lp i)) order n0 LB n) as [B1 B2].
  split; [unfold n in *; lia|]. split; [exact LT|]. split; [reflexivity|]. split; [reflexivity|]. split; [rewrite app_length, B1; reflexivity|].
  intros i j Hi Hj. rewrite app_nth1 by (rewrite B1; nia). rewrite B2 by assumption. rewrite rml_nth by (unfold lp; rewrite map_length; lia). unfold lp.
  set (g := fun c => (c * (vget t (i + 1) - vget t i) + vget t i)%num). rewrite (nth_indep _ n0 (g n0)) by (rewrite map_length; lia). rewrite (map_nth g). reflexivity.
Qed.
End Parts.

#[local] Existing Instance numF.
Section Grid64.
Context (colpts : nat -> string -> res (list f64)) (t : list f64) (order : nat) (ptype : string) (tau : list f64) (p : pdq f64).
Context (Ep : pdq_ colpts t order ptype = Ok p) (Ec : colpts order ptype = Ok tau) (H0 : Is (fnode tau 0) 0) (Ho : 1 <= order).
Context (HA : AscF t) (HS : StepsF t) (HP : AscF (pq_pts p)).
Notation N := (length t - 1).
Notation pts := (pq_pts p).
Lemma pts_bound i : i < N -> val (fnode pts (i * order)) = val (fnode t i).
Proof.
  intros Hi. destruct (pdq_parts _ _ _ _ _ _ Ep Ec) as (_ & _ & _ & _ & _ & HN). pose proof (HN i 0 Hi Ho) as E. rewrite Nat.add_0_r in E. unfold fnode at 1. change (S754_zero false) with (n0 : f64). rewrite E.
  assert (Z : Is (SFmul 53 1024 (fnode tau 0) (SFsub 53 1024 (fnode t (i + 1)) (fnode t i))) 0) by (apply zero_mul; [exact H0|apply HS; lia]).
  assert (F : Finite (fnode t i)) by (apply HA, fnode_in; lia). exact (proj2 (zero_add _ (fnode t i) _ Z (conj F eq_refl))).
Qed.
Lemma point_within i j : i < N -> j < order \/ i + 1 = N /\ j = order -> Within (map val t) true (val (fnode pts (i * order + j))) i.
Proof.
  intros Hi Hj. destruct (pdq_parts _ _ _ _ _ _ Ep Ec) as (HL & _ & _ & _ & HN & _). destruct HP as [_ AP].
  assert (B : i * order + order <= N * order) by nia.
  assert (K : i * order + j < length pts) by (rewrite HN; destruct Hj as [Hj|[_ ->]]; lia).
  split; [rewrite map_length; lia|]. split.
  - right. rewrite <- fnode_val, <- pts_bound by exact Hi. rewrite !fnode_val. apply Asc_le; [exact AP|]. rewrite map_length. lia.
  - destruct (Nat.eq_dec (i + 2) (length t)) as [e|ne]; [left; now rewrite map_length|]. right. destruct Hj as [Hj|[Hj _]]; [|lia]. rewrite <- fnode_val, <- (pts_bound (i + 1)) by lia. rewrite !fnode_val. apply AP. rewrite map_length. split; [nia|]. rewrite HN. assert ((i + 1) * order <= N * order) by nia. lia.
Qed.

Definition gpts64 (w i : nat) : list f64 := map (fnode pts) (seq (i * order) w).
Lemma gpts64_node w i j : j < w -> fnode (gpts64 w i) j = fnode pts (i * order + j).
Proof. intros H. unfold fnode at 1, gpts64. rewrite (nth_indep _ _ (fnode pts 0)) by (rewrite map_length, seq_length; exact H). rewrite map_nth. now rewrite seq_nth. Qed.
Lemma gpts64_distinct w i : w <= order + 1 -> i < N -> DistinctF (gpts64 w i).
Proof.
  intros Hw Hi. destruct (pdq_parts _ _ _ _ _ _ Ep Ec) as (_ & _ & _ & _ & HN & _). assert (B : i * order + order <= N * order) by nia. apply Asc_fin. destruct HP as [FP AP]. split.
  - intros x Hx. apply in_map_iff in Hx. destruct Hx as (k & <- & Hk). apply in_seq in Hk. apply FP, fnode_in. lia.
  - intros a b Hab. rewrite map_length in Hab. unfold gpts64 in Hab at 1. rewrite map_length, seq_length in Hab. rewrite <- !fnode_val, !gpts64_node by lia. rewrite !fnode_val. apply AP. rewrite map_length. lia.
Qed.
Lemma interp64_builds c w n : Width t order c w n -> exists q, pq_interpolator p c = Ok q /\ pi_pdq q = p /\ pi_cont q = c /\
  pi_groups q = map (fun i => seq (i * order) w) (seq 0 N) /\ forall i, i < N -> exists b, nth_error (pi_basis q) i = Some b /\ b_tau b = gpts64 w i.
Proof.
  intros HC. destruct (pdq_parts _ _ _ _ _ _ Ep Ec) as (HL & _ & _ & HG & HN & _). unfold pq_interpolator. rewrite HG.
  assert (Hw : 1 <= w <= order + 1) by (destruct HC as [(_ & -> & _)|(_ & -> & _)]; lia).
  assert (E : rmapM (pi_group c) (map (fun i => seq (i * order) (order + 1)) (seq 0 N)) = Ok (map (fun i => seq (i * order) w) (seq 0 N))).
  { generalize (seq 0 N). induction l as [|i l IH]; [reflexivity|]. cbn [map rmapM]. rewrite IH. destruct HC as [(-> & -> & _)|(-> & -> & _)]; unfold pi_group; cbn [String.eqb Ascii.eqb Bool.eqb rbind]; [reflexivity|]. rewrite Nat.add_1_r, seq_S, removelast_last. reflexivity. }
  rewrite E. cbn [rbind].
  destruct (rmapM_fwd (fun g => let* ts := rmapM (lget pts) g in basis_ (PVec ts)) (fun g b => b_tau b = map (fnode pts) g) (map (fun i => seq (i * order) w) (seq 0 N))) as (bs & Eb & HB).
  { intros g Hg. apply in_map_iff in Hg. destruct Hg as (i & <- & Hi). apply in_seq in Hi. assert (B : i * order + order <= N * order) by nia.
    assert (ER : rmapM (lget pts) (seq (i * order) w) = Ok (gpts64 w i)).
    { unfold gpts64. assert (K : forall l, (forall k, In k l -> k < length pts) -> rmapM (lget pts) l = Ok (map (fnode pts) l)).
      { induction l as [|k l IH]; intros Hl; [reflexivity|]. cbn [rmapM map]. unfold lget at 1. rewrite (nth_error_nth' _ (S754_zero false)) by (apply Hl; now left). cbn [rbind]. rewrite IH by (intros; apply Hl; now right). reflexivity. }
      apply K. intros k Hk. apply in_seq in Hk. lia. }
    rewrite ER. cbn [rbind]. unfold basis_. cbn [atleast_1d rbind]. assert (L : (0 <? length (gpts64 w i)) = true) by (apply Nat.ltb_lt; unfold gpts64; rewrite map_length, seq_length; lia). rewrite L. cbn [rassert rbind]. eexists. split; [reflexivity|reflexivity]. }
  rewrite Eb. cbn [rbind]. eexists. split; [reflexivity|]. cbn [pi_pdq pi_cont pi_groups pi_basis]. split; [reflexivity|]. split; [reflexivity|]. split; [reflexivity|]. intros i Hi.
  destruct (F2_nth _ _ _ i (seq (i * order) w) HB) as (b & B1 & B2).
  - rewrite nth_error_map, (nth_error_nth' _ 0) by (rewrite seq_length; exact Hi). rewrite seq_nth by exact Hi. reflexivity.
  - exists b. split; [exact B1|exact B2].
Qed.
(** At a collocation point the interpolator returns the column of its data. *)
Theorem interp64_point c w n q x k : Width t order c w n -> pq_interpolator p c = Ok q -> nc x = n -> FiniteM x -> k < n ->
  exists Y, pi_eval1 q x (fnode pts k) = Ok Y /\ nr Y = nr x /\ nc Y = 1 /\ IsCol Y 0 x k.
Proof.
  intros HC Eq Hx Fx Hk. destruct (interp64_builds c w n HC) as (q' & Eq' & Q1 & Q2 & Q3 & Q4). rewrite Eq in Eq'. injection Eq' as <-.
  destruct (pdq_parts _ _ _ _ _ _ Ep Ec) as (HL & _ & HT & _ & HN & _).
  assert (exists i j, i < N /\ j < w /\ (j < order \/ i + 1 = N /\ j = order) /\ k = i * order + j) as (i & j & Hi & Hjw & Hj & ->).
  { destruct (Nat.eq_dec k (N * order)) as [->|Nk].
    - exists (N - 1), order. split; [lia|]. destruct HC as [(_ & -> & ->)|(_ & -> & ->)]; [|lia]. split; [lia|]. split; [right; lia|]. replace N with (N - 1 + 1) at 1 by lia. ring.
    - assert (Hk' : k < N * order) by (destruct HC as [(_ & _ & ->)|(_ & _ & ->)]; lia). exists (k / order), (k mod order).
      split; [apply Nat.div_lt_upper_bound; lia|]. pose proof (Nat.mod_upper_bound k order ltac:(lia)). split; [destruct HC as [(_ & -> & _)|(_ & -> & _)]; lia|]. split; [now left|]. rewrite Nat.mul_comm. apply Nat.div_mod. lia. }
  assert (B : i * order + order <= N * order) by nia.
  assert (Hw : 1 <= w <= order + 1) by (destruct HC as [(_ & -> & _)|(_ & -> & _)]; lia).
  assert (FK : Finite (fnode pts (i * order + j))) by (apply HP, fnode_in; rewrite HN; lia).
  unfold pi_eval1. rewrite Q1, HT. rewrite (search_within t _ true i HL HA FK (point_within i j Hi Hj)). destruct (Q4 i Hi) as (b & B1 & B2). rewrite Q3. unfold lget. rewrite nth_error_map, (nth_error_nth' _ 0) by (rewrite seq_length; exact Hi). rewrite seq_nth by exact Hi. cbn [option_map rbind plus].
  unfold mpick. assert (Hin : forallb (fun j => j <? nc x) (seq (i * order) w) = true). { apply forallb_forall. intros a Ha. apply in_seq in Ha. apply Nat.ltb_lt. rewrite Hx. destruct HC as [(_ & -> & ->)|(_ & -> & ->)]; lia. }
  rewrite Hin. cbn [rbind]. rewrite B1. cbn [rbind].
  assert (LG : length (gpts64 w i) = w) by (unfold gpts64; rewrite map_length; apply seq_length).
  change (interp_matrix b (PNum (fnode pts (i * order + j)))) with (interp_matrix b (PVec [fnode pts (i * order + j)])).
  destruct (rows_node b [fnode pts (i * order + j)] [j]) as (M & EM & M1 & M2 & HM); [rewrite B2; apply gpts64_distinct; [lia|exact Hi]|discriminate| |].
  { constructor; [|constructor]. split; [exact FK|]. rewrite B2, LG. split; [exact Hjw|]. now rewrite gpts64_node by exact Hjw. }
  rewrite EM. cbn [rbind]. rewrite B2, LG in *. set (U := Mat (nr x) (length (seq (i * order) w)) (fun r a => at_m x r (nth a (seq (i * order) w) 0))).
  assert (NU : nc U = w) by (cbn; apply seq_length).
  assert (FU : FiniteM U). { intros r a Hr Ha. cbn [nr nc at_m U] in *. rewrite seq_length in Ha. rewrite seq_nth by exact Ha. apply Fx; [exact Hr|]. rewrite Hx. destruct HC as [(_ & -> & ->)|(_ & -> & ->)]; lia. }
  unfold mdot. change (nr (mtr M)) with (nc M). rewrite M2, NU, Nat.eqb_refl. eexists. split; [reflexivity|]. cbn [nr nc mtr]. split; [reflexivity|]. split; [exact M1|].
  intros r Hr. cbn [at_m]. assert (V : val (at_m x r (i * order + j)) = val (at_m U r j)) by (cbn [at_m U]; now rewrite seq_nth by exact Hjw). rewrite V. pose proof (dot_node U M 0 j FU) as DN. rewrite NU in DN. apply DN; auto; simpl in M1; lia.
Qed.
Theorem interp64_data c w n : Width t order c w n -> exists q, pq_interpolator p c = Ok q /\ forall x, nc x = n -> FiniteM x ->
  exists Y, pi_call q x (PVec (firstn n pts)) = Ok Y /\ nr Y = nr x /\ nc Y = n /\ forall k, k < n -> IsCol Y k x k.
Proof.
  intros HC. destruct (interp64_builds c w n HC) as (q & Eq & Q1 & Q2 & Q3 & Q4). exists q. split; [exact Eq|]. intros x Hx Fx.
  destruct (pdq_parts _ _ _ _ _ _ Ep Ec) as (HL & _ & HT & _ & HN & _).
  assert (Hn : 1 <= n <= N * order + 1) by (destruct HC as [(_ & _ & ->)|(_ & _ & ->)]; nia).
  unfold pi_call. rewrite Q1, Q2. replace (negb _) with false.
  2: { symmetry. apply negb_false_iff, Nat.eqb_eq. rewrite Hx, HN. destruct HC as [(-> & _ & ->)|(-> & _ & ->)]; cbn [String.eqb Ascii.eqb Bool.eqb]; lia. }
  cbn [rbind]. assert (EF : firstn n pts = map (fnode pts) (seq 0 n)).
  { apply (nth_ext _ _ (S754_zero false) (fnode pts 0)); [rewrite map_length, seq_length, firstn_length; lia|]. intros k Hk. rewrite firstn_length in Hk. rewrite map_nth, seq_nth by lia. unfold fnode. cbn [plus]. rewrite <- (firstn_skipn n pts) at 2. rewrite app_nth1 by (rewrite firstn_length; lia). reflexivity. }
  rewrite EF.
  assert (K : forall l, (forall k, In k l -> k < n) -> exists r, rmapM (pi_eval1 q x) (map (fnode pts) l) = Ok r /\ Forall2 (fun k Y => nr Y = nr x /\ nc Y = 1 /\ IsCol Y 0 x k) l r).
  { induction l as [|k l IH]; intros Hl; [exists []; split; [reflexivity|constructor]|]. destruct (interp64_point c w n q x k HC Eq Hx Fx (Hl k (or_introl eq_refl))) as (Y & EY & HY). destruct IH as (r & Er & Hr); [intros; apply Hl; now right|].
    exists (Y :: r). cbn [map rmapM]. rewrite EY. cbn [rbind]. rewrite Er. cbn. split; [reflexivity|now constructor]. }
  destruct (K (seq 0 n)) as (r & Er & Hr); [intros k Hk; apply in_seq in Hk; lia|]. rewrite Er. cbn [rbind]. pose proof (F2_len _ _ _ Hr) as LR. rewrite seq_length in LR.
  destruct (hstack_cols r (nr x)) as (Y & EY & Y1 & Y2 & Y3); [intros ->; simpl in LR; lia| |].
  { intros b Hb. destruct (F2_in _ _ _ _ Hr Hb) as (k & _ & H1 & H2 & _). auto. }
  exists Y. split; [exact EY|]. split; [exact Y1|]. split; [lia|]. intros k Hk i Hi. destruct (F2_nth _ _ _ k k Hr) as (b & E1 & _ & _ & E2); [rewrite (nth_error_nth' _ 0) by (rewrite seq_length; exact Hk); now rewrite seq_nth|]. rewrite (Y3 i k b E1). now apply E2.
Qed.
End Grid64.
