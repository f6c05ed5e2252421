(** Proofs about [Pdq]: the grid and the differentiation matrix (C55, C56). *)
From Coq Require Import Reals Lra.
From Coquelicot Require Import Coquelicot.
From Verif Require Import PyBase NumModel NumInst NumSpec PolynomialModel PiecewiseModel PdqModel PolySpec PdqSpec PiecewiseSpec PolyMath PolynomialBase PolynomialThms PolynomialThms2 PiecewiseThms PiecewiseThms2.
Open Scope R_scope.

Definition lpts (t tau : list R) (i : nat) : list R := map (fun c => (c * (vget t (i + 1) - vget t i) + vget t i)%num) tau.
Definition db : basis R := Basis [] (Mat 0 0 (fun _ _ => 0)) [] [].
Definition lbasis (t tau : list R) (i : nat) : basis R := match basis_ (PVec (lpts t tau i)) with Ok b => b | Err _ => db end.

Lemma step_pos t i : Bounds t -> (i < ivals t)%nat -> 0 < step t i.
Proof. intros [L A] Hi. unfold step, ivals in *. assert (node t i < node t (i + 1)) by (apply A; lia). lra. Qed.
Lemma lpts_len t tau i : length (lpts t tau i) = length tau.
Proof. apply map_length. Qed.
Lemma lpts_node t tau i j : (j < length tau)%nat -> node (lpts t tau i) j = node t i + node tau j * step t i.
Proof. intros H. unfold lpts. rewrite node_map by exact H. rnum. change (vget t) with (node t). unfold step. ring. Qed.
Lemma lpts_asc t tau i : Bounds t -> (i < ivals t)%nat -> Asc tau -> Asc (lpts t tau i).
Proof. intros HB Hi HA a b Hab. rewrite lpts_len in Hab. rewrite !lpts_node by lia. pose proof (step_pos t i HB Hi). assert (node tau a < node tau b) by (apply HA; lia). apply Rplus_lt_compat_l, Rmult_lt_compat_r; lra. Qed.
Lemma ndiff_pos (l : list R) : Asc l -> forallb (fun d => (n0 <? d)%num) (ndiff l) = true.
Proof.
  induction l as [|x l IH]; intros H; [reflexivity|]. destruct l as [|y l]; [reflexivity|]. change ((n0 <? y - x)%num && forallb (fun d => (n0 <? d)%num) (ndiff (y :: l)) = true)%bool. rewrite IH by (eapply Asc_tail; eauto). rewrite andb_true_r. rnum. apply Rlt_b_iff. pose proof (H 0%nat 1%nat ltac:(simpl; lia)) as K. unfold node in K. simpl in K. lra.
Qed.
Lemma lbasis_ok t tau i : tau <> [] -> basis_ (PVec (lpts t tau i)) = Ok (lbasis t tau i).
Proof. intros H. unfold lbasis. rewrite basis_eq; [reflexivity|]. unfold lpts. destruct tau; [contradiction|discriminate]. Qed.
Lemma Nodes_nonempty order tau : Nodes order tau -> tau <> [].
Proof. intros (L & _) ->. simpl in L. lia. Qed.
Lemma lbasis_nodup t tau i order : Bounds t -> (i < ivals t)%nat -> Nodes order tau -> NoDup (lpts t tau i).
Proof. intros HB Hi (_ & A & _). now apply Asc_NoDup, lpts_asc. Qed.
Lemma lbasis_num t tau i order : Nodes order tau -> b_num (lbasis t tau i) = (order + 1)%nat.
Proof. intros HN. pose proof (lbasis_ok t tau i (Nodes_nonempty _ _ HN)) as E. unfold b_num. rewrite basis_eq in E by (unfold lpts; pose proof (Nodes_nonempty _ _ HN); destruct tau; [contradiction|discriminate]). injection E as <-. cbn [b_tau]. rewrite lpts_len. apply HN. Qed.
Lemma interval_ok colpts t order ptype tau i : Bounds t -> (i < ivals t)%nat -> colpts order ptype = Ok tau -> Nodes order tau ->
  pdq_interval colpts t order ptype i = Ok (lpts t tau i, lbasis t tau i).
Proof.
  intros HB Hi Ec HN. unfold pdq_interval. rewrite Ec. cbn [rbind]. fold (lpts t tau i). rewrite (lbasis_ok t tau i (Nodes_nonempty _ _ HN)). cbn [rbind].
  destruct (differentiation_matrix _ _ (lbasis_ok t tau i (Nodes_nonempty _ _ HN)) (lbasis_nodup t tau i order HB Hi HN)) as (Dr & Dc & _). rewrite Dr, Dc, lpts_len. destruct HN as (L & A & _). rewrite L, Nat.eqb_refl. cbn [andb rassert rbind].
  rewrite (ndiff_pos _ (lpts_asc t tau i HB Hi A)). reflexivity.
Qed.
Lemma rmapM_map {A B} (f : A -> res B) g l : (forall a, In a l -> f a = Ok (g a)) -> rmapM f l = Ok (map g l).
Proof. induction l as [|a l IH]; intros H; [reflexivity|]. cbn [rmapM]. rewrite H by now left. cbn [rbind]. rewrite IH by (intros; apply H; now right). reflexivity. Qed.
Definition gpts (t tau : list R) : list R := concat (map (fun i => removelast (lpts t tau i)) (seq 0 (ivals t))) ++ [last (lpts t tau (ivals t - 1)) 0].
Definition gbasis (t tau : list R) : list (basis R) := map (lbasis t tau) (seq 0 (ivals t)).
Lemma pdq_builds colpts t order ptype tau : Bounds t -> colpts order ptype = Ok tau -> Nodes order tau ->
  pdq_ colpts t order ptype = Ok (Pdq (gbasis t tau) (gpts t tau) (map (fun i => seq (i * order) (order + 1)) (seq 0 (ivals t))) t order (bigD (length (gpts t tau)) (gbasis t tau))).
Proof.
  intros HB Ec HN. unfold pdq_. fold (ivals t). rewrite (rmapM_map _ (fun i => (lpts t tau i, lbasis t tau i))) by (intros i Hi; apply in_seq in Hi; apply (interval_ok colpts t order ptype tau i HB); auto; lia). cbn [rbind].
  assert (HI : (1 <= ivals t)%nat) by (destruct HB; unfold ivals; lia). assert (E : seq 0 (ivals t) = seq 0 (ivals t - 1) ++ [(ivals t - 1)%nat]) by (replace (ivals t) with (S (ivals t - 1)) at 1 by lia; apply seq_S).
  rewrite E at 1. rewrite map_app, rev_app_distr. cbn [map rev app]. rewrite !map_map. cbn [fst snd]. reflexivity.
Qed.
Lemma Pdq_fields colpts t order ptype tau p : Bounds t -> colpts order ptype = Ok tau -> Nodes order tau -> pdq_ colpts t order ptype = Ok p ->
  pq_basis p = gbasis t tau /\ pq_pts p = gpts t tau /\ pq_groups p = map (fun i => seq (i * order) (order + 1)) (seq 0 (ivals t)) /\ pq_t p = t /\ pq_order p = order /\ pq_D p = bigD (length (gpts t tau)) (gbasis t tau).
Proof. intros HB Ec HN E. rewrite (pdq_builds colpts t order ptype tau HB Ec HN) in E. injection E as <-. repeat split. Qed.

(** ** The grid *)
Lemma removelast_node (l : list R) j : (j < length l - 1)%nat -> node (removelast l) j = node l j.
Proof.
  revert j. induction l as [|a l IH]; intros j H; [simpl in H; lia|]. destruct l as [|b l]; [simpl in H; lia|]. change (removelast (a :: b :: l)) with (a :: removelast (b :: l)). destruct j; [reflexivity|]. unfold node in *. cbn [nth]. apply IH. simpl in *. lia.
Qed.
Lemma removelast_len {A} (l : list A) : length (removelast l) = (length l - 1)%nat.
Proof. induction l as [|a l IH]; [reflexivity|]. destruct l; [reflexivity|]. change (removelast (a :: a0 :: l)) with (a :: removelast (a0 :: l)). simpl length in *. rewrite IH. lia. Qed.
Lemma last_node (l : list R) : last l 0 = node l (length l - 1).
Proof. induction l as [|a l IH]; [reflexivity|]. destruct l as [|b l]; [reflexivity|]. change (last (b :: l) 0 = node (a :: b :: l) (length (b :: l))). rewrite IH. unfold node. cbn [length]. replace (S (length l) - 1)%nat with (length l) by lia. reflexivity. Qed.
Lemma concat_blocks (f : nat -> list R) m : (forall i, length (f i) = m) -> forall n, length (concat (map f (seq 0 n))) = (n * m)%nat /\
  forall i j, (i < n)%nat -> (j < m)%nat -> node (concat (map f (seq 0 n))) (i * m + j) = node (f i) j.
Proof.
  intros Hf. induction n as [|n [IH1 IH2]]; [split; [reflexivity|lia]|]. rewrite seq_S, map_app, concat_app. cbn [map concat plus]. rewrite app_nil_r. split; [rewrite app_length, IH1, Hf; lia|].
  intros i j Hi Hj. unfold node in *. destruct (Nat.eq_dec i n) as [->|].
  - rewrite app_nth2, IH1 by lia. f_equal. lia.
  - rewrite app_nth1; [apply IH2; lia|]. rewrite IH1. assert (i * m + m <= n * m)%nat by nia. lia.
Qed.
Lemma gpts_grid t tau order : Bounds t -> Nodes order tau -> Grid t tau order (gpts t tau).
Proof.
  intros HB HN. pose proof HN as (L & A & _). unfold Grid, gpts. assert (Hlen : forall i, length (removelast (lpts t tau i)) = order) by (intros i; rewrite removelast_len, lpts_len; lia).
  destruct (concat_blocks (fun i => removelast (lpts t tau i)) order Hlen (ivals t)) as [C1 C2]. split; [|split].
  - rewrite app_length, C1. reflexivity.
  - intros i j Hi Hj. unfold node at 1. rewrite app_nth1 by (rewrite C1; nia). fold (node (concat (map (fun i => removelast (lpts t tau i)) (seq 0 (ivals t)))) (i * order + j)). rewrite C2 by assumption. rewrite removelast_node by (rewrite lpts_len; lia). apply lpts_node. lia.
  - unfold node at 1. rewrite app_nth2, C1, Nat.sub_diag by (rewrite C1; lia). cbn [nth]. rewrite last_node, lpts_len, L. replace (order + 1 - 1)%nat with order by lia. apply lpts_node. lia.
Qed.
(** Euclidean position of an index *)
Lemma split_index n order k : (1 <= order)%nat -> (k < n * order)%nat -> exists i j, (i < n)%nat /\ (j < order)%nat /\ k = (i * order + j)%nat.
Proof. intros Ho Hk. exists (k / order)%nat, (k mod order)%nat. split; [apply Nat.div_lt_upper_bound; lia|]. split; [apply Nat.mod_upper_bound; lia|]. rewrite Nat.mul_comm. apply Nat.div_mod. lia. Qed.
Lemma tau_range order tau j : Nodes order tau -> (j <= order)%nat -> 0 <= node tau j <= 1.
Proof. intros (L & A & N0 & N1) Hj. split; [rewrite <- N0; apply Asc_le; auto; lia|]. apply Rle_trans with (node tau order); [apply Asc_le; auto; lia|exact N1]. Qed.
Lemma tau_lt1 order tau j : Nodes order tau -> (j < order)%nat -> node tau j < 1.
Proof. intros HN Hj. pose proof (tau_range order tau order HN (le_n _)). destruct HN as (L & A & _). assert (node tau j < node tau order) by (apply A; lia). lra. Qed.
Lemma grid_range t tau order pts : Bounds t -> Nodes order tau -> Grid t tau order pts -> forall i j, (i < ivals t)%nat -> (j < order)%nat ->
  node t i <= node pts (i * order + j) < node t (i + 1).
Proof.
  intros HB HN (G1 & G2 & G3) i j Hi Hj. rewrite G2 by assumption. pose proof (step_pos t i HB Hi) as Hs. pose proof (tau_range order tau j HN ltac:(lia)) as [T0 _]. pose proof (tau_lt1 order tau j HN Hj) as T1. unfold step in *. split; nra.
Qed.
Lemma grid_asc t tau order pts : Bounds t -> (1 <= order)%nat -> Nodes order tau -> Grid t tau order pts -> Asc pts.
Proof.
  intros HB Ho HN HG a b [Hab Hb]. pose proof (grid_range t tau order pts HB HN HG) as HR. pose proof HG as (G1 & G2 & G3). rewrite G1 in Hb.
  destruct (split_index (ivals t) order a Ho ltac:(lia)) as (i & j & Hi & Hj & ->). destruct (Nat.eq_dec b (ivals t * order)) as [->|Hb'].
  - rewrite G3. set (n := (ivals t - 1)%nat) in *. destruct (Nat.eq_dec i n) as [->|Hin].
    + rewrite G2 by assumption. apply Rplus_lt_compat_l, Rmult_lt_compat_r; [apply step_pos; auto|]. destruct HN as (L & A & _). apply A. lia.
    + apply Rlt_le_trans with (node t (i + 1)); [apply HR; assumption|]. apply Rle_trans with (node t n); [apply Asc_le; [apply HB|destruct HB as [HB1 _]; clear - HB1 Hi Hin; unfold n in *; clearbody n; unfold ivals in *; lia]|]. assert (n < ivals t)%nat by lia. pose proof (step_pos t n HB ltac:(lia)). pose proof (tau_range order tau order HN (le_n _)). nra.
  - destruct (split_index (ivals t) order b Ho ltac:(lia)) as (i' & j' & Hi' & Hj' & ->). destruct (Nat.lt_total i i') as [K|[K|K]].
    + apply Rlt_le_trans with (node t (i + 1)); [apply HR; assumption|]. apply Rle_trans with (node t i'); [apply Asc_le; [apply HB|unfold ivals in *; lia]|apply HR; assumption].
    + subst i'. rewrite !G2 by assumption. apply Rplus_lt_compat_l, Rmult_lt_compat_r; [apply step_pos; auto|]. destruct HN as (L & A & _). apply A. lia.
    + exfalso. nia.
Qed.
Theorem pdq_grid colpts t order ptype tau : Bounds t -> (1 <= order)%nat -> colpts order ptype = Ok tau -> Nodes order tau ->
  exists p, pdq_ colpts t order ptype = Ok p /\ pq_t p = t /\ Grid t tau order (pq_pts p) /\ Asc (pq_pts p) /\ pq_t0 p = node t 0 /\
    length (pq_groups p) = ivals t /\ forall i, (i < ivals t)%nat -> nth i (pq_groups p) [] = seq (i * order) (order + 1).
Proof.
  intros HB Ho Ec HN. eexists. split; [apply (pdq_builds colpts t order ptype tau HB Ec HN)|]. cbn [pq_t pq_pts pq_groups]. pose proof (gpts_grid t tau order HB HN) as HG. assert (HI : (1 <= ivals t)%nat) by (destruct HB; unfold ivals; lia).
  split; [reflexivity|]. split; [exact HG|]. split; [now apply (grid_asc t tau order)|]. split.
  - unfold pq_t0. cbn [pq_pts]. change (node (gpts t tau) 0 = node t 0). destruct HG as (_ & G2 & _). etransitivity; [apply (G2 0%nat 0%nat); lia|]. destruct HN as (_ & _ & -> & _). ring.
  - split; [now rewrite map_length, seq_length|]. intros i Hi. rewrite (nth_indep _ [] ((fun i => seq (i * order) (order + 1)) 0%nat)) by (rewrite map_length, seq_length; exact Hi). rewrite (map_nth (fun i => seq (i * order) (order + 1))). now rewrite seq_nth.
Qed.
(** When the last node is 1, every bound is a point and group [i] is the set of points in
    interval [i]. *)
Theorem grid_bounds t tau order pts : Bounds t -> (1 <= order)%nat -> Nodes order tau -> node tau order = 1 -> Grid t tau order pts ->
  (forall i, (i <= ivals t)%nat -> node pts (i * order) = node t i) /\
  (forall i j, (i < ivals t)%nat -> (j <= order)%nat -> node pts (i * order + j) = node t i + node tau j * step t i) /\
  forall i k, (i < ivals t)%nat -> (k < length pts)%nat -> (In k (seq (i * order) (order + 1)) <-> node t i <= node pts k <= node t (i + 1)).
Proof.
  intros HB Ho HN H1 HG. pose proof (grid_asc t tau order pts HB Ho HN HG) as HA. pose proof HG as (G1 & G2 & G3). assert (HI : (1 <= ivals t)%nat) by (destruct HB; unfold ivals; lia).
  assert (B : forall i, (i <= ivals t)%nat -> node pts (i * order) = node t i).
  { intros i Hi. destruct (Nat.eq_dec i (ivals t)) as [->|].
    - rewrite G3, H1. unfold step. replace (ivals t - 1 + 1)%nat with (ivals t) by lia. ring.
    - rewrite <- (Nat.add_0_r (i * order)), G2 by lia. destruct HN as (_ & _ & -> & _). ring. }
  split; [exact B|]. split.
  - intros i j Hi Hj. destruct (Nat.eq_dec j order) as [->|]; [|apply G2; lia]. replace (i * order + order)%nat with ((i + 1) * order)%nat by lia. rewrite B, H1 by lia. unfold step. ring.
  - intros i k Hi Hk. rewrite in_seq, <- (B i), <- (B (i + 1)%nat) by lia. assert (E : ((i + 1) * order = i * order + order)%nat) by lia. assert (Hle : ((i + 1) * order <= ivals t * order)%nat) by (apply Nat.mul_le_mono_r; lia). rewrite G1 in Hk. split.
    + intros [K1 K2]. split; apply Asc_le; auto; lia.
    + intros [K1 K2]. split.
      * destruct (le_lt_dec (i * order) k) as [|K]; [assumption|]. exfalso. assert (node pts k < node pts (i * order)) by (apply HA; lia). lra.
      * destruct (le_lt_dec k ((i + 1) * order)) as [|K]; [lia|]. exfalso. assert (node pts ((i + 1) * order) < node pts k) by (apply HA; lia). lra.
Qed.
(** Chebyshev points, the default. *)
Lemma cheb_nodes cspts order : (1 <= order)%nat -> exists tau, collocation_points cos PI cspts order "chebyshev" = Ok tau /\ Nodes order tau /\ node tau order = 1.
Proof. intros Ho. destruct (chebyshev_points cspts order Ho) as (tau & E & L & A & N0 & N1). exists tau. split; [exact E|]. split; [|exact N1]. unfold Nodes. rewrite N1. auto with real. Qed.
Theorem pdq_chebyshev cspts t order : Bounds t -> (1 <= order)%nat ->
  exists p, pdq_ (collocation_points cos PI cspts) t order "chebyshev" = Ok p /\ pq_t p = t /\ length (pq_pts p) = (ivals t * order + 1)%nat /\ Asc (pq_pts p) /\
    (forall i, (i <= ivals t)%nat -> node (pq_pts p) (i * order) = node t i) /\ pq_t0 p = node t 0 /\ pq_tf p = node t (ivals t) /\ length (pq_groups p) = ivals t /\
    forall i k, (i < ivals t)%nat -> (In k (nth i (pq_groups p) []) <-> (k < length (pq_pts p))%nat /\ node t i <= node (pq_pts p) k <= node t (i + 1)).
Proof.
  intros HB Ho. destruct (cheb_nodes cspts order Ho) as (tau & E & HN & N1). destruct (pdq_grid (collocation_points cos PI cspts) t order "chebyshev" tau HB Ho E HN) as (p & Ep & Et & HG & HA & H0 & L & Hg). exists p.
  destruct (grid_bounds t tau order (pq_pts p) HB Ho HN N1 HG) as (B1 & _ & B3). split; [exact Ep|]. split; [exact Et|]. split; [apply HG|]. split; [exact HA|]. split; [exact B1|]. split; [exact H0|]. split.
  - unfold pq_tf. destruct HG as [-> _]. replace (ivals t * order + 1 - 1)%nat with (ivals t * order)%nat by lia. now apply B1.
  - split; [exact L|]. intros i k Hi. rewrite (Hg i Hi). split.
    + intros H. assert (Hk : (k < length (pq_pts p))%nat) by (destruct HG as [-> _]; apply in_seq in H; assert ((i + 1) * order <= ivals t * order)%nat by (apply Nat.mul_le_mono_r; lia); lia). split; [exact Hk|]. now apply B3.
    + intros [Hk H]. now apply B3.
Qed.
