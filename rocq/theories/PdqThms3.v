(** Proofs about the interpolators of [Pdq] and about [SystemTrajectory] (C59, C60). *)
From Coq Require Import Reals Lra.
From Coquelicot Require Import Coquelicot.
From Verif Require Import PyBase NumModel NumInst NumSpec PolynomialModel PiecewiseModel PdqModel PolySpec PdqSpec PiecewiseSpec PolyMath PolynomialBase PolynomialThms PolynomialThms2 PiecewiseThms PiecewiseThms2 PdqThms PdqThms2.
Open Scope R_scope.

Lemma ival_unique t x : Bounds t -> exists i, InInterval t x i /\ clip1 (searchsorted t x true) (Z.of_nat (length t) - 2) = i /\ forall j, InInterval t x j -> j = i.
Proof.
  intros [L A]. pose proof (found_interval t x true A L) as (H1 & H2 & H3). set (i := clip1 _ _) in *. exists i. split; [|split; [reflexivity|]].
  - unfold InInterval, ivals. split; [lia|]. split; [exact H2|]. destruct H3 as [H3|H3]; [left; lia|now right].
  - intros j (J1 & J2 & J3). unfold ivals in *. destruct (Nat.lt_total j i) as [K|[K|K]]; [|exact K|]; exfalso.
    + destruct J3 as [J3|J3]; [lia|]. destruct H2 as [H2|H2]; [lia|]. assert (node t (j + 1) <= node t i) by (apply Asc_le; auto; lia). lra.
    + destruct H3 as [H3|H3]; [lia|]. destruct J2 as [J2|J2]; [lia|]. assert (node t (i + 1) <= node t j) by (apply Asc_le; auto; lia). lra.
Qed.
Lemma nth_map_seq' {A B} (f : nat -> A) (d : A) a n k (g : A -> B) : (k < n)%nat -> nth k (map f (seq a n)) d = f (a + k)%nat.
Proof. intros H. rewrite (nth_indep _ d (f 0%nat)) by (rewrite map_length, seq_length; exact H). rewrite map_nth. now rewrite seq_nth. Qed.

(** [Rows a M]: a number is a 1 x 1 matrix, a vector is one row. *)
Definition Rows (a : nparg R) (M : mat R) : Prop :=
  match a with
  | PNum x => nr M = 1%nat /\ nc M = 1%nat /\ at_m M 0 0 = x
  | PVec l => nr M = 1%nat /\ nc M = length l /\ forall j, (j < length l)%nat -> nth_error l j = Some (at_m M 0 j)
  | PArr A => MatEq M A
  end.
Lemma rows_2d a : Rows a (atleast_2d a).
Proof. destruct a as [x|l|A]; cbn; [auto| |repeat split]. split; [reflexivity|]. split; [reflexivity|]. intros j Hj. now rewrite (nth_error_nth' _ 0 Hj). Qed.
Lemma rows_eq a M : MatEq M (atleast_2d a) -> Rows a M.
Proof.
  intros (H1 & H2 & H3). destruct a as [x|l|B]; cbn in *; [| |repeat split; auto].
  - split; [exact H1|]. split; [exact H2|]. rewrite H3; [reflexivity|lia|lia].
  - split; [exact H1|]. split; [exact H2|]. intros j Hj. rewrite H3 by lia. now rewrite (nth_error_nth' _ 0 Hj).
Qed.
Lemma rows_nc a M : Rows a M -> nc (atleast_2d a) = nc M.
Proof. destruct a as [x|l|B]; cbn; intros H; try tauto; [destruct H as (_ & H & _); congruence..|]. destruct H as (_ & H & _). congruence. Qed.

Section Built.
Context (colpts : nat -> string -> res (list R)) (t : list R) (order : nat) (ptype : string) (tau : list R) (p : pdq R).
Context (HB : Bounds t) (Ho : (1 <= order)%nat) (Ec : colpts order ptype = Ok tau) (HN : Nodes order tau) (Ep : pdq_ colpts t order ptype = Ok p).

(** The points used in interval [i] *)
Definition ipts (w : nat) (i : nat) : list R := map (node (pq_pts p)) (seq (i * order) w).
Lemma ipts_len w i : length (ipts w i) = w.
Proof. unfold ipts. now rewrite map_length, seq_length. Qed.
Lemma ipts_node w i j : (j < w)%nat -> node (ipts w i) j = node (pq_pts p) (i * order + j).
Proof. intros H. unfold node at 1, ipts. rewrite (nth_indep _ 0 (node (pq_pts p) 0)) by (rewrite map_length, seq_length; exact H). rewrite map_nth. now rewrite seq_nth. Qed.
Lemma ipts_nodup w i : (w <= order + 1)%nat -> (i < ivals t)%nat -> NoDup (ipts w i).
Proof.
  intros Hw Hi. pose proof (built_pts colpts t order ptype tau p HB Ec HN Ep) as HG. pose proof (grid_asc t tau order _ HB Ho HN HG) as HA. pose proof (block_le t order Ho i Hi). apply Asc_NoDup. intros a b Hab. rewrite ipts_len in Hab. rewrite !ipts_node by lia. apply HA. destruct HG as [-> _]. lia.
Qed.
Lemma pick_points w i : (w <= order + 1)%nat -> (i < ivals t)%nat -> rmapM (lget (pq_pts p)) (seq (i * order) w) = Ok (ipts w i).
Proof.
  intros Hw Hi. pose proof (built_pts colpts t order ptype tau p HB Ec HN Ep) as [L _]. pose proof (block_le t order Ho i Hi). apply rmapM_map. intros k Hk. apply in_seq in Hk. unfold lget. rewrite (nth_error_nth' _ 0) by lia. reflexivity.
Qed.
Definition ibasis (w i : nat) : basis R := match basis_ (PVec (ipts w i)) with Ok b => b | Err _ => db end.
Lemma ibasis_ok w i : (1 <= w)%nat -> basis_ (PVec (ipts w i)) = Ok (ibasis w i).
Proof. intros H. unfold ibasis. rewrite basis_eq; [reflexivity|]. intros E. pose proof (ipts_len w i) as L. rewrite E in L. simpl in L. lia. Qed.
Lemma removelast_seq a n : removelast (seq a (n + 1)) = seq a n.
Proof. rewrite Nat.add_1_r, seq_S. apply removelast_last. Qed.
(** [w] is the number of columns of an interval, [n] that of the data. *)
Notation Cont := (Continuity t order).
Lemma Cont_w c w n : Cont c w n -> (1 <= w <= order + 1)%nat.
Proof. unfold Continuity. intros [(_ & -> & _)|(_ & -> & _)]; lia. Qed.
Lemma interp_builds c w n : Cont c w n ->
  pq_interpolator p c = Ok (PdqInterp (map (ibasis w) (seq 0 (ivals t))) p c (map (fun i => seq (i * order) w) (seq 0 (ivals t)))).
Proof.
  intros HC. pose proof (Cont_w c w n HC) as Hw. destruct (Pdq_fields colpts t order ptype tau p HB Ec HN Ep) as (_ & _ & F3 & _). unfold pq_interpolator. rewrite F3.
  assert (E : rmapM (pi_group c) (map (fun i => seq (i * order) (order + 1)) (seq 0 (ivals t))) = Ok (map (fun i => seq (i * order) w) (seq 0 (ivals t)))).
  { generalize (seq 0 (ivals t)). induction l as [|i l IH]; [reflexivity|]. cbn [map rmapM]. rewrite IH. destruct HC as [(-> & -> & _)|(-> & -> & _)]; unfold pi_group; cbn [String.eqb Ascii.eqb Bool.eqb rbind]; [reflexivity|]. rewrite removelast_seq. reflexivity. }
  rewrite E. cbn [rbind]. assert (E2 : rmapM (fun g => let* ts := rmapM (lget (pq_pts p)) g in basis_ (PVec ts)) (map (fun i => seq (i * order) w) (seq 0 (ivals t))) = Ok (map (ibasis w) (seq 0 (ivals t)))).
  { assert (K : forall l, (forall i, In i l -> (i < ivals t)%nat) -> rmapM (fun g => let* ts := rmapM (lget (pq_pts p)) g in basis_ (PVec ts)) (map (fun i => seq (i * order) w) l) = Ok (map (ibasis w) l)).
    { induction l as [|i l IH]; intros Hl; [reflexivity|]. cbn [map rmapM]. rewrite pick_points by (try apply Hl; try (now left); lia). cbn [rbind]. rewrite ibasis_ok by lia. cbn [rbind]. rewrite IH by (intros; apply Hl; now right). reflexivity. }
    apply K. intros i Hi. apply in_seq in Hi. lia. }
  rewrite E2. reflexivity.
Qed.
Lemma interp_eval1 c w n q x s : Cont c w n -> pq_interpolator p c = Ok q -> nc x = n ->
  exists Y, pi_eval1 q x s = Ok Y /\ nr Y = nr x /\ nc Y = 1%nat /\
    forall i r f, InInterval t s i -> PolyLt w f -> (forall j, (j < w)%nat -> f (node (pq_pts p) (i * order + j)) = at_m x r (i * order + j)) -> at_m Y r 0 = f s.
Proof.
  intros HC Eq Hx. rewrite (interp_builds c w n HC) in Eq. injection Eq as <-. pose proof (Cont_w c w n HC) as Hw. destruct (Pdq_fields colpts t order ptype tau p HB Ec HN Ep) as (_ & _ & _ & F4 & _). unfold pi_eval1. cbn [pi_pdq pi_groups pi_basis]. rewrite F4.
  destruct (ival_unique t s HB) as (i & Hi & -> & Hu). assert (Hi' : (i < ivals t)%nat) by apply Hi. unfold lget. rewrite !nth_error_map, (nth_error_nth' _ 0%nat) by (rewrite seq_length; exact Hi'). rewrite seq_nth by exact Hi'. change (0 + i)%nat with i. cbn [option_map rbind]. pose proof (block_le t order Ho i Hi') as HL.
  unfold mpick. assert (Hin : forallb (fun j => (j <? nc x)%nat) (seq (i * order) w) = true). { apply forallb_forall. intros k Hk. apply in_seq in Hk. apply Nat.ltb_lt. rewrite Hx. destruct HC as [(_ & -> & ->)|(_ & -> & ->)]; lia. }
  rewrite Hin. cbn [rbind]. rewrite interpolation_matrix_scalar. destruct (interpolation_matrix _ _ [s] (ibasis_ok w i ltac:(lia)) (ipts_nodup w i ltac:(lia) Hi') ltac:(discriminate)) as (M & EM & M1 & M2 & HM & _). rewrite EM. cbn [rbind]. rewrite ipts_len in *.
  unfold mdot. cbn [mtr nr nc at_m]. rewrite seq_length, M2, Nat.eqb_refl. eexists. split; [reflexivity|]. cbn [nr nc at_m]. split; [reflexivity|]. split; [exact M1|]. intros i' r f Hi2 Hf Hv. rewrite (Hu i' Hi2) in Hv. rewrite nsum_Sum. rewrite <- (HM 0%nat f ltac:(simpl; lia) Hf) || (specialize (HM 0%nat f ltac:(simpl; lia) Hf)).
  change (node [s] 0) with s in HM. rewrite <- HM. apply Sum_ext. intros j Hj. rewrite seq_nth by exact Hj. rewrite ipts_node by exact Hj. rewrite Hv by exact Hj. rnum. ring.
Qed.
(** Interpolation is exact in each interval for polynomials of degree < w. *)
Theorem interp_exact c w n : Cont c w n -> exists q, pq_interpolator p c = Ok q /\ forall x ts, nc x = n -> ts <> [] ->
  exists M, pi_call q x (PVec ts) = Ok M /\ nr M = nr x /\ nc M = length ts /\
    forall k i r f, (k < length ts)%nat -> InInterval t (node ts k) i -> PolyLt w f -> (forall j, (j < w)%nat -> f (node (pq_pts p) (i * order + j)) = at_m x r (i * order + j)) -> at_m M r k = f (node ts k).
Proof.
  intros HC. eexists. split; [apply (interp_builds c w n HC)|]. intros x ts Hx Hts. pose proof (interp_builds c w n HC) as Eq. match type of Eq with _ = Ok ?Q => set (q := Q) in * end. unfold pi_call. change (pi_pdq q) with p. change (pi_cont q) with c.
  pose proof (built_pts colpts t order ptype tau p HB Ec HN Ep) as [LP _]. replace (negb _) with false.
  2: { symmetry. apply negb_false_iff, Nat.eqb_eq. rewrite Hx, LP. destruct HC as [(-> & _ & ->)|(-> & _ & ->)]; cbn [String.eqb Ascii.eqb Bool.eqb]; lia. }
  cbn [rbind]. destruct (rmapM_Forall2 (pi_eval1 q x) (fun s Y => nr Y = nr x /\ nc Y = 1%nat /\ forall i r f, InInterval t s i -> PolyLt w f -> (forall j, (j < w)%nat -> f (node (pq_pts p) (i * order + j)) = at_m x r (i * order + j)) -> at_m Y r 0 = f s) ts) as (l & El & Hl).
  { intros s _. destruct (interp_eval1 c w n q x s HC Eq Hx) as (Y & E & H). exists Y. split; [exact E|exact H]. }
  rewrite El. cbn [rbind]. pose proof (Forall2_len _ _ _ Hl) as HL.
  assert (HNc : forall b, In b l -> nr b = nr x /\ nc b = 1%nat). { intros b Hb. clear - Hl Hb. induction Hl as [|s Y ts l H Hl IH]; [destruct Hb|]. destruct Hb as [<-|Hb]; [split; apply H|auto]. }
  destruct (hstack_spec (nr x) l) as (M & EM & Mr & Mc & HM); [intros ->; destruct ts; [contradiction|discriminate]|intros; now apply HNc|].
  exists M. split; [exact EM|]. split; [exact Mr|].
  assert (W : map nc l = repeat 1%nat (length ts)). { rewrite HL. clear - HNc. induction l as [|b l IH]; [reflexivity|]. simpl. rewrite (proj2 (HNc b (or_introl eq_refl))). f_equal. apply IH. intros; apply HNc; now right. }
  split; [rewrite Mc, W; clear; induction (length ts); simpl; lia|]. intros k i r f Hk Hi Hf Hv.
  assert (Of : offset (map nc l) k = k). { rewrite W. unfold offset. clear - Hk. revert k Hk. induction (length ts) as [|m IH]; intros k Hk; [lia|]. destruct k; [reflexivity|]. simpl. now rewrite IH by lia. }
  destruct (nth_error l k) as [b|] eqn:Eb; [|apply nth_error_None in Eb; lia]. pose proof (HM k b Eb r 0%nat) as H. rewrite Of, Nat.add_0_r in H. rewrite H by (destruct (HNc b (nth_error_In _ _ Eb)) as [_ ->]; lia).
  pose proof (Forall2_nth' _ _ _ 0 b k Hl Hk) as (_ & _ & H'). rewrite (nth_error_nth _ _ b Eb) in H'. now apply (H' i).
Qed.
(** The position of a collocation point *)
Lemma point_interval k : (k < ivals t * order + 1)%nat -> exists i j, (i < ivals t)%nat /\ (j <= order)%nat /\ k = (i * order + j)%nat /\ InInterval t (node (pq_pts p) k) i /\ ((k < ivals t * order)%nat -> (j < order)%nat).
Proof.
  intros Hk. pose proof (built_pts colpts t order ptype tau p HB Ec HN Ep) as HG. pose proof (grid_range t tau order _ HB HN HG) as HR. pose proof (built_ivals t order HB Ho) as HI. destruct (Nat.eq_dec k (ivals t * order)) as [->|].
  - exists (ivals t - 1)%nat, order. split; [lia|]. split; [lia|]. split; [nia|]. split; [|lia]. destruct HG as (_ & _ & ->). split; [lia|]. pose proof (step_pos t (ivals t - 1) HB ltac:(lia)). pose proof (tau_range order tau order HN (le_n _)). split; [right; nra|left; lia].
  - destruct (split_index (ivals t) order k Ho ltac:(lia)) as (i & j & Hi & Hj & ->). exists i, j. split; [exact Hi|]. split; [lia|]. split; [reflexivity|]. split; [|auto]. split; [exact Hi|]. destruct (HR i j Hi Hj). split; right; lra.
Qed.
(** At the collocation points the interpolator returns its data. *)
Theorem interp_data c w n : Cont c w n -> exists q, pq_interpolator p c = Ok q /\ forall x, nc x = n ->
  exists M, pi_call q x (PVec (firstn n (pq_pts p))) = Ok M /\ MatEq M x.
Proof.
  intros HC. destruct (interp_exact c w n HC) as (q & Eq & H). exists q. split; [exact Eq|]. intros x Hx. pose proof (built_pts colpts t order ptype tau p HB Ec HN Ep) as [LP _]. pose proof (built_ivals t order HB Ho) as HI.
  assert (Hn : (1 <= n <= ivals t * order + 1)%nat) by (destruct HC as [(_ & _ & ->)|(_ & _ & ->)]; nia). assert (Lf : length (firstn n (pq_pts p)) = n) by (rewrite firstn_length; lia).
  destruct (H x (firstn n (pq_pts p)) Hx) as (M & EM & M1 & M2 & HM); [intros E; rewrite E in Lf; simpl in Lf; lia|]. exists M. split; [exact EM|]. split; [exact M1|]. split; [congruence|]. intros r k Hr Hk. rewrite M2, Lf in Hk.
  assert (Nk : node (firstn n (pq_pts p)) k = node (pq_pts p) k). { rewrite <- (firstn_skipn n (pq_pts p)) at 2. unfold node. rewrite app_nth1 by lia. reflexivity. }
  destruct (point_interval k ltac:(lia)) as (i & j & Hi & Hj & -> & HIn & Hj'). assert (Hjw : (j < w)%nat) by (destruct HC as [(_ & -> & ->)|(_ & -> & ->)]; [lia|apply Hj'; lia]). pose proof (Cont_w c w n HC) as Hw.
  pose proof (ipts_nodup w i ltac:(lia) Hi) as HD.
  set (f := fun z => Sum w (fun a => at_m x r (i * order + a) * polyval (lagrange (ipts w i) a) z)). assert (Vf : forall a, (a < w)%nat -> f (node (pq_pts p) (i * order + a)) = at_m x r (i * order + a)).
  { intros a Ha. unfold f. rewrite <- (ipts_node w i a Ha). rewrite (Sum_single _ a _ Ha); [rewrite lagrange_delta, Nat.eqb_refl by (rewrite ?ipts_len; auto); ring|]. intros b Hb Hne. rewrite lagrange_delta by (rewrite ?ipts_len; auto). destruct (Nat.eqb_spec b a); [contradiction|ring]. }
  assert (Pf : PolyLt w f). { apply (PolyLt_Sum _ _ (fun a z => at_m x r (i * order + a) * polyval (lagrange (ipts w i) a) z)). intros a Ha. apply PolyLt_scal. pose proof (lagrange_poly (ipts w i) a) as K. rewrite ipts_len in K. now apply K. }
  rewrite (HM (i * order + j)%nat i r f); [rewrite Nk; now apply Vf|rewrite Lf; exact Hk|now rewrite Nk|exact Pf|exact Vf].
Qed.
Theorem interp_columns c w n q x ts : Cont c w n -> pq_interpolator p c = Ok q -> nc x <> n -> pi_call q x ts = Err EValue.
Proof.
  intros HC Eq Hx. rewrite (interp_builds c w n HC) in Eq. injection Eq as <-. unfold pi_call. cbn [pi_pdq pi_cont]. pose proof (built_pts colpts t order ptype tau p HB Ec HN Ep) as [LP _]. replace (negb _) with true; [reflexivity|]. symmetry. apply negb_true_iff, Nat.eqb_neq. rewrite LP. intros E. apply Hx. rewrite E. destruct HC as [(-> & _ & ->)|(-> & _ & ->)]; cbn [String.eqb Ascii.eqb Bool.eqb]; lia.
Qed.
Theorem interp_bad_continuity c : c <> "both"%string -> c <> "left"%string -> c <> "right"%string -> pq_interpolator p c = Err EValue.
Proof.
  intros H1 H2 H3. destruct (Pdq_fields colpts t order ptype tau p HB Ec HN Ep) as (_ & _ & F3 & _). unfold pq_interpolator. rewrite F3. pose proof (built_ivals t order HB Ho) as HI. replace (ivals t) with (S (ivals t - 1)) by lia. cbn [seq map rmapM]. unfold pi_group. destruct (String.eqb_spec c "both"); [contradiction|]. destruct (String.eqb_spec c "left"); [contradiction|]. destruct (String.eqb_spec c "right"); [contradiction|]. reflexivity.
Qed.
(** With 'left', every point of the last interval raises IndexError, although [x] has the
    requested number of columns. *)
Theorem left_last_interval_raises : exists q, pq_interpolator p "left" = Ok q /\
  forall x s, nc x = (ivals t * order)%nat -> InInterval t s (ivals t - 1) -> pi_call q x (PNum s) = Err EIndex.
Proof.
  pose proof (built_pts colpts t order ptype tau p HB Ec HN Ep) as HG. pose proof HG as [LP _]. pose proof (grid_asc t tau order _ HB Ho HN HG) as HA. pose proof (built_ivals t order HB Ho) as HI.
  destruct (Pdq_fields colpts t order ptype tau p HB Ec HN Ep) as (_ & _ & F3 & F4 & _). unfold pq_interpolator. rewrite F3.
  assert (E : rmapM (pi_group "left") (map (fun i => seq (i * order) (order + 1)) (seq 0 (ivals t))) = Ok (map (fun i => seq (i * order + 1) order) (seq 0 (ivals t)))).
  { generalize (seq 0 (ivals t)). induction l as [|i l IH]; [reflexivity|]. cbn [map rmapM]. rewrite IH. unfold pi_group; cbn [String.eqb Ascii.eqb Bool.eqb rbind]. replace (order + 1)%nat with (S order) by lia. cbn [seq tl]. replace (S (i * order)) with (i * order + 1)%nat by lia. reflexivity. }
  rewrite E. cbn [rbind].
  assert (K : forall l, (forall i, In i l -> (i < ivals t)%nat) -> exists bs, rmapM (fun g => let* ts := rmapM (lget (pq_pts p)) g in basis_ (PVec ts)) (map (fun i => seq (i * order + 1) order) l) = Ok bs).
  { induction l as [|i l IH]; intros Hl; [eexists; reflexivity|]. cbn [map rmapM]. pose proof (block_le t order Ho i (Hl i (or_introl eq_refl))) as HL. rewrite (rmapM_map (lget (pq_pts p)) (node (pq_pts p))) by (intros k Hk; apply in_seq in Hk; unfold lget; rewrite (nth_error_nth' _ 0) by lia; reflexivity). cbn [rbind].
    rewrite basis_eq by (destruct order; [lia|discriminate]). cbn [rbind]. destruct IH as [bs ->]; [intros; apply Hl; now right|]. cbn [rbind]. eauto. }
  destruct (K (seq 0 (ivals t))) as [bs Ebs]; [intros i Hi; apply in_seq in Hi; lia|]. rewrite Ebs. cbn [rbind]. eexists. split; [reflexivity|]. intros x s Hx Hs. unfold pi_call. cbn [pi_pdq pi_cont String.eqb Ascii.eqb Bool.eqb]. rewrite LP, Hx. replace (ivals t * order + 1 - 1)%nat with (ivals t * order)%nat by lia. rewrite Nat.eqb_refl. cbn [negb rbind rmapM].
  unfold pi_eval1. cbn [pi_pdq pi_groups]. rewrite F4. destruct (ival_unique t s HB) as (i & Hi & -> & Hu). rewrite <- (Hu _ Hs). unfold lget. rewrite nth_error_map, (nth_error_nth' _ 0%nat) by (rewrite seq_length; lia). rewrite seq_nth by lia. change (0 + (ivals t - 1))%nat with (ivals t - 1)%nat. cbn [option_map rbind]. unfold mpick.
  replace (forallb _ _) with false; [reflexivity|]. symmetry. apply not_true_iff_false. intros F. rewrite forallb_forall in F. specialize (F (ivals t * order)%nat). rewrite Hx, Nat.ltb_irrefl in F. discriminate F. apply in_seq. nia.
Qed.

(** ** SystemTrajectory *)
Theorem trajectory_accepts x z u X Z U : Rows x X -> Rows z Z -> Rows u U ->
  (nc X = (ivals t * order + 1)%nat /\ nc Z = (ivals t * order)%nat /\ nc U = (ivals t * order)%nat -> exists s, traj_ x z u p = Ok s) /\
  (~ (nc X = (ivals t * order + 1)%nat /\ nc Z = (ivals t * order)%nat /\ nc U = (ivals t * order)%nat) -> traj_ x z u p = Err EAssert).
Proof.
  intros HX HZ HU. apply rows_nc in HX, HZ, HU. rewrite <- HX, <- HZ, <- HU.
  pose proof (built_pts colpts t order ptype tau p HB Ec HN Ep) as [LP _]. unfold traj_. rewrite LP. replace (ivals t * order + 1 - 1)%nat with (ivals t * order)%nat by lia. split.
  - intros (-> & -> & ->). rewrite !Nat.eqb_refl. cbn [rassert rbind]. rewrite (interp_builds "both" (order + 1) (ivals t * order + 1)) by (left; auto). rewrite (interp_builds "right" order (ivals t * order)) by (right; auto). cbn [rbind]. eauto.
  - intros H. destruct (Nat.eqb_spec (nc (atleast_2d x)) (ivals t * order + 1)); [|reflexivity]. cbn [rassert rbind]. destruct (Nat.eqb_spec (nc (atleast_2d z)) (ivals t * order)); [|reflexivity]. cbn [rassert rbind].
    destruct (Nat.eqb_spec (nc (atleast_2d u)) (ivals t * order)); [|reflexivity]. tauto.
Qed.
Theorem trajectory_samples x z u s : traj_ x z u p = Ok s ->
  st_time s = t /\
  (exists M, st_state s (PVec (pq_pts p)) = Ok M /\ Rows x M) /\
  (exists M, st_algState s (PVec (removelast (pq_pts p))) = Ok M /\ Rows z M) /\
  (exists M, st_input s (PVec (removelast (pq_pts p))) = Ok M /\ Rows u M).
Proof.
  intros E. destruct (trajectory_accepts x z u _ _ _ (rows_2d x) (rows_2d z) (rows_2d u)) as [_ HE].
  assert (X1 : nc (atleast_2d x) = (ivals t * order + 1)%nat /\ nc (atleast_2d z) = (ivals t * order)%nat /\ nc (atleast_2d u) = (ivals t * order)%nat).
  { destruct (Nat.eq_dec (nc (atleast_2d x)) (ivals t * order + 1)); [|rewrite HE in E by tauto; discriminate]. destruct (Nat.eq_dec (nc (atleast_2d z)) (ivals t * order)); [|rewrite HE in E by tauto; discriminate].
    destruct (Nat.eq_dec (nc (atleast_2d u)) (ivals t * order)); [|rewrite HE in E by tauto; discriminate]. auto. }
  destruct X1 as (X1 & Z1 & U1). clear HE. unfold traj_ in E. pose proof (built_pts colpts t order ptype tau p HB Ec HN Ep) as [LP _]. rewrite LP in E. replace (ivals t * order + 1 - 1)%nat with (ivals t * order)%nat in E by lia. rewrite X1, Z1, U1, !Nat.eqb_refl in E. cbn [rassert rbind] in E.
  assert (CB : Cont "both" (order + 1) (ivals t * order + 1)) by (left; auto). assert (CR : Cont "right" order (ivals t * order)) by (right; auto). destruct (interp_data _ _ _ CB) as (qx & Ex & Hx). destruct (interp_data _ _ _ CR) as (qz & Ez & Hz). rewrite Ex, Ez in E. cbn [rbind] in E. injection E as <-.
  destruct (Pdq_fields colpts t order ptype tau p HB Ec HN Ep) as (_ & _ & _ & F4 & _). unfold st_time, st_state, st_algState, st_input. cbn [st_pdq st_ix st_iz st_iu st_x st_z st_u]. split; [exact F4|].
  assert (A1 : firstn (ivals t * order + 1) (pq_pts p) = pq_pts p) by (rewrite <- LP; apply firstn_all). assert (A2 : firstn (ivals t * order) (pq_pts p) = removelast (pq_pts p)).
  { replace (ivals t * order)%nat with (length (pq_pts p) - 1)%nat by lia. generalize (pq_pts p). clear. induction l as [|a l IH]; [reflexivity|]. destruct l as [|b l]; [reflexivity|]. change (removelast (a :: b :: l)) with (a :: removelast (b :: l)). cbn [length]. rewrite <- IH. cbn [length]. replace (S (S (length l)) - 1)%nat with (S (S (length l) - 1)) by lia. reflexivity. }
  split; [rewrite <- A1; destruct (Hx (atleast_2d x) X1) as (M & E1 & E2); exists M; split; [exact E1|now apply rows_eq]|]. rewrite <- A2.
  split; [destruct (Hz (atleast_2d z) Z1) as (M & E1 & E2)|destruct (Hz (atleast_2d u) U1) as (M & E1 & E2)]; exists M; (split; [exact E1|now apply rows_eq]).
Qed.
End Built.
