(** The interpolator with continuity 'left', exactly (C59). *)
From Coq Require Import Reals Lra.
From Coquelicot Require Import Coquelicot.
From Verif Require Import PyBase NumModel NumInst NumSpec PolynomialModel PiecewiseModel PdqModel PolySpec PdqSpec PiecewiseSpec PolyMath PolynomialBase PolynomialThms PolynomialThms2 PiecewiseThms PiecewiseThms2 PdqThms PdqThms2 PdqThms3.
Open Scope R_scope.

Section Built.
Context (colpts : nat -> string -> res (list R)) (t : list R) (order : nat) (ptype : string) (tau : list R) (p : pdq R).
Context (HB : Bounds t) (Ho : (1 <= order)%nat) (Ec : colpts order ptype = Ok tau) (HN : Nodes order tau) (Ep : pdq_ colpts t order ptype = Ok p).

Definition lpts (i : nat) : list R := map (node (pq_pts p)) (seq (i * order + 1) order).
Lemma lpts_len i : length (lpts i) = order.
Proof. unfold lpts. now rewrite map_length, seq_length. Qed.
Lemma lpts_node i j : (j < order)%nat -> node (lpts i) j = node (pq_pts p) (i * order + 1 + j).
Proof. intros H. unfold node at 1, lpts. rewrite (nth_indep _ 0 (node (pq_pts p) 0)) by (rewrite map_length, seq_length; exact H). rewrite map_nth. now rewrite seq_nth. Qed.
Lemma lpts_nodup i : (i < ivals t)%nat -> NoDup (lpts i).
Proof.
  intros Hi. pose proof (built_pts colpts t order ptype tau p HB Ec HN Ep) as HG. pose proof (grid_asc t tau order _ HB Ho HN HG) as HA. pose proof (block_le t order Ho i Hi). apply Asc_NoDup. intros a b Hab. rewrite lpts_len in Hab. rewrite !lpts_node by lia. apply HA. destruct HG as [-> _]. lia.
Qed.
Lemma lpick i : (i < ivals t)%nat -> rmapM (lget (pq_pts p)) (seq (i * order + 1) order) = Ok (lpts i).
Proof.
  intros Hi. pose proof (built_pts colpts t order ptype tau p HB Ec HN Ep) as [L _]. pose proof (block_le t order Ho i Hi). apply rmapM_map. intros k Hk. apply in_seq in Hk. unfold lget. rewrite (nth_error_nth' _ 0) by lia. reflexivity.
Qed.
Definition lbasis (i : nat) : basis R := match basis_ (PVec (lpts i)) with Ok b => b | Err _ => db end.
Lemma lbasis_ok i : basis_ (PVec (lpts i)) = Ok (lbasis i).
Proof. unfold lbasis. rewrite basis_eq; [reflexivity|]. intros E. pose proof (lpts_len i) as L. rewrite E in L. simpl in L. lia. Qed.
Definition lq : pdq_interp R := PdqInterp (map lbasis (seq 0 (ivals t))) p "left" (map (fun i => seq (i * order + 1) order) (seq 0 (ivals t))).
Lemma left_builds : pq_interpolator p "left" = Ok lq.
Proof.
  destruct (Pdq_fields colpts t order ptype tau p HB Ec HN Ep) as (_ & _ & F3 & _). unfold pq_interpolator. rewrite F3.
  assert (E : rmapM (pi_group "left") (map (fun i => seq (i * order) (order + 1)) (seq 0 (ivals t))) = Ok (map (fun i => seq (i * order + 1) order) (seq 0 (ivals t)))).
  { generalize (seq 0 (ivals t)). induction l as [|i l IH]; [reflexivity|]. cbn [map rmapM]. rewrite IH. unfold pi_group; cbn [String.eqb Ascii.eqb Bool.eqb rbind]. replace (order + 1)%nat with (S order) by lia. cbn [seq tl]. replace (S (i * order)) with (i * order + 1)%nat by lia. reflexivity. }
  rewrite E. cbn [rbind].
  assert (K : forall l, (forall i, In i l -> (i < ivals t)%nat) -> rmapM (fun g => let* ts := rmapM (lget (pq_pts p)) g in basis_ (PVec ts)) (map (fun i => seq (i * order + 1) order) l) = Ok (map lbasis l)).
  { induction l as [|i l IH]; intros Hl; [reflexivity|]. cbn [map rmapM]. rewrite lpick by (apply Hl; now left). cbn [rbind]. rewrite lbasis_ok. cbn [rbind]. rewrite IH by (intros; apply Hl; now right). reflexivity. }
  rewrite K by (intros i Hi; apply in_seq in Hi; lia). reflexivity.
Qed.

Lemma left_eval1 x s i : nc x = (ivals t * order)%nat -> InInterval t s i ->
  ((i = ivals t - 1)%nat -> pi_eval1 lq x s = Err EIndex) /\
  ((i < ivals t - 1)%nat -> exists Y, pi_eval1 lq x s = Ok Y /\ nr Y = nr x /\ nc Y = 1%nat /\
    forall r f, PolyLt order f -> (forall j, (j < order)%nat -> f (node (pq_pts p) (i * order + 1 + j)) = at_m x r (i * order + 1 + j)) -> at_m Y r 0 = f s).
Proof.
  intros Hx Hs. destruct (Pdq_fields colpts t order ptype tau p HB Ec HN Ep) as (_ & _ & _ & F4 & _). unfold pi_eval1. cbn [lq pi_pdq pi_groups pi_basis]. rewrite F4.
  destruct (ival_unique t s HB) as (i0 & _ & -> & Hu). rewrite <- (Hu i Hs). assert (Hi' : (i < ivals t)%nat) by apply Hs. unfold lget. rewrite !nth_error_map, (nth_error_nth' _ 0%nat) by (rewrite seq_length; exact Hi'). rewrite seq_nth by exact Hi'. change (0 + i)%nat with i. cbn [option_map rbind]. unfold mpick.
  split; intros Hi.
  - replace (forallb _ _) with false; [reflexivity|]. symmetry. apply not_true_iff_false. intros F. rewrite forallb_forall in F. specialize (F (ivals t * order)%nat). rewrite Hx, Nat.ltb_irrefl in F. discriminate F. apply in_seq. nia.
  - assert (Hin : forallb (fun j => (j <? nc x)%nat) (seq (i * order + 1) order) = true). { apply forallb_forall. intros k Hk. apply in_seq in Hk. apply Nat.ltb_lt. rewrite Hx. nia. }
    rewrite Hin. cbn [rbind]. rewrite interpolation_matrix_scalar. destruct (interpolation_matrix _ _ [s] (lbasis_ok i) (lpts_nodup i Hi') ltac:(discriminate)) as (M & EM & M1 & M2 & HM & _). rewrite EM. cbn [rbind]. rewrite lpts_len in *.
    unfold mdot. cbn [mtr nr nc at_m]. rewrite seq_length, M2, Nat.eqb_refl. eexists. split; [reflexivity|]. cbn [nr nc at_m]. split; [reflexivity|]. split; [exact M1|]. intros r f Hf Hv. rewrite nsum_Sum. specialize (HM 0%nat f ltac:(simpl; lia) Hf).
    change (node [s] 0) with s in HM. rewrite <- HM. apply Sum_ext. intros j Hj. rewrite seq_nth by exact Hj. rewrite lpts_node by exact Hj. rewrite Hv by exact Hj. rnum. ring.
Qed.

(** The polynomial of interval [i] goes through the columns [i*order+1 .. (i+1)*order] of the data at the points of the
    same numbers, although column [k] of data without a value at the left end belongs to point [k + 1]; for a point of the last
    interval there is no such column and the call raises IndexError. *)
Theorem left_exact : exists q, pq_interpolator p "left" = Ok q /\ forall x ts, nc x = (ivals t * order)%nat -> ts <> [] ->
  ((exists k, (k < length ts)%nat /\ InInterval t (node ts k) (ivals t - 1)) -> pi_call q x (PVec ts) = Err EIndex) /\
  ((forall k, (k < length ts)%nat -> ~ InInterval t (node ts k) (ivals t - 1)) ->
   exists M, pi_call q x (PVec ts) = Ok M /\ nr M = nr x /\ nc M = length ts /\
    forall k i r f, (k < length ts)%nat -> InInterval t (node ts k) i -> PolyLt order f ->
      (forall j, (j < order)%nat -> f (node (pq_pts p) (i * order + 1 + j)) = at_m x r (i * order + 1 + j)) -> at_m M r k = f (node ts k)).
Proof.
  exists lq. split; [exact left_builds|]. intros x ts Hx Hts.
  pose proof (built_pts colpts t order ptype tau p HB Ec HN Ep) as [LP _]. unfold pi_call. cbn [lq pi_pdq pi_cont String.eqb Ascii.eqb Bool.eqb]. fold lq.
  rewrite LP, Hx. replace (ivals t * order + 1 - 1)%nat with (ivals t * order)%nat by lia. rewrite Nat.eqb_refl. cbn [negb rbind].
  split.
  - intros (k & Hk & Hi). assert (G : rmapM (pi_eval1 lq x) ts = Err EIndex).
    { clear Hts. revert k Hk Hi. induction ts as [|s ts IH]; intros k Hk Hi; [simpl in Hk; lia|]. cbn [rmapM].
      destruct (ival_unique t s HB) as (i & Hs & _ & Hu). destruct (left_eval1 x s i Hx Hs) as [E1 E2].
      destruct (Nat.eq_dec i (ivals t - 1)) as [E|E]; [rewrite (E1 E); reflexivity|].
      destruct E2 as (Y & -> & _); [destruct Hs as [Hs _]; lia|]. cbn [rbind]. destruct k as [|k].
      - exfalso. apply E. symmetry. apply Hu, Hi.
      - rewrite (IH k); [reflexivity|simpl in Hk; lia|exact Hi]. }
    rewrite G. reflexivity.
  - intros Hno. assert (El : exists l, rmapM (pi_eval1 lq x) ts = Ok l /\ Forall2 (fun s Y => nr Y = nr x /\ nc Y = 1%nat /\ forall i r f, InInterval t s i -> PolyLt order f -> (forall j, (j < order)%nat -> f (node (pq_pts p) (i * order + 1 + j)) = at_m x r (i * order + 1 + j)) -> at_m Y r 0 = f s) ts l).
    { clear Hts. induction ts as [|s ts IH]; [exists []; split; [reflexivity|constructor]|]. cbn [rmapM].
      destruct (ival_unique t s HB) as (i & Hs & _ & Hu). destruct (left_eval1 x s i Hx Hs) as [_ E2].
      destruct E2 as (Y & -> & Y1 & Y2 & HY).
      { destruct (Nat.eq_dec i (ivals t - 1)) as [E|E]; [|destruct Hs as [Hs' _]; lia]. exfalso. apply (Hno 0%nat); [simpl; lia|]. subst i. exact Hs. }
      cbn [rbind]. destruct IH as (l & -> & Hl). { intros k Hk. apply (Hno (S k)). simpl. lia. }
      exists (Y :: l). split; [reflexivity|]. constructor; [|exact Hl]. split; [exact Y1|]. split; [exact Y2|]. intros i' r f Hi'. rewrite (Hu i' Hi'). apply HY. }
    destruct El as (l & El & Hl). rewrite El. cbn [rbind]. pose proof (Forall2_len _ _ _ Hl) as HL.
    assert (HNc : forall b, In b l -> nr b = nr x /\ nc b = 1%nat). { intros b Hb. clear - Hl Hb. induction Hl as [|s Y ts l H Hl IH]; [destruct Hb|]. destruct Hb as [<-|Hb]; [split; apply H|auto]. }
    destruct (hstack_spec (nr x) l) as (M & EM & Mr & Mc & HM); [intros ->; destruct ts; [contradiction|discriminate]|intros; now apply HNc|].
    exists M. split; [exact EM|]. split; [exact Mr|].
    assert (W : map nc l = repeat 1%nat (length ts)). { rewrite HL. clear - HNc. induction l as [|b l IH]; [reflexivity|]. simpl. rewrite (proj2 (HNc b (or_introl eq_refl))). f_equal. apply IH. intros; apply HNc; now right. }
    split; [rewrite Mc, W; clear; induction (length ts); simpl; lia|]. intros k i r f Hk Hi Hf Hv.
    assert (Of : offset (map nc l) k = k). { rewrite W. unfold offset. clear - Hk. revert k Hk. induction (length ts) as [|m IH]; intros k Hk; [lia|]. destruct k; [reflexivity|]. simpl. now rewrite IH by lia. }
    destruct (nth_error l k) as [b|] eqn:Eb; [|apply nth_error_None in Eb; lia]. pose proof (HM k b Eb r 0%nat) as H. rewrite Of, Nat.add_0_r in H. rewrite H by (destruct (HNc b (nth_error_In _ _ Eb)) as [_ ->]; lia).
    pose proof (Forall2_nth' _ _ _ 0 b k Hl Hk) as (_ & _ & H'). rewrite (nth_error_nth _ _ b Eb) in H'. now apply (H' i).
Qed.

(** At a collocation point [k] inside an interval that is not the last, the column [k] comes back, not [k - 1]. *)
Theorem left_data : exists q, pq_interpolator p "left" = Ok q /\ forall x i j, nc x = (ivals t * order)%nat ->
  (i < ivals t - 1)%nat -> (0 < j < order)%nat -> let k := (i * order + j)%nat in
  exists M, pi_call q x (PVec [node (pq_pts p) k]) = Ok M /\ nr M = nr x /\ nc M = 1%nat /\ forall r, at_m M r 0 = at_m x r k.
Proof.
  destruct left_exact as (q & Eq & H). exists q. split; [exact Eq|]. intros x i j Hx Hi Hj k.
  pose proof (built_pts colpts t order ptype tau p HB Ec HN Ep) as HG. pose proof (grid_range t tau order _ HB HN HG i j ltac:(lia) ltac:(lia)) as [R1 R2]. fold k in R1, R2.
  assert (Hin : InInterval t (node (pq_pts p) k) i) by (split; [lia|]; split; right; lra).
  destruct (ival_unique t (node (pq_pts p) k) HB) as (i0 & _ & _ & Hu).
  destruct (H x [node (pq_pts p) k] Hx ltac:(discriminate)) as [_ H2]. destruct H2 as (M & EM & M1 & M2 & HM).
  { intros [|a] Ha Hl; [|simpl in Ha; lia]. change (node [node (pq_pts p) k] 0) with (node (pq_pts p) k) in Hl. pose proof (Hu _ Hl). pose proof (Hu _ Hin). lia. }
  exists M. split; [exact EM|]. split; [exact M1|]. split; [exact M2|]. intros r.
  set (f := fun z => Sum order (fun a => at_m x r (i * order + 1 + a) * polyval (lagrange (lpts i) a) z)).
  assert (HD : NoDup (lpts i)) by (apply lpts_nodup; lia).
  assert (Vf : forall a, (a < order)%nat -> f (node (pq_pts p) (i * order + 1 + a)) = at_m x r (i * order + 1 + a)).
  { intros a Ha. unfold f. rewrite <- (lpts_node i a Ha). rewrite (Sum_single _ a _ Ha); [rewrite lagrange_delta, Nat.eqb_refl by (rewrite ?lpts_len; auto); ring|]. intros b Hb Hne. rewrite lagrange_delta by (rewrite ?lpts_len; auto). destruct (Nat.eqb_spec b a); [contradiction|ring]. }
  assert (Pf : PolyLt order f). { apply (PolyLt_Sum _ _ (fun a z => at_m x r (i * order + 1 + a) * polyval (lagrange (lpts i) a) z)). intros a Ha. apply PolyLt_scal. pose proof (lagrange_poly (lpts i) a) as K. rewrite lpts_len in K. now apply K. }
  rewrite (HM 0%nat i r f ltac:(simpl; lia) Hin Pf Vf). change (node [node (pq_pts p) k] 0) with (node (pq_pts p) k).
  replace k with (i * order + 1 + (j - 1))%nat by (unfold k; lia). apply Vf. lia.
Qed.
End Built.
