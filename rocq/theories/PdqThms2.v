(** Proofs about [Pdq]: derivative, integral, expandInput (C56-C58). *)
From Coq Require Import Reals Lra.
From Coquelicot Require Import Coquelicot.
From Verif Require Import PyBase NumModel NumInst NumSpec PolynomialModel PiecewiseModel PdqModel PolySpec PdqSpec PiecewiseSpec PolyMath PolynomialBase PolynomialThms PolynomialThms2 PiecewiseThms PiecewiseThms2 PdqThms.
Open Scope R_scope.

Lemma Sum_add a b f : Sum (a + b) f = Sum a f + Sum b (fun k => f (a + k)%nat).
Proof. induction b as [|b IH]; [rewrite Nat.add_0_r; simpl; ring|]. rewrite Nat.add_succ_r. simpl. rewrite IH. ring. Qed.
Lemma Sum_block n a m f : (a + m <= n)%nat -> (forall k, (k < n)%nat -> (k < a \/ a + m <= k)%nat -> f k = 0) -> Sum n f = Sum m (fun k => f (a + k)%nat).
Proof.
  intros H Hz. replace n with (a + (m + (n - a - m)))%nat by lia. rewrite !Sum_add. rewrite (Sum_0 a) by (intros; apply Hz; lia). rewrite (Sum_0 (n - a - m)) by (intros; apply Hz; lia). ring.
Qed.

Lemma firstn_NoDup {A} n (l : list A) : NoDup l -> NoDup (firstn n l).
Proof.
  revert n. induction l as [|a l IH]; intros n H; [destruct n; constructor|]. destruct n as [|n]; [constructor|]. simpl. inversion H as [|? ? H1 H2]. constructor; [|now apply IH]. intros K. apply H1.
  rewrite <- (firstn_skipn n l). apply in_or_app. now left.
Qed.

(** ** The big matrix *)
Definition Square (order : nat) (b : basis R) : Prop := b_num b = (order + 1)%nat /\ nr (b_D b) = (order + 1)%nat /\ nc (b_D b) = (order + 1)%nat.
Lemma big_fold order bs : Forall (Square order) bs -> forall m i0 m' i', fold_left big_step bs (m, i0) = (m', i') ->
  nr m' = nr m /\ nc m' = nc m /\
  (forall k j c, (k < length bs)%nat -> (j < order)%nat ->
     at_m m' (i0 + k * order + j) c = if ((i0 + k * order <=? c) && (c <? i0 + k * order + (order + 1)))%nat then at_m (b_D (nth k bs db)) j (c - (i0 + k * order)) else at_m m (i0 + k * order + j) c) /\
  (forall r c, (r < i0 \/ i0 + length bs * order <= r)%nat -> at_m m' r c = at_m m r c).
Proof.
  induction 1 as [|b bs (B1 & B2 & B3) Hbs IH]; intros m i0 m' i' E.
  - injection E as <- _. split; [reflexivity|]. split; [reflexivity|]. split; [simpl; lia|]. reflexivity.
  - cbn [fold_left big_step] in E. rewrite B1 in E. replace (order + 1 - 1)%nat with order in E by lia. destruct (IH _ _ _ _ E) as (I1 & I2 & I3 & I4). cbn [mput nr nc] in I1, I2. split; [exact I1|]. split; [exact I2|]. split.
    + intros [|k] j c Hk Hj.
      * cbn [nth]. rewrite Nat.mul_0_l, Nat.add_0_r, I4 by lia. cbn [mput at_m mrows nr nc]. rewrite B3, Nat.sub_0_r.
        replace (i0 <=? i0 + j)%nat with true by (symmetry; apply Nat.leb_le; lia). replace (i0 + j <? i0 + order)%nat with true by (symmetry; apply Nat.ltb_lt; lia). cbn [andb]. replace (i0 + j - i0)%nat with j by lia. reflexivity.
      * simpl in Hk. specialize (I3 k j c ltac:(lia) Hj). replace (i0 + S k * order + j)%nat with (i0 + order + k * order + j)%nat by lia. replace (i0 + S k * order)%nat with (i0 + order + k * order)%nat by lia. rewrite I3. cbn [nth].
        destruct (_ && _)%bool; [reflexivity|]. cbn [mput at_m mrows nr nc]. replace (i0 + order + k * order + j <? i0 + (order - 0))%nat with false by (symmetry; apply Nat.ltb_ge; lia). rewrite andb_false_r. reflexivity.
    + intros r c Hr. simpl in Hr. rewrite I4 by lia. cbn [mput at_m mrows nr nc]. destruct (Nat.leb_spec i0 r); [|reflexivity]. destruct (Nat.ltb_spec r (i0 + (order - 0))); [lia|reflexivity].
Qed.
Lemma gbasis_square t tau order : Bounds t -> Nodes order tau -> Forall (Square order) (gbasis t tau).
Proof.
  intros HB HN. apply Forall_forall. intros b Hb. apply in_map_iff in Hb. destruct Hb as (i & <- & Hi). apply in_seq in Hi. split; [now apply lbasis_num|].
  destruct (differentiation_matrix _ _ (lbasis_ok t tau i (Nodes_nonempty _ _ HN)) (lbasis_nodup t tau i order HB ltac:(lia) HN)) as (Dr & Dc & _). rewrite lpts_len in Dr, Dc. destruct HN as (L & _). split; lia.
Qed.
Lemma gbasis_nth t tau k : (k < ivals t)%nat -> nth k (gbasis t tau) db = lbasis t tau k.
Proof. intros H. unfold gbasis. rewrite (nth_indep _ db (lbasis t tau 0)) by (rewrite map_length, seq_length; exact H). rewrite map_nth. now rewrite seq_nth. Qed.
Lemma bigD_rows t tau order : Bounds t -> Nodes order tau -> let D := bigD (ivals t * order + 1) (gbasis t tau) in
  nr D = (ivals t * order + 1)%nat /\ nc D = (ivals t * order + 1)%nat /\
  forall i j c, (i < ivals t)%nat -> (j < order)%nat ->
    at_m D (i * order + j) c = if ((i * order <=? c) && (c <? i * order + (order + 1)))%nat then at_m (b_D (lbasis t tau i)) j (c - i * order) else 0.
Proof.
  intros HB HN D. pose proof (gbasis_square t tau order HB HN) as HS. set (n := (ivals t * order + 1)%nat) in *. unfold bigD in D. destruct (fold_left big_step (gbasis t tau) (mzeros n n, 0%nat)) as [m i'] eqn:E.
  destruct (big_fold order _ HS _ _ _ _ E) as (F1 & F2 & F3 & _). cbn [mzeros nr nc] in F1, F2. assert (Lg : length (gbasis t tau) = ivals t) by (unfold gbasis; now rewrite map_length, seq_length).
  assert (K : nr D = nr m /\ nc D = nc m /\ forall r c, (r < n - 1)%nat -> at_m D r c = at_m m r c).
  { unfold D. destruct (rev (gbasis t tau)) as [|b r]; [auto|]. cbn [mput nr nc at_m]. split; [reflexivity|]. split; [reflexivity|]. intros a c Ha. destruct (Nat.leb_spec (n - 1) a); [lia|reflexivity]. }
  destruct K as (K1 & K2 & K3). split; [congruence|]. split; [congruence|]. intros i j c Hi Hj. rewrite K3 by (unfold n; assert ((i + 1) * order <= ivals t * order)%nat by (apply Nat.mul_le_mono_r; lia); lia).
  rewrite <- (gbasis_nth t tau i Hi). specialize (F3 i j c ltac:(lia) Hj). rewrite Nat.add_0_l in F3. exact F3.
Qed.

(** ** Derivative *)
Section Built.
Context (colpts : nat -> string -> res (list R)) (t : list R) (order : nat) (ptype : string) (tau : list R) (p : pdq R).
Context (HB : Bounds t) (Ho : (1 <= order)%nat) (Ec : colpts order ptype = Ok tau) (HN : Nodes order tau) (Ep : pdq_ colpts t order ptype = Ok p).

Lemma built_pts : Grid t tau order (pq_pts p).
Proof. destruct (Pdq_fields colpts t order ptype tau p HB Ec HN Ep) as (_ & -> & _). now apply gpts_grid. Qed.
Lemma built_ivals : (1 <= ivals t)%nat.
Proof. destruct HB; unfold ivals; lia. Qed.
Lemma block_le i : (i < ivals t)%nat -> (i * order + order <= ivals t * order)%nat.
Proof. intros Hi. assert ((i + 1) * order <= ivals t * order)%nat by (apply Nat.mul_le_mono_r; lia). lia. Qed.
Lemma derivative_blocks y : nc y = (ivals t * order + 1)%nat ->
  exists M, pq_derivative p y = Ok M /\ nr M = nr y /\ nc M = (ivals t * order)%nat /\
    forall r i j, (i < ivals t)%nat -> (j < order)%nat ->
      at_m M r (i * order + j) = Sum (order + 1) (fun c => at_m (b_D (lbasis t tau i)) j c * at_m y r (i * order + c)).
Proof.
  intros Hy. destruct (Pdq_fields colpts t order ptype tau p HB Ec HN Ep) as (_ & F2 & _ & _ & _ & F6). pose proof built_pts as HG. rewrite F2 in HG. destruct HG as [HG _]. rewrite HG in F6. destruct (bigD_rows t tau order HB HN) as (D1 & D2 & D3). rewrite <- F6 in D1, D2, D3.
  pose proof built_ivals as HI. assert (H2 : (1 <= ivals t * order)%nat) by nia. unfold pq_derivative, cs_mtimes. cbn [mtr mrows nr nc]. rewrite D1, D2, Hy.
  replace (ivals t * order + 1 =? 1)%nat with false by (symmetry; apply Nat.eqb_neq; lia). rewrite andb_false_r. cbn [andb]. unfold mdot. cbn [mtr mrows nr nc at_m]. rewrite D2, Hy, Nat.eqb_refl.
  eexists. split; [reflexivity|]. cbn [nr nc at_m]. split; [reflexivity|]. split; [lia|]. intros r i j Hi Hj. rewrite nsum_Sum. pose proof (block_le i Hi) as HL. rewrite (Sum_block _ (i * order) (order + 1)).
  - apply Sum_ext. intros c Hc. rewrite Nat.add_0_l, D3 by assumption. replace (i * order <=? i * order + c)%nat with true by (symmetry; apply Nat.leb_le; lia). replace (i * order + c <? i * order + (order + 1))%nat with true by (symmetry; apply Nat.ltb_lt; lia). cbn [andb]. replace (i * order + c - i * order)%nat with c by lia. rnum. ring.
  - lia.
  - intros k Hk Hout. rewrite Nat.add_0_l, D3 by assumption. destruct (Nat.leb_spec (i * order) k); [|rnum; simpl; ring]. destruct (Nat.ltb_spec k (i * order + (order + 1))); [lia|rnum; simpl; ring].
Qed.
(** C56: values of polynomials [f i] of degree at most [order] on the intervals that fit
    together at the points. *)
Theorem derivative_exact (y : mat R) (f : nat -> nat -> R -> R) : node tau order = 1 -> nc y = (ivals t * order + 1)%nat ->
  (forall i r, (i < ivals t)%nat -> (r < nr y)%nat -> PolyLt (order + 1) (f i r)) ->
  (forall i r j, (i < ivals t)%nat -> (r < nr y)%nat -> (j <= order)%nat -> at_m y r (i * order + j) = f i r (node (pq_pts p) (i * order + j))) ->
  exists M, pq_derivative p y = Ok M /\ nr M = nr y /\ nc M = (ivals t * order)%nat /\
    forall i r j, (i < ivals t)%nat -> (r < nr y)%nat -> (j < order)%nat -> is_derive (f i r) (node (pq_pts p) (i * order + j)) (at_m M r (i * order + j)).
Proof.
  intros N1 Hy Hf Hv. destruct (derivative_blocks y Hy) as (M & EM & M1 & M2 & HM). exists M. split; [exact EM|]. split; [exact M1|]. split; [exact M2|]. intros i r j Hi Hr Hj.
  destruct (grid_bounds t tau order _ HB Ho HN N1 built_pts) as (_ & B2 & _). rewrite HM by assumption. assert (L : length tau = (order + 1)%nat) by apply HN.
  destruct (differentiation_matrix _ _ (lbasis_ok t tau i (Nodes_nonempty _ _ HN)) (lbasis_nodup t tau i order HB Hi HN)) as (_ & _ & DE & _). rewrite lpts_len, L in DE. specialize (DE (f i r) j (Hf i r Hi Hr) ltac:(lia)).
  rewrite lpts_node in DE by lia. rewrite <- B2 in DE by (auto; lia).
  replace (Sum (order + 1) (fun c => at_m (b_D (lbasis t tau i)) j c * at_m y r (i * order + c))) with (Sum (order + 1) (fun k => at_m (b_D (lbasis t tau i)) j k * f i r (node (lpts t tau i) k))); [exact DE|].
  apply Sum_ext. intros c Hc. rewrite Hv by (auto; lia). rewrite B2 by (auto; lia). now rewrite lpts_node by lia.
Qed.

(** ** Integral *)
Lemma Dblock_nonsingular i : (i < ivals t)%nat -> Nonsingular (mblock (b_D (lbasis t tau i)) order 1 (order + 1)).
Proof.
  intros Hi. unfold Nonsingular, mblock. cbn [mrows mcols nr nc at_m]. split; [lia|]. replace (order + 1 - 1)%nat with order by lia. intros s Hs k Hk. assert (L : length (lpts t tau i) = (order + 1)%nat) by (rewrite lpts_len; apply HN).
  pose proof (lbasis_nodup t tau i order HB Hi HN) as HD. set (x := lpts t tau i) in *.
  set (v := fun k => match k with O => 0 | S k' => s k' end). set (f := fun z => Sum (order + 1) (fun j => v j * polyval (lagrange x j) z)).
  assert (Pf : PolyLt (S order) f). { replace (S order) with (order + 1)%nat by lia. apply (PolyLt_Sum _ _ (fun j z => v j * polyval (lagrange x j) z)). intros j Hj. apply PolyLt_scal. rewrite <- L. apply lagrange_poly. lia. }
  assert (Vf : forall j, (j < order + 1)%nat -> f (node x j) = v j).
  { intros j Hj. unfold f. rewrite (Sum_single _ j _ Hj); [rewrite lagrange_delta, Nat.eqb_refl by (auto; lia); ring|]. intros a Ha Hn. rewrite lagrange_delta by (auto; lia). destruct (Nat.eqb_spec a j); [contradiction|ring]. }
  destruct (PolyLt_derive order f Pf) as (g & Pg & Dg). destruct (differentiation_matrix _ _ (lbasis_ok t tau i (Nodes_nonempty _ _ HN)) HD) as (_ & _ & DE & _). fold x in DE. rewrite L in DE. replace (S order) with (order + 1)%nat in Pf by lia.
  assert (Zg : forall z, g z = 0).
  { apply (roots_zero (firstn order x) order g Pg).
    - now apply firstn_NoDup.
    - rewrite firstn_length. lia.
    - intros a Ha. apply (In_nth _ _ 0) in Ha. destruct Ha as (j & Hj & <-). rewrite firstn_length in Hj. assert (Ej : nth j (firstn order x) 0 = node x j).
      { rewrite <- (firstn_skipn order x) at 2. unfold node. rewrite app_nth1 by (rewrite firstn_length; lia). reflexivity. }
      rewrite Ej. specialize (DE f j Pf ltac:(lia)). pose proof (eq_trans (eq_sym (is_derive_unique _ _ _ (Dg (node x j)))) (is_derive_unique _ _ _ DE)) as E. rewrite E. replace (order + 1)%nat with (1 + order)%nat by lia. rewrite Sum_add. cbn [Sum]. rewrite (Vf 0%nat) by lia. cbn [v].
      pose proof (Hs j ltac:(lia)) as Hsj. rewrite (Sum_ext _ (fun k0 => at_m (b_D (lbasis t tau i)) j (1 + k0) * f (node x (1 + k0))) (fun k0 => at_m (b_D (lbasis t tau i)) (0 + j) (1 + k0) * s k0)); [rewrite Hsj; ring|]. intros a Ha. rewrite Vf by lia. reflexivity. }
  assert (C : forall a b, a < b -> f a = f b). { intros a b Hab. apply (eq_is_derive f a b); [|exact Hab]. intros z _. pose proof (Dg z) as K. rewrite Zg in K. exact K. }
  assert (Ha : node x 0 < node x (S k)) by (apply (lpts_asc t tau i HB Hi); [apply HN|rewrite L || (fold x; rewrite L); lia]). specialize (C _ _ Ha). rewrite !Vf in C by lia. cbn [v] in C. now symmetry.
Qed.
Lemma Dblock_solvable i B : (i < ivals t)%nat -> nr B = order -> exists S, Solution (mblock (b_D (lbasis t tau i)) order 1 (order + 1)) B S.
Proof.
  intros Hi HBr. unfold Solution, mblock. cbn [mrows mcols nr nc at_m]. replace (order + 1 - 1)%nat with order by lia. rewrite Nat.sub_0_r.
  assert (L : length (lpts t tau i) = (order + 1)%nat) by (rewrite lpts_len; apply HN). pose proof (lbasis_nodup t tau i order HB Hi HN) as HD. set (x := lpts t tau i) in *.
  destruct (differentiation_matrix _ _ (lbasis_ok t tau i (Nodes_nonempty _ _ HN)) HD) as (_ & _ & DE & _). fold x in DE. rewrite L in DE. set (x' := firstn order x).
  assert (L' : length x' = order) by (unfold x'; rewrite firstn_length; lia). assert (HD' : NoDup x') by now apply firstn_NoDup.
  assert (Nx : forall j, (j < order)%nat -> node x' j = node x j) by (intros j Hj; unfold x'; rewrite <- (firstn_skipn order x) at 2; unfold node; rewrite app_nth1 by (rewrite firstn_length; lia); reflexivity).
  assert (KF : forall c, exists F, PolyLt (order + 1) F /\ F (node x 0) = 0 /\ forall j, (j < order)%nat -> is_derive F (node x j) (at_m B j c)).
  { intros c. set (g := fun z => Sum order (fun j => at_m B j c * polyval (lagrange x' j) z)).
    assert (Pg : PolyLt order g). { apply (PolyLt_Sum _ _ (fun j z => at_m B j c * polyval (lagrange x' j) z)). intros j Hj. apply PolyLt_scal. rewrite <- L' at 1. apply lagrange_poly. lia. }
    destruct (PolyLt_int order g Pg) as (F & PF & _ & DF). exists (fun z => F z - F (node x 0)). split; [|split; [ring|]].
    - replace (order + 1)%nat with (S order) by lia. apply (PolyLt_minus (S order) F (fun _ => F (node x 0)) PF). apply (PolyLt_mon 1); [lia|apply PolyLt_const].
    - intros j Hj. assert (Eg : g (node x j) = at_m B j c). { rewrite <- Nx by exact Hj. unfold g. rewrite (Sum_single _ j _ Hj); [rewrite lagrange_delta, Nat.eqb_refl by (auto; lia); ring|]. intros a Ha Hn. rewrite lagrange_delta by (auto; lia). destruct (Nat.eqb_spec a j); [contradiction|ring]. }
      rewrite <- Eg. evar_last; [apply (is_derive_minus (V := R_NormedModule)); [apply DF|apply der_const]|]. unfold minus, plus, opp. simpl. ring. }
  assert (KS : exists S : nat -> nat -> R, forall c, (c < nc B)%nat -> forall j, (j < order)%nat -> Sum order (fun k => at_m (b_D (lbasis t tau i)) j (1 + k) * S k c) = at_m B j c).
  { generalize (nc B). induction n as [|n [S HS]]; [exists (fun _ _ => 0); lia|]. destruct (KF n) as (F & PF & F0 & DF). exists (fun k c => if Nat.eqb c n then F (node x (1 + k)) else S k c). intros c Hc j Hj. destruct (Nat.eqb_spec c n) as [->|].
    - pose proof (eq_trans (eq_sym (is_derive_unique _ _ _ (DE F j PF ltac:(lia)))) (is_derive_unique _ _ _ (DF j Hj))) as E. replace (order + 1)%nat with (1 + order)%nat in E by lia. rewrite Sum_add in E. cbn [Sum] in E. rewrite F0 in E. rewrite <- E. ring.
    - apply HS; lia. }
  destruct KS as [S HS]. exists (Mat order (nc B) S). cbn [nr nc at_m]. split; [reflexivity|]. split; [reflexivity|]. intros j c Hj Hc. rewrite Nat.add_0_l. now apply HS.
Qed.
(** What the loop computes for the bases of intervals [a, ..., a + n - 1]. *)
Lemma loop_spec solve dy : Solver solve -> forall n a y0 l, (a + n <= ivals t)%nat -> integral_loop solve dy (map (lbasis t tau) (seq a n)) (a * order) y0 = Ok l ->
  length l = n /\ forall k, (k < n)%nat -> nr (nth k l (mzeros 0 0)) = nr dy /\ nc (nth k l (mzeros 0 0)) = order /\
    forall r j, (r < nr dy)%nat -> (j < order)%nat ->
      Sum order (fun c => at_m (b_D (lbasis t tau (a + k))) j (c + 1) * (at_m (nth k l (mzeros 0 0)) r c - match k with O => y0 r | S k' => at_m (nth k' l (mzeros 0 0)) r (order - 1) end)) = at_m dy r ((a + k) * order + j).
Proof.
  intros HS. induction n as [|n IH]; intros a y0 l Ha E; [injection E as <-; split; [reflexivity|lia]|]. cbn [seq map integral_loop] in E. rewrite (lbasis_num t tau a order HN) in E. replace (order + 1 - 1)%nat with order in E by lia.
  destruct (a * order + order <=? nc dy)%nat; [|discriminate]. destruct (solve _ _) as [s|] eqn:Es; [|discriminate]. cbn [rbind] in E. match type of E with context [integral_loop solve dy _ _ ?y] => set (y1 := y) in * end.
  replace (a * order + order)%nat with (S a * order)%nat in E by lia. destruct (integral_loop solve dy (map (lbasis t tau) (seq (S a) n)) (S a * order) y1) as [rest|] eqn:Er; [|discriminate]. cbn [rbind] in E. injection E as <-. destruct (IH (S a) y1 rest ltac:(lia) Er) as [L H].
  destruct (HS _ _ _ Es) as (S1 & S2 & S3). unfold mblock in S1, S2, S3. cbn [mrows mcols mtr nr nc at_m] in S1, S2, S3. replace (order + 1 - 1)%nat with order in * by lia. replace (S a * order - a * order)%nat with order in * by lia.
  split; [simpl; lia|]. intros [|k] Hk.
  - cbn [nth nr nc at_m]. rewrite Nat.add_0_r. split; [exact S2|]. split; [exact S1|]. intros r j Hr Hj. specialize (S3 j r ltac:(lia) Hr). rewrite <- S3. apply Sum_ext. intros c Hc. rewrite Nat.add_0_l, (Nat.add_comm c 1). rnum. ring.
  - cbn [nth]. destruct (H k ltac:(lia)) as (H1 & H2 & H3). split; [exact H1|]. split; [exact H2|]. intros r j Hr Hj. replace (a + S k)%nat with (S a + k)%nat by lia. rewrite <- (H3 r j Hr Hj). apply Sum_ext. intros c Hc. destruct k; reflexivity.
Qed.
Lemma loop_total solve dy : Solver solve -> Complete solve -> nc dy = (ivals t * order)%nat -> forall n a y0, (a + n <= ivals t)%nat -> exists l, integral_loop solve dy (map (lbasis t tau) (seq a n)) (a * order) y0 = Ok l.
Proof.
  intros HS HC Hd. induction n as [|n IH]; intros a y0 Ha; [eexists; reflexivity|]. cbn [seq map integral_loop]. rewrite (lbasis_num t tau a order HN). replace (order + 1 - 1)%nat with order by lia.
  replace (a * order + order <=? nc dy)%nat with true by (symmetry; apply Nat.leb_le; rewrite Hd; apply block_le; lia). destruct (HC (mblock (b_D (lbasis t tau a)) order 1 (order + 1)) (mtr (mcols dy (a * order) (a * order + order)))) as [s ->].
  - apply Dblock_nonsingular. lia.
  - cbn [mblock mrows mcols mtr nr nc]. lia.
  - apply Dblock_solvable; [lia|]. cbn [mrows mcols mtr nr nc]. lia.
  - cbn [rbind]. match goal with |- context [integral_loop solve dy _ _ ?y] => destruct (IH (S a) y ltac:(lia)) as [l El] end. replace (a * order + order)%nat with (S a * order)%nat by lia. rewrite El. cbn [rbind]. eauto.
Qed.
Lemma D_row_sum i j : (i < ivals t)%nat -> (j <= order)%nat -> at_m (b_D (lbasis t tau i)) j 0 = - Sum order (fun c => at_m (b_D (lbasis t tau i)) j (c + 1)).
Proof.
  intros Hi Hj. destruct (differentiation_matrix _ _ (lbasis_ok t tau i (Nodes_nonempty _ _ HN)) (lbasis_nodup t tau i order HB Hi HN)) as (_ & _ & _ & DR). rewrite lpts_len in DR. assert (L : length tau = (order + 1)%nat) by apply HN. rewrite L in DR. specialize (DR j ltac:(lia)).
  replace (order + 1)%nat with (1 + order)%nat in DR by lia. rewrite Sum_add in DR. cbn [Sum] in DR. rewrite (Sum_ext order (fun c => at_m (b_D (lbasis t tau i)) j (c + 1)) (fun k => at_m (b_D (lbasis t tau i)) j (1 + k))); [lra|]. intros; f_equal; lia.
Qed.
(** In a block only differences to its first value matter. *)
Lemma block_diff i j (z : nat -> R) : (i < ivals t)%nat -> (j <= order)%nat ->
  Sum (order + 1) (fun c => at_m (b_D (lbasis t tau i)) j c * z c) = Sum order (fun c => at_m (b_D (lbasis t tau i)) j (c + 1) * (z (c + 1)%nat - z 0%nat)).
Proof.
  intros Hi Hj. replace (order + 1)%nat with (1 + order)%nat by lia. rewrite Sum_add. cbn [Sum]. rewrite (D_row_sum i j Hi Hj). rewrite (Sum_ext order (fun c => at_m (b_D (lbasis t tau i)) j (c + 1) * (z (c + 1)%nat - z 0%nat)) (fun c => at_m (b_D (lbasis t tau i)) j (1 + c) * z (1 + c)%nat + (- z 0%nat) * at_m (b_D (lbasis t tau i)) j (c + 1))).
  - rewrite Sum_plus, Sum_scal. ring.
  - intros c Hc. rewrite (Nat.add_comm 1 c). ring.
Qed.
Theorem integral_spec solve dy Y : Solver solve -> nc dy = (ivals t * order)%nat -> pq_integral solve p dy = Ok Y ->
  nr Y = nr dy /\ nc Y = (ivals t * order)%nat /\ exists M, pq_derivative p (with_zero Y) = Ok M /\ MatEq M dy.
Proof.
  intros HS Hd EY. unfold pq_integral in EY. destruct (Pdq_fields colpts t order ptype tau p HB Ec HN Ep) as (F1 & _). rewrite F1 in EY. destruct (integral_loop _ _ _ _ _) as [l|] eqn:El; [|discriminate]. cbn [rbind] in EY. unfold gbasis in El.
  destruct (loop_spec solve dy HS (ivals t) 0 (fun _ => n0) l (le_n _) El) as [Ll Hl]. pose proof built_ivals as HI.
  assert (HB' : forall b, In b l -> nr b = nr dy /\ nc b = order). { intros b Hb. apply (In_nth _ _ (mzeros 0 0)) in Hb. destruct Hb as (k & Hk & <-). destruct (Hl k ltac:(lia)) as (H1 & H2 & _). auto. }
  destruct (hstack_spec (nr dy) l) as (Y' & EY' & Y1 & Y2 & Y3); [intros ->; simpl in Ll; lia|intros b Hb; now apply HB'|]. rewrite EY in EY'. injection EY' as <-.
  assert (W : map nc l = repeat order (ivals t)). { rewrite <- Ll. clear - HB'. induction l as [|b l IH]; [reflexivity|]. simpl. rewrite (proj2 (HB' b (or_introl eq_refl))). f_equal. apply IH. intros; apply HB'; now right. }
  assert (Of : forall k, (k <= ivals t)%nat -> offset (map nc l) k = (k * order)%nat). { rewrite W. unfold offset. clear. induction (ivals t) as [|n IH]; intros k Hk; [assert (k = 0)%nat by lia; subst; reflexivity|]. destruct k; [reflexivity|]. simpl. rewrite IH by lia. lia. }
  assert (NY : nc Y = (ivals t * order)%nat). { rewrite Y2, W. clear. induction (ivals t) as [|n IH]; [reflexivity|]. simpl. rewrite IH. lia. }
  split; [exact Y1|]. split; [exact NY|]. assert (YV : forall k r c, (k < ivals t)%nat -> (c < order)%nat -> at_m Y r (k * order + c) = at_m (nth k l (mzeros 0 0)) r c).
  { intros k r c Hk Hc. rewrite <- (Of k) by lia. apply Y3; [apply nth_error_nth'; lia|]. destruct (Hl k Hk) as (_ & -> & _). exact Hc. }
  destruct (derivative_blocks (with_zero Y)) as (M & EM & M1 & M2 & HM); [cbn [with_zero nc]; lia|]. exists M. split; [exact EM|]. cbn [with_zero nr] in M1. split; [lia|]. split; [lia|]. intros r k Hr Hk. rewrite M2 in Hk.
  destruct (split_index (ivals t) order k Ho Hk) as (i & j & Hi & Hj & ->). rewrite HM by assumption. rewrite block_diff by lia. destruct (Hl i Hi) as (_ & _ & H3). rewrite Nat.add_0_l in H3. rewrite <- (H3 r j ltac:(lia) Hj). apply Sum_ext. intros c Hc. f_equal. cbn [with_zero at_m].
  replace (i * order + (c + 1))%nat with (S (i * order + c)) by lia. rewrite YV by assumption. f_equal. rewrite Nat.add_0_r. destruct i as [|i]; [reflexivity|]. replace (S i * order)%nat with (S (i * order + (order - 1))) by lia. apply YV; lia.
Qed.
(** ... and it is the only solution that starts at 0. *)
Lemma derivative_injective Z1 Z2 M1 M2 : nc Z1 = (ivals t * order + 1)%nat -> nc Z2 = (ivals t * order + 1)%nat -> nr Z1 = nr Z2 ->
  pq_derivative p Z1 = Ok M1 -> pq_derivative p Z2 = Ok M2 -> MatEq M1 M2 -> (forall r, (r < nr Z1)%nat -> at_m Z1 r 0 = at_m Z2 r 0) -> MatEq Z1 Z2.
Proof.
  intros C1 C2 R12 E1 E2 (Q1 & Q2 & Q3) H0. destruct (derivative_blocks Z1 C1) as (M1' & E1' & A1 & A2 & A3). rewrite E1 in E1'. injection E1' as <-. destruct (derivative_blocks Z2 C2) as (M2' & E2' & B1 & B2 & B3). rewrite E2 in E2'. injection E2' as <-.
  split; [exact R12|]. split; [congruence|]. assert (K : forall r, (r < nr Z1)%nat -> forall i, (i <= ivals t)%nat -> at_m Z1 r (i * order) = at_m Z2 r (i * order) /\ ((i < ivals t)%nat -> forall j, (j <= order)%nat -> at_m Z1 r (i * order + j) = at_m Z2 r (i * order + j))).
  { intros r Hr. assert (Step : forall i, (i < ivals t)%nat -> at_m Z1 r (i * order) = at_m Z2 r (i * order) -> forall j, (j <= order)%nat -> at_m Z1 r (i * order + j) = at_m Z2 r (i * order + j)).
    { intros i Hi E j Hj. destruct j as [|j]; [now rewrite Nat.add_0_r|]. destruct (Dblock_nonsingular i Hi) as [_ NS]. unfold mblock in NS. cbn [mrows mcols nr nc at_m] in NS. rewrite Nat.sub_0_r in NS. replace (order + 1 - 1)%nat with order in NS by lia.
      pose proof (NS (fun c => (at_m Z1 r (i * order + (c + 1)) - at_m Z1 r (i * order)) - (at_m Z2 r (i * order + (c + 1)) - at_m Z2 r (i * order)))) as NS'. assert (Hz : at_m Z1 r (i * order + (j + 1)) - at_m Z1 r (i * order) - (at_m Z2 r (i * order + (j + 1)) - at_m Z2 r (i * order)) = 0).
      { apply NS'; [|lia]. intros a Ha. pose proof (block_le i Hi). specialize (Q3 r (i * order + a)%nat ltac:(lia) ltac:(lia)). rewrite A3, B3 in Q3 by assumption. rewrite !block_diff in Q3 by lia. rewrite !Nat.add_0_r in Q3.
        rewrite (Sum_ext order _ (fun c => at_m (b_D (lbasis t tau i)) a (c + 1) * (at_m Z1 r (i * order + (c + 1)) - at_m Z1 r (i * order)) + (-1) * (at_m (b_D (lbasis t tau i)) a (c + 1) * (at_m Z2 r (i * order + (c + 1)) - at_m Z2 r (i * order))))).
        - rewrite Sum_plus, Sum_scal, Q3. ring.
        - intros c Hc. rewrite Nat.add_0_l, (Nat.add_comm 1 c). ring. }
      replace (S j) with (j + 1)%nat by lia. lra. }
    induction i as [|i IH]; intros Hi.
    - rewrite Nat.mul_0_l. split; [now apply H0|]. intros Hi'. apply (Step 0%nat Hi'). rewrite Nat.mul_0_l. now apply H0.
    - destruct (IH ltac:(lia)) as [_ IH2]. assert (E : at_m Z1 r (S i * order) = at_m Z2 r (S i * order)) by (replace (S i * order)%nat with (i * order + order)%nat by lia; apply IH2; lia). split; [exact E|]. intros Hi'. now apply Step. }
  intros r k Hr Hk. rewrite C1 in Hk. destruct (Nat.eq_dec k (ivals t * order)) as [->|]; [apply (K r Hr (ivals t) (le_n _))|]. destruct (split_index (ivals t) order k Ho ltac:(lia)) as (i & j & Hi & Hj & ->). apply (K r Hr i); lia.
Qed.
Theorem integral_unique solve dy Y Z M : Solver solve -> nc dy = (ivals t * order)%nat -> pq_integral solve p dy = Ok Y ->
  nr Z = nr dy -> nc Z = (ivals t * order)%nat -> pq_derivative p (with_zero Z) = Ok M -> MatEq M dy -> MatEq Z Y.
Proof.
  intros HS Hd EY ZR ZC EZ HM. destruct (integral_spec solve dy Y HS Hd EY) as (Y1 & Y2 & M' & EM' & Q). assert (H : MatEq (with_zero Z) (with_zero Y)).
  { apply (derivative_injective _ _ M M'); cbn [with_zero nr nc at_m]; auto; try lia. destruct HM as (a1 & a2 & a3), Q as (b1 & b2 & b3). split; [congruence|]. split; [congruence|]. intros i j Hi Hj. rewrite a3, b3 by congruence. reflexivity. }
  destruct H as (_ & _ & H). split; [congruence|]. split; [congruence|]. intros r k Hr Hk. specialize (H r (S k)). cbn [with_zero nr nc at_m] in H. apply H; lia.
Qed.
Theorem integral_total solve dy : Solver solve -> Complete solve -> nc dy = (ivals t * order)%nat -> exists Y, pq_integral solve p dy = Ok Y.
Proof.
  intros HS HC Hd. unfold pq_integral. destruct (Pdq_fields colpts t order ptype tau p HB Ec HN Ep) as (-> & _). unfold gbasis. destruct (loop_total solve dy HS HC Hd (ivals t) 0 (fun _ => n0) (le_n _)) as [l El]. rewrite Nat.mul_0_l in El. rewrite El. cbn [rbind].
  destruct (loop_spec solve dy HS (ivals t) 0 (fun _ => n0) l (le_n _) El) as [Ll Hl]. pose proof built_ivals as HI. destruct (hstack_spec (nr dy) l) as (Y & EY & _); [intros ->; simpl in Ll; lia| |exists Y; exact EY]. intros b Hb. apply (In_nth _ _ (mzeros 0 0)) in Hb. destruct Hb as (k & Hk & <-). apply Hl. lia.
Qed.

(** ** expandInput *)
Theorem expand_spec u : nc u = ivals t ->
  exists M, pq_expand p u = Ok M /\ nr M = nr u /\ nc M = (ivals t * order)%nat /\ forall r i j, (i < ivals t)%nat -> (j < order)%nat -> at_m M r (i * order + j) = at_m u r i.
Proof.
  intros Hu. destruct (Pdq_fields colpts t order ptype tau p HB Ec HN Ep) as (_ & _ & F3 & F4 & _). unfold pq_expand, pq_num. rewrite F4. fold (ivals t). rewrite Hu, Nat.eqb_refl. cbn [rassert rbind]. pose proof built_ivals as HI.
  set (blk := fun k => Mat (nr u) order (fun i (_ : nat) => at_m u i k)). rewrite (rmapM_map _ blk).
  - cbn [rbind]. destruct (hstack_spec (nr u) (map blk (seq 0 (ivals t)))) as (M & EM & M1 & M2 & M3).
    + replace (ivals t) with (S (ivals t - 1)) by lia. discriminate.
    + intros b Hb. apply in_map_iff in Hb. destruct Hb as (k & <- & _). reflexivity.
    + assert (W : map nc (map blk (seq 0 (ivals t))) = repeat order (ivals t)). { rewrite map_map. cbn [blk nc]. clear. generalize 0%nat. induction (ivals t) as [|n IH]; intros a; [reflexivity|]. simpl. now rewrite IH. }
      exists M. split; [exact EM|]. split; [exact M1|]. rewrite W in *. split; [rewrite M2; clear; induction (ivals t) as [|n IH]; [reflexivity|]; simpl; rewrite IH; lia|]. intros r i j Hi Hj.
      assert (Of : offset (repeat order (ivals t)) i = (i * order)%nat). { unfold offset. clear - Hi. revert i Hi. induction (ivals t) as [|n IH]; intros k Hk; [lia|]. destruct k; [reflexivity|]. simpl. rewrite IH by lia. lia. }
      rewrite <- Of. rewrite (M3 i (blk i)); [reflexivity| |exact Hj]. rewrite nth_error_map. rewrite (nth_error_nth' _ 0%nat) by (rewrite seq_length; exact Hi). now rewrite seq_nth.
  - intros k Hk. apply in_seq in Hk. rewrite F3. unfold lget. rewrite nth_error_map. rewrite (nth_error_nth' _ 0%nat) by (rewrite seq_length; lia). rewrite seq_nth by lia. cbn [option_map rbind]. rewrite seq_length. unfold blk. do 2 f_equal. lia.
Qed.
Theorem expand_wrong u : nc u <> ivals t -> pq_expand p u = Err EAssert.
Proof.
  intros Hu. destruct (Pdq_fields colpts t order ptype tau p HB Ec HN Ep) as (_ & _ & F3 & F4 & _). unfold pq_expand, pq_num. rewrite F4. fold (ivals t). destruct (Nat.eqb_spec (nc u) (ivals t)); [contradiction|reflexivity].
Qed.
End Built.
