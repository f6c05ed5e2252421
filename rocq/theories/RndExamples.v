(** Examples for the accuracy in binary64 (C105), and queries that are too close to a node. *)
From Coq Require Import Reals Lra Lia.
From Coq Require Import Floats.SpecFloat.
From Coquelicot Require Import Coquelicot.
From Flocq Require Import Core.
From Verif Require Import PyBase NumModel NumInst PolynomialModel PiecewiseModel PolySpec PolyMath F64Spec F64Thms F64Thms2 F64Thms3 F64Examples RndSpec RndThms RndThms2 RndThms3 RndThms4.
Open Scope list_scope. Open Scope nat_scope. Open Scope R_scope.
#[local] Existing Instance numF.

(** Nodes 0, 1/2, 1 *)
Definition t3 : list f64 := [n0; fq 1 2; n1].
Definition L3 (k : nat) (x : R) : R := match k with 0%nat => (2 * x - 1) * (x - 1) | 1%nat => 4 * x * (1 - x) | _ => x * (2 * x - 1) end.
Ltac fv := cbv -[Rplus Rminus Rmult Rdiv Rinv Rle Rlt Ropp Rabs IZR not]; try lra.
Lemma v_0 : val n0 = 0. Proof. reflexivity. Qed.
Lemma v_half : val (fq 1 2) = / 2. Proof. assert (E : fq 1 2 = S754_finite false 4503599627370496 (-53)) by dec. rewrite E. fv. Qed.
Lemma v_1 : val n1 = 1. Proof. fv. Qed.
Lemma v_tenth : val (fq 1 10) = 3602879701896397 / 36028797018963968. Proof. assert (E : fq 1 10 = S754_finite false 7205759403792794 (-56)) by dec. rewrite E. fv. Qed.
Lemma t3_val : map val t3 = [0; / 2; 1]. Proof. unfold t3. cbn [map]. now rewrite v_0, v_half, v_1. Qed.
Lemma t3_node : node (map val t3) 0 = 0 /\ node (map val t3) 1 = / 2 /\ node (map val t3) 2 = 1. Proof. rewrite t3_val. repeat split. Qed.
Lemma apart_intro b x y : / 2 ^ b <= x - y <= 2 ^ b \/ / 2 ^ b <= y - x <= 2 ^ b -> Apart b x y.
Proof. intros [H|H]; unfold Apart; [rewrite Rabs_pos_eq|rewrite Rabs_minus_sym, Rabs_pos_eq]; pose proof (Rinv_0_lt_compat _ (p2_pos b)); lra. Qed.
Lemma t3_spread : Spread 4 t3.
Proof.
  split; [apply finall_ok; dec|]. intros i j Hi Hj N. cbn in Hi, Hj. apply apart_intro.
  destruct i as [|[|[|]]]; [| | |lia]; (destruct j as [|[|[|]]]; [| | |lia]); try lia; cbn [fnode nth t3]; rewrite ?v_0, ?v_half, ?v_1; lra.
Qed.
Lemma t3_card : Cardinals (map val t3) L3.
Proof.
  intros k Hk. rewrite map_length in Hk. rewrite t3_val. split.
  - destruct k as [|[|[|]]]; [exists [1; -3; 2]|exists [0; 4; -4]|exists [0; -1; 2]|cbn in Hk; lia]; (split; [cbn; lia|]; intros t; cbn [peval L3]; ring).
  - intros j Hj. cbn in Hj. destruct k as [|[|[|]]]; [| | |cbn in Hk; lia]; (destruct j as [|[|[|]]]; [| | |lia]); cbn [node nth L3 Nat.eqb]; lra.
Qed.
Lemma L3_le x k : 0 <= x <= 1 -> Rabs (L3 k x) <= 1.
Proof. intros H. apply Rabs_le. pose proof (Rle_0_sqr (2 * x - 1)) as S1. pose proof (Rle_0_sqr (x - 3 / 4)) as S2. pose proof (Rle_0_sqr (x - 1 / 4)) as S3. unfold Rsqr in *. destruct k as [|[|]]; cbn [L3]; nra. Qed.
Lemma Leb3 x : 0 <= x <= 1 -> Leb 3 L3 x <= 3.
Proof. intros H. unfold Leb. cbn [Sum]. pose proof (L3_le x 0 H). pose proof (L3_le x 1 H). pose proof (L3_le x 2 H). lra. Qed.
Lemma rate3 : rate 3 = 24 * uro. Proof. unfold rate. rewrite (INR_IZR_INZ 3). simpl. lra. Qed.
Lemma uro_val : uro = / 9007199254740992. Proof. unfold uro. f_equal. simpl. lra. Qed.
Lemma well3 x : 0 <= x <= 1 -> rate (length t3) * Leb (length t3) L3 x <= / 2.
Proof. intros H. change (length t3) with 3%nat. pose proof (Leb3 x H). rewrite rate3, uro_val. lra. Qed.
Lemma tenth_query : Query 4 t3 (fq 1 10).
Proof.
  split; [apply finb_ok; dec|]. right. intros k Hk. cbn in Hk. apply apart_intro. rewrite v_tenth.
  destruct k as [|[|[|]]]; [| | |lia]; cbn [fnode nth t3]; rewrite ?v_0, ?v_half, ?v_1; lra.
Qed.
Lemma quarter_query : Query 4 t3 (fq 1 4).
Proof.
  assert (V : val (fq 1 4) = / 4) by (assert (E : fq 1 4 = S754_finite false 4503599627370496 (-54)) by dec; rewrite E; fv).
  split; [apply finb_ok; dec|]. right. intros k Hk. cbn in Hk. apply apart_intro. rewrite V.
  destruct k as [|[|[|]]]; [| | |lia]; cbn [fnode nth t3]; rewrite ?v_0, ?v_half, ?v_1; lra.
Qed.
(** Values of the square *)
Definition sq3 : mat f64 := Mat 1 3 (fun _ j => match j with 0%nat => n0 | 1%nat => fq 1 4 | _ => n1 end).
Definition sq (x : R) : R := x * x.
Lemma v_quarter : val (fq 1 4) = / 4. Proof. assert (E : fq 1 4 = S754_finite false 4503599627370496 (-54)) by dec. rewrite E. fv. Qed.
Lemma sq3_mod : Moderate sq3.
Proof.
  intros i j Hi Hj. cbn in Hi, Hj. assert (i = 0)%nat by lia. subst i. pose proof (p2_ge1 300).
  destruct j as [|[|[|]]]; [| | |lia]; cbn [at_m sq3]; (split; [apply finb_ok; dec|]); rewrite ?v_0, ?v_quarter, ?v_1, Rabs_pos_eq; lra.
Qed.
Lemma sq_poly : PolyLt (length t3) sq. Proof. exists [0; 0; 1]. split; [cbn; lia|]. intros t. cbn [peval]. unfold sq. ring. Qed.
Lemma sq_vals i j : (j < length t3)%nat -> sq (node (map val t3) j) = val (at_m sq3 i j).
Proof. intros Hj. rewrite t3_val. cbn in Hj. destruct j as [|[|[|]]]; [| | |lia]; cbn [at_m sq3 node nth]; rewrite ?v_0, ?v_quarter, ?v_1; unfold sq; lra. Qed.
Lemma sq_bound x : 0 <= x <= 1 -> err_bound (map val t3) L3 sq x <= / 2 ^ 44.
Proof.
  intros H. unfold err_bound, cond. rewrite t3_val. cbn [length]. rewrite rate3. cbn [Sum node nth]. pose proof (L3_le x 0 H) as A0. pose proof (L3_le x 1 H) as A1. pose proof (L3_le x 2 H) as A2.
  assert (B : Leb 3 L3 x * Rabs (sq x) <= 3 * 1). { pose proof (Leb3 x H). apply Rmult_le_compat; try assumption; [unfold Leb; cbn [Sum]; pose proof (Rabs_pos (L3 0 x)); pose proof (Rabs_pos (L3 1 x)); pose proof (Rabs_pos (L3 2 x)); lra|apply Rabs_pos|unfold sq; rewrite Rabs_pos_eq; nra]. }
  unfold sq at 1 2 3. rewrite (Rabs_pos_eq (0 * 0)), (Rabs_pos_eq (/ 2 * / 2)), (Rabs_pos_eq (1 * 1)) by lra.
  assert (T : INR 3 * / 2 ^ 1074 <= 3 * / 2 ^ 60). { rewrite (INR_IZR_INZ 3). apply Rmult_le_compat_l; [simpl; lra|apply p2_inv_le; lia]. }
  rewrite uro_val. set (z := INR 3 * / 2 ^ 1074) in *. clearbody z. pose proof (Rabs_pos (L3 0 x)). pose proof (Rabs_pos (L3 1 x)). lra.
Qed.
Definition b3 : basis f64 := match basis_ (PVec t3) with Ok b => b | Err _ => Basis [] no_mat [] [] end.
Lemma b3_ok : basis_ (PVec t3) = Ok b3. Proof. reflexivity. Qed.
(** 0.1 * 0.1 by interpolation, up to [2^-44]; the matrix has the values of the cardinal
    polynomials. *)
Example ex_interpolator : exists Y, bary_interpolator (PVec t3) sq3 (PVec [fq 1 10; n1]) = Ok Y /\ Finite (at_m Y 0 0) /\ Rabs (val (at_m Y 0 0) - sq (val (fq 1 10))) <= / 2 ^ 44.
Proof.
  destruct (interpolator_accuracy t3 4 L3 sq3 [fq 1 10; n1] t3_spread ltac:(lia) ltac:(cbn; lia) t3_card ltac:(discriminate) ltac:(discriminate) eq_refl sq3_mod) as (Y & E & _ & _ & H).
  - intros x [<-|[<-|[]]].
    + split; [exact tenth_query|]. apply well3. rewrite v_tenth. lra.
    + split; [split; [apply finb_ok; dec|]; left; exists 2%nat; split; [cbn; lia|reflexivity]|]. apply well3. rewrite v_1. lra.
  - exists Y. split; [exact E|]. destruct (H 0%nat 0%nat sq) as [F B]; [cbn; lia|cbn; lia|exact sq_poly|intros j Hj; now apply (sq_vals 0)|]. split; [exact F|]. eapply Rle_trans; [exact B|]. apply sq_bound. cbn [fnode nth]. rewrite v_tenth. lra.
Qed.
Example ex_matrix : exists M, interp_matrix b3 (PVec [fq 1 10]) = Ok M /\ Rabs (val (at_m M 0 1) - L3 1 (val (fq 1 10))) <= / 2 ^ 44.
Proof.
  destruct (matrix_accuracy t3 4 t3_spread ltac:(lia) ltac:(cbn; lia) b3 b3_ok L3 t3_card [fq 1 10]) as (M & E & _ & _ & H).
  - intros x [<-|[]]. split; [exact tenth_query|]. apply well3. rewrite v_tenth. lra.
  - discriminate.
  - exists M. split; [exact E|]. destruct (H 0%nat 1%nat) as [_ B]; [cbn; lia|cbn; lia|]. eapply Rle_trans; [exact B|]. change (fnode [fq 1 10] 0) with (fq 1 10). change (length t3) with 3%nat. rewrite v_tenth, rate3, uro_val.
    match goal with |- _ * Leb 3 L3 ?x * _ <= _ => assert (X : 0 <= x <= 1) by lra; pose proof (Leb3 x X) as A; pose proof (L3_le x 1 X) as A1; pose proof (Rabs_pos (L3 1 x)); set (l := Leb 3 L3 x) in *; set (a := Rabs (L3 1 x)) in *; clearbody l a end.
    assert (l * a <= 3 * 1 \/ l < 0) as [|]; [destruct (Rlt_dec l 0); [now right|left; apply Rmult_le_compat; lra]|simpl; nra|simpl; nra].
Qed.
Lemma L3_der k x : is_derive (L3 k) x (match k with 0%nat => 4 * x - 3 | 1%nat => 4 - 8 * x | _ => 4 * x - 1 end).
Proof. destruct k as [|[|]]; unfold L3; auto_derive; auto; ring. Qed.
(** The derivative matrix at node 1/2 *)
Example ex_diff : nr (b_D b3) = 3%nat /\ Rabs (val (at_m (b_D b3) 1 0) - -1) <= / 2 ^ 40 /\ Rabs (val (at_m (b_D b3) 1 1) - 0) <= / 2 ^ 40 /\ Rabs (val (at_m (b_D b3) 1 2) - 1) <= / 2 ^ 40.
Proof.
  destruct (diff_accuracy t3 4 t3_spread ltac:(lia) ltac:(cbn; lia) b3 b3_ok L3 t3_card) as (N & _ & H). split; [exact N|]. destruct t3_node as (_ & N1 & _).
  destruct (H 1%nat (fun k => match k with 0%nat => -1 | 1%nat => 0 | _ => 1 end)) as (_ & O & G); [cbn; lia| |].
  - intros k _. rewrite N1. pose proof (L3_der k (/ 2)) as D. destruct k as [|[|]]; (match type of D with is_derive _ _ ?a => match goal with |- is_derive _ _ ?b => replace b with a by lra end end; exact D).
  - change (length t3) with 3%nat in O, G. pose proof (O 0%nat ltac:(lia) ltac:(lia)) as O0. pose proof (O 2%nat ltac:(lia) ltac:(lia)) as O2. clear O H N. unfold SumBut in G. cbn [Sum Nat.eqb] in G.
    generalize dependent (val (at_m (b_D b3) 1 0)). generalize dependent (val (at_m (b_D b3) 1 1)). generalize dependent (val (at_m (b_D b3) 1 2)). intros x O2 y G z O0.
    assert (R1 : Rabs (-1) = 1) by (rewrite Rabs_left; lra). rewrite R1, uro_val, (INR_IZR_INZ 3) in *. rewrite Rabs_R1 in *. simpl IZR in *. simpl pow. split; [lra|]. split; lra.
Qed.
(** The square on [0, 0.4], in local time: at 0.1, and its derivative *)
Definition p3 : ppoly f64 := PPoly [n0; fq 4 10] [sq3] b3.
Lemma v_four : val (fq 4 10) = 3602879701896397 / 9007199254740992. Proof. assert (E : fq 4 10 = S754_finite false 7205759403792794 (-54)) by dec. rewrite E. fv. Qed.
Lemma p3_asc : AscF (pp_t p3). Proof. apply asc_ok; dec. Qed.
Lemma p3_steps : StepsF (pp_t p3). Proof. apply steps_ok; dec. Qed.
Example ex_call : exists Y, pp_call p3 (PNum (fq 1 10)) "right" = Ok Y /\ Finite (at_m Y 0 0) /\ Rabs (val (at_m Y 0 0) - sq (val (fq 1 10) / val (fq 4 10))) <= / 2 ^ 43.
Proof.
  assert (E4 : local_time (pp_t p3) 0 (fq 1 10) = fq 1 4) by dec.
  destruct (call_accuracy t3 4 t3_spread ltac:(lia) ltac:(cbn; lia) b3 b3_ok L3 t3_card p3 eq_refl ltac:(cbn; lia) eq_refl p3_asc p3_steps (fq 1 10) "right" 0) as (Y & E & _ & _ & H).
  - apply finb_ok; dec.
  - now right.
  - split; [cbn; lia|]. split; now left.
  - change (fnode (pp_t p3) 0) with (n0 : f64). change (fnode (pp_t p3) (0 + 1)) with (fq 4 10). rewrite v_0, v_tenth, v_four. lra.
  - rewrite E4. exact quarter_query.
  - rewrite E4. apply well3. rewrite v_quarter. lra.
  - reflexivity.
  - exact sq3_mod.
  - exists Y. split; [exact E|]. destruct (H 0%nat sq (fun t => 2 * t) 2) as [F B]; [cbn; lia|exact sq_poly|intros j Hj; now apply (sq_vals 0)| |].
    + intros t Ht. split; [unfold sq; auto_derive; auto; ring|]. rewrite Rabs_pos_eq; lra.
    + split; [exact F|]. change (fnode (pp_t p3) 0) with (n0 : f64) in B. change (fnode (pp_t p3) (0 + 1)) with (fq 4 10) in B. rewrite v_0, !Rminus_0_r, E4 in B. eapply Rle_trans; [exact B|].
      assert (S : err_bound (map val t3) L3 sq (val (fq 1 4)) <= / 2 ^ 44) by (apply sq_bound; rewrite v_quarter; lra). rewrite uro_val.
      generalize dependent (err_bound (map val t3) L3 sq (val (fq 1 4))). intros e _ S. simpl pow in *. lra.
Qed.
Lemma Apart_h : Apart 60 (val (fq 4 10)) (val n0). Proof. apply apart_intro. left. rewrite v_four, v_0. simpl pow. lra. Qed.
Example ex_derivative : exists q v, pp_derivative p3 = Ok q /\ is_derive sq (/ 2) v /\ Finite (at_m (nth 0 (pp_c q) no_mat) 0 1) /\
  Rabs (val (at_m (nth 0 (pp_c q) no_mat) 0 1) - v / val (fq 4 10)) <= / 2 ^ 40.
Proof.
  destruct (derivative_accuracy t3 4 L3 p3 t3_spread ltac:(lia) ltac:(cbn; lia) b3_ok t3_card ltac:(cbn; lia) eq_refl) as (q & E & _ & _ & _ & H).
  - apply finall_ok; dec.
  - intros i Hi. cbn in Hi. assert (i = 0)%nat by lia. subst i. split; [reflexivity|]. split; [exact sq3_mod|exact Apart_h].
  - destruct t3_node as (_ & N1 & _). destruct (H 0%nat 0%nat 1%nat (fun k => match k with 0%nat => -1 | 1%nat => 0 | _ => 1 end) sq) as (v & D & F & B); [cbn; lia|cbn; lia|cbn; lia|exact sq_poly| |].
    + intros k Hk. split; [now apply (sq_vals 0)|]. rewrite N1. pose proof (L3_der k (/ 2)) as D. destruct k as [|[|]]; (match type of D with is_derive _ _ ?a => match goal with |- is_derive _ _ ?b => replace b with a by lra end end; exact D).
    + exists q, v. split; [exact E|]. split; [now rewrite N1 in D|]. split; [exact F|]. change (fnode (pp_t p3) 0) with (n0 : f64) in B. change (fnode (pp_t p3) (0 + 1)) with (fq 4 10) in B. rewrite v_0, Rminus_0_r in B. eapply Rle_trans; [exact B|].
      clear B. rewrite t3_val. unfold dcond, SumBut. cbn [length Sum Nat.eqb node nth map t3]. unfold sq. rewrite uro_val, v_four, (INR_IZR_INZ 3). pose proof (p2_inv_le 60 1074 ltac:(lia)) as Z1. pose proof (p2_inv_le 60 1075 ltac:(lia)) as Z2. pose proof (Rinv_0_lt_compat _ (p2_pos 1074)) as Z3.
      set (x := / 2 ^ 1074) in *. set (y := / 2 ^ 1075) in *. clearbody x y. clear H E F D. assert (R1 : Rabs (-1) = 1) by (rewrite Rabs_left; lra). rewrite R1, Rabs_R1, (Rabs_pos_eq (0 * 0)), (Rabs_pos_eq (/ 2 * / 2)), (Rabs_pos_eq (1 * 1)), (Rabs_pos_eq (_ / _)) by lra. simpl pow in *. simpl Z.of_nat.
      apply Rle_trans with (3 * ((28 * 3 + 12) * / 9007199254740992 * 4 + 2 * 3 * x) + y); [|lra]. apply Rplus_le_compat_r. unfold Rdiv. rewrite Rinv_mult, Rinv_inv. lra.
Qed.

(** A query so close to the node 0 that its reciprocal overflows *)
Definition tiny : f64 := S754_finite false 1 (-1074).
Lemma tiny_pos : 0 < val tiny < 1.
Proof.
  assert (A : val n0 < val tiny) by (apply lt_ok; dec). assert (B : val tiny < val n1) by (apply lt_ok; dec). rewrite v_0 in A. rewrite v_1 in B. now split.
Qed.
Lemma near_node : exists (x : list f64) (u : mat f64) q Y, AscF x /\ Spread 1 x /\ Moderate u /\ nc u = length x /\ Finite q /\ val (fnode x 0) < val q < val (fnode x 1) /\
  bary_interpolator (PVec x) u (PVec [q]) = Ok Y /\ at_m Y 0 0 = S754_nan.
Proof.
  exists [n0; n1], (Mat 1 2 (fun _ _ => n1)), tiny. eexists. split; [apply asc_ok; dec|]. split.
  { split; [apply finall_ok; dec|]. intros i j Hi Hj N. cbn in Hi, Hj. apply apart_intro. destruct i as [|[|]]; [| |lia]; (destruct j as [|[|]]; [| |lia]); try lia; cbn [fnode nth]; rewrite v_0, v_1; lra. }
  split. { intros i j _ _. cbn [at_m]. split; [apply finb_ok; dec|]. rewrite v_1, Rabs_R1. apply p2_ge1. }
  split; [reflexivity|]. split; [apply finb_ok; dec|]. split; [cbn [fnode nth]; rewrite v_0, v_1; exact tiny_pos|]. split; [reflexivity|]. dec.
Qed.
Lemma call_near_node : exists (p : ppoly f64) x Y, AscF (pp_t p) /\ basis_ (PVec [n0; n1]) = Ok (pp_b p) /\ Moderate (nth 0 (pp_c p) no_mat) /\ Finite x /\ val (fnode (pp_t p) 0) < val x < val (fnode (pp_t p) 1) /\
  pp_call p (PNum x) "right" = Ok Y /\ at_m Y 0 0 = S754_nan.
Proof.
  exists (PPoly [n0; n1] [Mat 1 2 (fun _ _ => n1)] (match basis_ (PVec [n0; n1]) with Ok b => b | Err _ => b3 end)), tiny. eexists. split; [apply asc_ok; dec|]. split; [reflexivity|].
  split. { intros i j _ _. cbn [at_m pp_c nth]. split; [apply finb_ok; dec|]. rewrite v_1, Rabs_R1. apply p2_ge1. }
  split; [apply finb_ok; dec|]. split; [cbn [pp_t fnode nth]; rewrite v_0, v_1; exact tiny_pos|]. split; [reflexivity|]. dec.
Qed.
