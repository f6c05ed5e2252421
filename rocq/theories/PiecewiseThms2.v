(** Proofs about [discretize] and [poly] (C53-C54). *)
From Coq Require Import Reals Lra Sorted.
From Coquelicot Require Import Coquelicot.
From Verif Require Import PyBase NumModel NumInst NumSpec PolynomialModel PiecewiseModel PolySpec PiecewiseSpec PolyMath PolynomialBase PolynomialThms PolynomialThms2 PiecewiseThms.
Open Scope R_scope.

(** ** C53 *)
Lemma Rceil_bounds x : x <= IZR (Rceil x) < x + 1.
Proof. unfold Rceil. rewrite opp_IZR. destruct (base_Int_part (- x)). lra. Qed.
Lemma node_map_seq (f : nat -> R) n k : (k < n)%nat -> node (map f (seq 0 n)) k = f k.
Proof. intros H. unfold node. rewrite (nth_indep _ 0 (f 0%nat)) by (rewrite map_length, seq_length; exact H). rewrite (map_nth f). now rewrite seq_nth. Qed.
Lemma node_map (f : R -> R) l k : (k < length l)%nat -> node (map f l) k = f (node l k).
Proof. intros H. unfold node. rewrite (nth_indep _ 0 (f 0)) by (rewrite map_length; exact H). now rewrite map_nth. Qed.
(** The points of one interval, relative to it. *)
Lemma arange_points s : 0 < s -> exists l, arange01 s = Ok l /\ l <> [] /\ last l 0 < 1 /\
  let tau := l ++ [1] in Asc tau /\ node tau 0 = 0 /\ node tau (length tau - 1) = 1 /\ (2 <= length tau)%nat /\ forall k, (k + 1 < length tau)%nat -> node tau (k + 1) - node tau k <= s.
Proof.
  intros Hs. unfold arange01. rnum. replace (Req_b s 0) with false by (symmetry; apply not_true_iff_false; rewrite Req_b_iff; lra). set (n := Z.to_nat (Rceil ((1 - 0) / s))).
  assert (Hc := Rceil_bounds ((1 - 0) / s)). assert (Hq : (1 - 0) / s = 1 / s) by (unfold Rdiv; ring). assert (Hq0 : 0 < 1 / s) by (apply Rdiv_lt_0_compat; lra).
  assert (Hz : (0 < Rceil ((1 - 0) / s))%Z) by (apply lt_IZR; lra). assert (HN : INR n = IZR (Rceil ((1 - 0) / s))) by (unfold n; rewrite INR_IZR_INZ, Z2Nat.id by lia; reflexivity).
  assert (N1 : (1 <= n)%nat) by (unfold n; lia).
  assert (HB1 : 1 <= INR n * s). { rewrite HN. apply (Rmult_le_reg_r (/ s)); [now apply Rinv_0_lt_compat|]. rewrite Rmult_assoc, Rinv_r, Rmult_1_r by lra. unfold Rdiv in *. lra. }
  assert (HB2 : (INR n - 1) * s < 1). { rewrite HN. apply (Rmult_lt_reg_r (/ s)); [now apply Rinv_0_lt_compat|]. rewrite Rmult_assoc, Rinv_r, Rmult_1_r by lra. unfold Rdiv in *. lra. }
  clearbody n. set (l := map (fun k => 0 + INR k * (0 + s - 0)) (seq 0 n)). exists l. assert (Ll : length l = n) by (unfold l; now rewrite map_length, seq_length).
  assert (Nl : forall k, (k < n)%nat -> node l k = INR k * s) by (intros k Hk; unfold l; rewrite node_map_seq by exact Hk; ring).
  assert (Hlast : last l 0 = (INR n - 1) * s).
  { assert (E : l = map (fun k => 0 + INR k * (0 + s - 0)) (seq 0 (n - 1)) ++ [0 + INR (n - 1) * (0 + s - 0)]).
    { unfold l. replace n with (S (n - 1)) at 1 by lia. rewrite seq_S, map_app. reflexivity. }
    rewrite E, last_last, minus_INR by lia. simpl INR. ring. }
  split; [reflexivity|]. split; [intros E; rewrite E in Ll; simpl in Ll; lia|]. split; [rewrite Hlast; exact HB2|]. cbv zeta.
  assert (NA : forall k, (k < n)%nat -> node (l ++ [1]) k = INR k * s) by (intros k Hk; unfold node; rewrite app_nth1 by lia; now apply Nl).
  assert (NB : node (l ++ [1]) n = 1) by (unfold node; rewrite app_nth2, Ll, Nat.sub_diag by lia; reflexivity). rewrite app_length, Ll. simpl length.
  assert (HK : forall k, (k < n)%nat -> INR k * s < 1). { intros k Hk. apply Rle_lt_trans with ((INR n - 1) * s); [|exact HB2]. apply Rmult_le_compat_r; [lra|]. apply lt_INR in Hk as Hk'. apply le_INR in Hk. rewrite S_INR in Hk. lra. }
  split.
  { intros i j Hij. rewrite app_length, Ll in Hij. simpl in Hij. rewrite (NA i) by lia. destruct (Nat.eq_dec j n) as [->|]; [rewrite NB; apply HK; lia|]. rewrite NA by lia. apply Rmult_lt_compat_r; [exact Hs|]. apply lt_INR. lia. }
  split; [rewrite NA by lia; simpl; ring|]. split; [replace (n + 1 - 1)%nat with n by lia; exact NB|]. split; [lia|]. intros k Hk. rewrite (NA k) by lia. destruct (Nat.eq_dec (k + 1) n) as [E|].
  - rewrite E, NB. assert (E' : INR n = INR k + 1) by (rewrite <- E, plus_INR; reflexivity). rewrite E' in HB1. lra.
  - rewrite NA by lia. rewrite plus_INR. simpl INR. lra.
Qed.
(** What one interval contributes. *)
Definition PieceGrid (p : ppoly R) (step : R) (i : nat) (x : list R) : Prop :=
  (2 <= length x)%nat /\ Asc x /\ node x 0 = bound p i /\ node x (length x - 1) = bound p (i + 1) /\
  forall k, (k + 1 < length x)%nat -> node x (k + 1) - node x k <= step.
Lemma piece_grid p m step i : PpOk p m -> 0 < step -> (i < nint p)%nat ->
  exists x Y, pp_piece p step i = Ok (x, Y) /\ PieceGrid p step i x /\ nr Y = m /\ nc Y = length x /\
    forall r f k, Piece p i r f -> (k < length x)%nat -> at_m Y r k = f (node x k).
Proof.
  intros HP Hs Hi. pose proof (width_pos p m i HP Hi) as Hw. assert (H0 : 0 < step / width p i) by (apply Rdiv_lt_0_compat; lra).
  destruct (arange_points _ H0) as (l & El & Ne & Hlt & HA & H1 & H2 & HL & H3). unfold pp_piece. rnum. change (vget (pp_t p)) with (bound p). fold (width p i). rewrite El. cbn [rbind].
  destruct l as [|l0 l']; [contradiction|]. cbn [rbind]. set (l := l0 :: l') in *. replace (Req_b (last l 0) 1) with false by (symmetry; apply not_true_iff_false; rewrite Req_b_iff; lra). cbn [negb].
  replace (Rlt_b (last l 0) 1) with true by (symmetry; apply Rlt_b_iff; exact Hlt). cbn [rassert rbind]. unfold lget. rewrite (nth_error_nth' (pp_c p) (Mat 0 0 (fun _ _ => 0))) by (destruct HP as (_ & _ & _ & _ & -> & _); exact Hi). fold (coef p i). cbn [rbind].
  set (tau := l ++ [1]) in *. destruct (piece_dot p m i tau HP Hi) as (M & Y & EM & EY & Yr & Yc & HY); [unfold tau; destruct l; discriminate|]. rewrite EM. cbn [rbind]. rewrite EY. cbn [rbind].
  eexists _, Y. split; [reflexivity|]. set (x := map _ tau). assert (Lx : length x = length tau) by (unfold x; apply map_length). assert (Nx : forall k, (k < length tau)%nat -> node x k = bound p i + node tau k * width p i) by (intros k Hk; unfold x; rewrite node_map by exact Hk; reflexivity).
  split.
  - split; [lia|]. split; [|split; [|split]].
    + intros a b Hab. rewrite Lx in Hab. rewrite !Nx by lia. apply Rplus_lt_compat_l, Rmult_lt_compat_r; [exact Hw|]. apply HA. lia.
    + rewrite Nx by lia. rewrite H1. ring.
    + rewrite Lx, Nx by lia. rewrite H2. unfold width. ring.
    + intros k Hk. rewrite Lx in Hk. rewrite !Nx by lia. specialize (H3 k Hk). apply (Rmult_le_compat_r (width p i)) in H3; [|lra]. unfold Rdiv in H3. rewrite (Rmult_assoc step), Rinv_l, Rmult_1_r in H3 by lra. lra.
  - split; [exact Yr|]. split; [rewrite Lx; exact Yc|]. intros r f k Hf Hk. rewrite Lx in Hk. rewrite (HY r f k Hf Hk). now rewrite Nx.
Qed.
Theorem discretize_spec p m step : PpOk p m -> 0 < step ->
  exists xs Y, pp_discretize p step = Ok (concat xs, Y) /\ length xs = nint p /\ nr Y = m /\ nc Y = length (concat xs) /\
    forall i, (i < nint p)%nat -> PieceGrid p step i (nth i xs []) /\
      forall r f k, Piece p i r f -> (k < length (nth i xs []))%nat -> at_m Y r (offset (map (@length R) xs) i + k) = f (node (nth i xs []) k).
Proof.
  intros HP Hs. unfold pp_discretize.
  destruct (rmapM_Forall2 (pp_piece p step) (fun i xy => PieceGrid p step i (fst xy) /\ nr (snd xy) = m /\ nc (snd xy) = length (fst xy) /\ forall r f k, Piece p i r f -> (k < length (fst xy))%nat -> at_m (snd xy) r k = f (node (fst xy) k)) (seq 0 (pp_num p))) as (l & El & Hl).
  { intros i Hi. apply in_seq in Hi. destruct (piece_grid p m step i HP Hs) as (x & Y & E & H); [unfold nint, pp_num in *; lia|]. exists (x, Y). auto. }
  rewrite El. cbn [rbind]. pose proof (Forall2_len _ _ _ Hl) as HL. rewrite seq_length in HL. change (pp_num p) with (nint p) in *.
  set (dm := Mat 0 0 (fun _ _ => 0)).
  assert (HI : forall i, (i < nint p)%nat -> PieceGrid p step i (fst (nth i l ([], dm))) /\ nr (snd (nth i l ([], dm))) = m /\ nc (snd (nth i l ([], dm))) = length (fst (nth i l ([], dm))) /\
     forall r f k, Piece p i r f -> (k < length (fst (nth i l ([], dm))))%nat -> at_m (snd (nth i l ([], dm))) r k = f (node (fst (nth i l ([], dm))) k)).
  { intros i Hi. pose proof (Forall2_nth' _ _ _ 0%nat ([], dm) i Hl) as K. rewrite seq_length, seq_nth in K by exact Hi. apply K, Hi. }
  assert (HN : (1 <= nint p)%nat) by (destruct HP as (L & _); unfold nint; lia).
  assert (HW : map nc (map snd l) = map (@length R) (map fst l)).
  { rewrite !map_map. apply map_ext_in. intros xy Hin. apply (In_nth _ _ ([], dm)) in Hin. destruct Hin as (i & Hi & <-). apply HI. lia. }
  destruct (hstack_spec m (map snd l)) as (Y & EY & Yr & Yc & HY).
  { destruct l; [simpl in HL; lia|discriminate]. }
  { intros b Hb. apply in_map_iff in Hb. destruct Hb as (xy & <- & Hin). apply (In_nth _ _ ([], dm)) in Hin. destruct Hin as (i & Hi & <-). apply HI. lia. }
  rewrite EY. cbn [rbind]. exists (map fst l), Y. split; [reflexivity|]. rewrite map_length. split; [auto|]. split; [exact Yr|]. split.
  { rewrite Yc, HW. clear. induction (map fst l) as [|x xs IH]; [reflexivity|]. simpl. rewrite app_length. lia. }
  intros i Hi. assert (E1 : nth i (map fst l) [] = fst (nth i l ([], dm))) by (apply (map_nth fst l ([], dm))). rewrite E1. destruct (HI i Hi) as (G & _ & W & V). split; [exact G|].
  intros r f k Hf Hk. rewrite <- HW, <- (V r f k Hf Hk). apply HY; [|rewrite W; exact Hk]. rewrite (nth_error_nth' _ dm) by (rewrite map_length; lia). f_equal. apply (map_nth snd l ([], dm)).
Qed.
Lemma sorted_app (l1 l2 : list R) b : StronglySorted Rle l1 -> StronglySorted Rle l2 -> (forall x, In x l1 -> x <= b) -> (forall x, In x l2 -> b <= x) -> StronglySorted Rle (l1 ++ l2).
Proof.
  induction 1 as [|x l1 H1 IH Hx]; intros H2 B1 B2; [exact H2|]. simpl. constructor; [apply IH; auto; intros; apply B1; now right|]. apply Forall_app. split; [exact Hx|]. apply Forall_forall. intros y Hy. apply Rle_trans with b; [apply B1; now left|now apply B2].
Qed.
Lemma Asc_sorted l : Asc l -> StronglySorted Rle l.
Proof.
  induction l as [|a l IH]; intros H; [constructor|]. constructor; [apply IH; eapply Asc_tail; eauto|]. apply Forall_forall. intros y Hy. apply node_in in Hy. destruct Hy as (k & Hk & <-). left. apply (H 0%nat (S k)). simpl. lia.
Qed.
(** [x] as a whole never decreases. *)
Theorem discretize_ascending p m step x Y : PpOk p m -> 0 < step -> pp_discretize p step = Ok (x, Y) -> StronglySorted Rle x.
Proof.
  intros HP Hs E. destruct (discretize_spec p m step HP Hs) as (xs & Y' & E' & Hn & _ & _ & HG). rewrite E in E'. injection E' as -> _.
  assert (HB : forall i, (i < nint p)%nat -> StronglySorted Rle (nth i xs []) /\ forall y, In y (nth i xs []) -> bound p i <= y <= bound p (i + 1)).
  { intros i Hi. destruct (HG i Hi) as [(G1 & G2 & G3 & G4 & _) _]. split; [now apply Asc_sorted|]. intros y Hy. apply node_in in Hy. destruct Hy as (k & Hk & <-). rewrite <- G3, <- G4. split; apply Asc_le; auto; lia. }
  assert (HM : forall i, (i < nint p)%nat -> bound p i <= bound p (i + 1)) by (intros i Hi; pose proof (width_pos p m i HP Hi); unfold width in *; lra).
  assert (K : forall n i, (i + n = nint p)%nat -> StronglySorted Rle (concat (skipn i xs)) /\ forall y, In y (concat (skipn i xs)) -> bound p i <= y).
  { induction n as [|n IH]; intros i Hi; [rewrite skipn_all2 by lia; split; [constructor|intros y []]|].
    destruct (IH (S i) ltac:(lia)) as [IH1 IH2]. assert (Es : skipn i xs = nth i xs [] :: skipn (S i) xs).
    { clear - Hi Hn. assert (Hi' : (i < length xs)%nat) by lia. clear Hi Hn. revert i Hi'. induction xs as [|a xs IH]; intros i Hi'; [simpl in Hi'; lia|]. destruct i; [reflexivity|]. simpl. apply IH. simpl in Hi'. lia. }
    rewrite Es. cbn [concat]. destruct (HB i ltac:(lia)) as [S1 S2]. replace (i + 1)%nat with (S i) in S2 by lia. split.
    - apply sorted_app with (bound p (S i)); auto. intros y Hy. now apply S2.
    - intros y Hy. apply in_app_or in Hy. destruct Hy as [Hy|Hy]; [now apply S2|]. apply Rle_trans with (bound p (S i)); [replace (S i) with (i + 1)%nat by lia; apply HM; lia|now apply IH2]. }
  apply (K (nint p) 0%nat). reflexivity.
Qed.
(** A step that is not positive is refused. *)
Theorem discretize_bad_step p m step : PpOk p m -> step <= 0 -> exists e, pp_discretize p step = Err e.
Proof.
  intros HP Hs. unfold pp_discretize. change (pp_num p) with (nint p). assert (HN : (1 <= nint p)%nat) by (destruct HP as (L & _); unfold nint; lia). replace (nint p) with (S (nint p - 1)) by lia. cbn [seq rmapM].
  enough (exists e, pp_piece p step 0 = Err e) as [e ->] by (eexists; reflexivity). pose proof (width_pos p m 0 HP HN) as Hw. unfold pp_piece. rnum. change (vget (pp_t p)) with (bound p). fold (width p 0). unfold arange01. rnum.
  assert (step / width p 0 <= 0). { unfold Rdiv. apply Rinv_0_lt_compat in Hw. rewrite <- (Rmult_0_l (/ width p 0)). apply Rmult_le_compat_r; lra. }
  destruct (Req_b (step / width p 0) 0) eqn:E; [eexists; reflexivity|]. apply not_true_iff_false in E. rewrite Req_b_iff in E.
  replace (Z.to_nat _) with 0%nat; [eexists; reflexivity|]. pose proof (Rceil_bounds ((1 - 0) / (step / width p 0))) as [_ HB]. assert ((1 - 0) / (step / width p 0) < 0).
  { unfold Rdiv at 1. rewrite Rminus_0_r, Rmult_1_l. apply Rinv_lt_0_compat. lra. }
  assert (Rceil ((1 - 0) / (step / width p 0)) < 1)%Z by (apply lt_IZR; lra). lia.
Qed.

(** ** C54 *)
Lemma vget_node (l : list R) k : vget l k = node l k.
Proof. reflexivity. Qed.
Lemma polyval_scaled (q : list R) h t : h <> 0 -> (1 <= length q)%nat ->
  polyval (map (fun j => vget q j / npow h (length q - 1 - j))%num (seq 0 (length q))) t = polyval q (t / h).
Proof.
  intros Hh Hq. rewrite !polyval_Sum. rewrite map_length, seq_length. apply Sum_ext. intros j Hj. rewrite vget_node, node_map_seq by exact Hj. rnum. replace (npow h (length q - 1 - j)) with (h ^ (length q - 1 - j)).
  - unfold Rdiv. rewrite Rpow_mult_distr, pow_inv. ring.
  - generalize (length q - 1 - j)%nat. induction n as [|n IH]; [reflexivity|]. cbn [npow pow]. rewrite IH. rnum. ring.
Qed.

Lemma nonzero_nodes n : NoDup (map (fun k => INR (S k)) (seq 0 n)) /\ forall a, In a (map (fun k => INR (S k)) (seq 0 n)) -> a <> 0.
Proof.
  split.
  - apply FinFun.Injective_map_NoDup; [|apply seq_NoDup]. intros x y H. apply INR_eq in H. lia.
  - intros a Ha. apply in_map_iff in Ha. destruct Ha as (k & <- & _). pose proof (pos_INR k). rewrite S_INR. lra.
Qed.
Lemma peval_zero_coef c : (forall t, peval c t = 0) -> forall i, nth i c 0 = 0.
Proof.
  induction c as [|a c IH]; intros H i; [now destruct i|]. assert (Ha : a = 0) by (specialize (H 0); simpl in H; lra). destruct i as [|i]; [exact Ha|]. simpl. apply IH. destruct (nonzero_nodes (length c)) as [N1 N2].
  apply (roots_zero _ (length c) (peval c) (PolyLt_peval c) N1); [rewrite map_length, seq_length; lia|]. intros b Hb. specialize (H b). simpl in H. rewrite Ha, Rplus_0_l in H. apply N2 in Hb. apply Rmult_integral in H. destruct H; [contradiction|assumption].
Qed.
Lemma peval_coef c : forall d, (forall t, peval c t = peval d t) -> forall i, nth i c 0 = nth i d 0.
Proof.
  induction c as [|a c IH]; intros d H i.
  - rewrite (peval_zero_coef d); [now destruct i|]. intros t. now rewrite <- H.
  - destruct d as [|b d]; [rewrite (peval_zero_coef (a :: c) H i); now destruct i|]. assert (E : a = b) by (specialize (H 0); simpl in H; lra). destruct i as [|i]; [exact E|]. simpl. apply IH.
    destruct (nonzero_nodes (length c + length d)) as [N1 N2]. apply (poly_unique (length c + length d) _ _ _ (PolyLt_mon (length c) (length c + length d) _ (Nat.le_add_r _ _) (PolyLt_peval c)) (PolyLt_mon (length d) (length c + length d) _ (Nat.le_add_l _ _) (PolyLt_peval d)) N1); [rewrite map_length, seq_length; lia|].
    intros x Hx. specialize (H x). simpl in H. apply N2 in Hx. apply (Rmult_eq_reg_l x); [lra|exact Hx].
Qed.
Lemma lead_degree a l k : a <> 0 -> PolyLt k (polyval (a :: l)) -> (length l < k)%nat.
Proof.
  intros Ha (c & Lc & H). assert (E : nth (length l) (rev (a :: l)) 0 = nth (length l) c 0) by (apply peval_coef; intros t; now rewrite <- polyval_peval).
  simpl rev in E. rewrite app_nth2, rev_length, Nat.sub_diag in E by (rewrite rev_length; lia). simpl in E. destruct (le_lt_dec (length c) (length l)) as [L|L]; [|lia]. rewrite (nth_overflow c) in E by exact L. contradiction.
Qed.
Lemma poly1d_norm (l : list R) : poly1d_ l = [0] \/ exists a r, poly1d_ l = a :: r /\ a <> 0.
Proof.
  unfold poly1d_. assert (H : trim_front l = [] \/ exists a r, trim_front l = a :: r /\ a <> 0).
  { induction l as [|a l IH]; [now left|]. cbn [trim_front]. rnum. destruct (Req_b a 0) eqn:E; [exact IH|]. right. exists a, l. split; [reflexivity|]. apply not_true_iff_false in E. now rewrite Req_b_iff in E. }
  destruct H as [->|(a & r & -> & Ha)]; [now left|right]. eauto.
Qed.
Lemma compose_row_norm b (c : mat R) i q : compose_row b c i = Ok q -> exists l, q = poly1d_ l.
Proof.
  unfold compose_row. destruct (nc c) as [|n]; [intros E; injection E as <-; eauto|]. rewrite seq_S, fold_left_app. cbn [fold_left]. destruct (fold_left _ _ _) as [q'|]; [|discriminate]. cbn [rbind].
  destruct (nth_error _ _); [|discriminate]. intros E. injection E as <-. unfold polyadd. eauto.
Qed.
(** The polynomials that [poly(n)] starts from: in the local variable, normalised. *)
Lemma compose_local p m n : PpOk p m -> (n < nint p)%nat -> exists q, compose (pp_b p) (coef p n) = Ok q /\ length q = m /\
  forall r, (r < m)%nat -> (exists l, nth r q [] = poly1d_ l) /\ forall f, Piece p n r f -> forall s, polyval (nth r q []) s = f (bound p n + s * width p n).
Proof.
  intros HP Hn. pose proof HP as (L & A & Hb & Hd & Hc & Hm). destruct (Hm n Hn) as [C1 C2]. destruct (compose_spec _ _ (coef p n) Hb Hd) as (q & Eq & Lq & Hq); [unfold nnodes in C2; lia|].
  exists q. split; [exact Eq|]. rewrite C1 in *. split; [exact Lq|]. intros r Hr. split.
  - unfold compose in Eq. rewrite C1 in Eq. assert (K : forall l q, rmapM (compose_row (pp_b p) (coef p n)) l = Ok q -> forall k, (k < length l)%nat -> compose_row (pp_b p) (coef p n) (nth k l 0%nat) = Ok (nth k q [])).
    { clear. induction l as [|i l IH]; intros q E k Hk; [simpl in Hk; lia|]. cbn [rmapM] in E. destruct (compose_row _ _ i) as [qi|] eqn:Ei; [|discriminate]. cbn [rbind] in E. destruct (rmapM _ l) as [q'|] eqn:El; [|discriminate]. injection E as <-. destruct k; [exact Ei|]. simpl. apply IH; [reflexivity|]. simpl in Hk. lia. }
    specialize (K _ _ Eq r). rewrite seq_length, seq_nth in K by exact Hr. apply (compose_row_norm _ _ _ _ (K Hr)).
  - intros f Hf. destruct (Hq r Hr) as [V1 V2]. apply (poly_unique (nnodes p) _ _ (b_tau (pp_b p))); [|exact (piece_moved p m n r f HP Hn Hf)|exact Hd|unfold nnodes; lia|].
    + apply (PolyLt_ext _ (fun t => Sum (nc (coef p n)) (fun j => at_m (coef p n) r j * polyval (nth j (b_poly (pp_b p)) []) t))); [intros; now rewrite V1|]. destruct (basis_lagrange _ _ Hb Hd) as (_ & _ & _ & HL & _).
      apply (PolyLt_Sum _ _ (fun j t => at_m (coef p n) r j * polyval (nth j (b_poly (pp_b p)) []) t)). intros k Hk. apply PolyLt_scal. apply HL. unfold nnodes in C2. lia.
    + intros s Hs. apply node_in in Hs. destruct Hs as (j & Hj & <-). rewrite V2 by exact Hj. destruct Hf as [_ Hf]. rewrite (Hf j Hj). destruct (Nat.ltb_spec j (nc (coef p n))); [reflexivity|unfold nnodes in C2; lia].
Qed.
(** The degree of component [r] on interval [n] is as large as the basis allows. *)
Definition FullDegree (p : ppoly R) (n r : nat) : Prop := nnodes p = 1%nat \/ forall f, Piece p n r f -> ~ PolyLt (nnodes p - 1) f.
Theorem poly_spec p m n P : PpOk p m -> (n < nint p)%nat -> pp_poly p n = Ok P ->
  length P = m /\ forall r f, (r < m)%nat -> Piece p n r f -> forall t, polyval (nth r P []) t = f (bound p n + t).
Proof.
  intros HP Hn. pose proof (width_pos p m n HP Hn) as Hw. destruct (compose_local p m n HP Hn) as (q & Eq & Lq & Hq). unfold pp_poly, lget. rewrite (nth_error_nth' (pp_c p) (Mat 0 0 (fun _ _ => 0))) by (destruct HP as (_ & _ & _ & _ & -> & _); exact Hn). fold (coef p n). cbn [rbind]. rewrite Eq. cbn [rbind].
  intros EP. assert (K : forall (F : list R -> res (list R)) l P, rmapM F l = Ok P -> length P = length l /\ forall k, (k < length l)%nat -> F (nth k l []) = Ok (nth k P [])).
  { clear. induction l as [|x l IH]; intros P E; [injection E as <-; split; [reflexivity|simpl; lia]|]. cbn [rmapM] in E. destruct (F x) as [y|] eqn:Ex; [|discriminate]. cbn [rbind] in E. destruct (rmapM F l) as [P'|] eqn:El; [|discriminate]. injection E as <-. destruct (IH P' eq_refl) as [I1 I2]. split; [simpl; lia|]. intros [|k] Hk; [exact Ex|]. simpl. apply I2. simpl in Hk. lia. }
  destruct (K _ _ _ EP) as [LP HPk]. split; [lia|]. intros r f Hr Hf t. specialize (HPk r ltac:(lia)). cbv beta in HPk. destruct (Nat.eqb_spec (length (nth r q [])) (b_order (pp_b p) + 1)) as [E|]; [|discriminate]. injection HPk as <-.
  rewrite <- E. replace (b_order (pp_b p)) with (length (nth r q []) - 1)%nat by lia. rnum. change (vget (pp_t p)) with (bound p). fold (width p n). pose proof (polyval_scaled (nth r q []) (width p n) t ltac:(lra) ltac:(lia)) as EV. etransitivity; [exact EV|].
  rewrite (proj2 (Hq r Hr) f Hf). f_equal. field. lra.
Qed.
Theorem poly_succeeds_iff p m n : PpOk p m -> (n < nint p)%nat ->
  ((exists P, pp_poly p n = Ok P) <-> forall r, (r < m)%nat -> FullDegree p n r).
Proof.
  intros HP Hn. pose proof (width_pos p m n HP Hn) as Hw. destruct (compose_local p m n HP Hn) as (q & Eq & Lq & Hq). unfold pp_poly, lget. rewrite (nth_error_nth' (pp_c p) (Mat 0 0 (fun _ _ => 0))) by (destruct HP as (_ & _ & _ & _ & -> & _); exact Hn). fold (coef p n). cbn [rbind]. rewrite Eq. cbn [rbind].
  assert (HT : (1 <= nnodes p)%nat) by (destruct HP as (_ & _ & Hb & _); unfold nnodes; destruct (b_tau (pp_b p)); [discriminate|simpl; lia]). assert (HO : (b_order (pp_b p) + 1 = nnodes p)%nat) by (unfold b_order, nnodes in *; lia).
  assert (LEN : forall r, (r < m)%nat -> (length (nth r q []) = nnodes p <-> FullDegree p n r)).
  { intros r Hr. destruct (Hq r Hr) as [[l El] HV]. destruct (piece_exists p m n r HP Hn) as [f Hf]. specialize (HV f Hf). pose proof (piece_moved p m n r f HP Hn Hf) as PM.
    assert (PQ : forall k, PolyLt k (polyval (nth r q [])) <-> PolyLt k f).
    { intros k. split; intros H.
      - apply (PolyLt_ext _ (fun t => polyval (nth r q []) (/ width p n * t + - bound p n / width p n))); [|now apply (PolyLt_comp _ (polyval (nth r q [])))]. intros t. rewrite HV. f_equal. field. lra.
      - apply (PolyLt_ext _ (fun s => f (width p n * s + bound p n))); [intros t; rewrite HV; f_equal; ring|now apply PolyLt_comp]. }
    pose proof (proj2 (PQ (nnodes p)) (proj1 Hf)) as PN. rewrite El in *. split.
    - intros E. unfold FullDegree. destruct (Nat.eq_dec (nnodes p) 1) as [|N1]; [now left|right]. intros g Hg PL. assert (PF : PolyLt (nnodes p - 1) f) by (apply (PolyLt_ext _ g); [apply (piece_unique p m n r g f HP Hn Hg Hf)|exact PL]).
      apply PQ in PF. destruct (poly1d_norm l) as [Z|(a & t & Z & Ha)]; rewrite Z in *; [simpl in E; lia|]. apply lead_degree in PF; [|exact Ha]. simpl in E. lia.
    - intros FD. destruct (poly1d_norm l) as [Z|(a & t & Z & Ha)]; rewrite Z in *.
      + destruct FD as [->|FD]; [reflexivity|]. destruct (Nat.eq_dec (nnodes p) 1) as [->|N1]; [reflexivity|]. exfalso. apply (FD f Hf). apply PQ. apply (PolyLt_mon 1); [lia|apply (polyval_poly [0])].
      + apply lead_degree in PN; [|exact Ha]. simpl. destruct FD as [FD|FD]; [lia|]. destruct (Nat.eq_dec (S (length t)) (nnodes p)) as [E|NE]; [exact E|]. exfalso. apply (FD f Hf). apply PQ. apply (PolyLt_mon (length (a :: t))); [simpl; lia|apply polyval_poly]. }
  rewrite HO. split.
  - intros [P EP] r Hr. apply LEN; [exact Hr|]. assert (K : forall (F : list R -> res (list R)) l P, rmapM F l = Ok P -> forall k, (k < length l)%nat -> F (nth k l []) = Ok (nth k P [])).
    { clear. induction l as [|x l IH]; intros P E k Hk; [simpl in Hk; lia|]. cbn [rmapM] in E. destruct (F x) as [y|] eqn:Ex; [|discriminate]. cbn [rbind] in E. destruct (rmapM F l) as [P'|] eqn:El; [|discriminate]. injection E as <-. destruct k; [exact Ex|]. simpl. apply (IH P' eq_refl). simpl in Hk. lia. }
    specialize (K _ _ _ EP r ltac:(lia)). cbv beta in K. destruct (Nat.eqb_spec (length (nth r q [])) (nnodes p)); [assumption|discriminate].
  - intros H. match goal with |- exists P, rmapM ?F q = Ok P => destruct (rmapM_Forall2 F (fun _ _ => True) q) as (P & E & _) end; [|exists P; exact E].
    intros x Hx. apply (In_nth _ _ []) in Hx. destruct Hx as (r & Hr & <-). rewrite Lq in Hr. rewrite (proj2 (LEN r Hr) (H r Hr)), Nat.eqb_refl. eauto.
Qed.
(** [poly(n)[r](t) == self(intervals[n] + t)[r]] for [t] inside the interval. *)
Theorem poly_equals_call p m n P r t : PpOk p m -> (n < nint p)%nat -> pp_poly p n = Ok P -> (r < m)%nat -> 0 <= t < width p n ->
  polyval (nth r P []) t = ppval p "right" r (bound p n + t).
Proof.
  intros HP Hn EP Hr Ht. destruct (piece_exists p m n r HP Hn) as [f Hf]. destruct (poly_spec p m n P HP Hn EP) as [_ H]. rewrite (H r f Hr Hf).
  symmetry. apply (ppval_spec p m "right" r _ n f HP); [now right| |exact Hf]. unfold width in Ht. split; [exact Hn|]. split; right; simpl; lra.
Qed.
