(** Interpolation in binary64 (C104). *)
From Coq Require Import Reals Lra.
From Coq Require Import Floats.SpecFloat.
From Verif Require Import PyBase NumModel NumInst PolynomialModel PiecewiseModel PdqModel PolySpec PiecewiseThms F64Spec F64Thms.
Open Scope list_scope. Open Scope nat_scope.
#[local] Existing Instance numF.

(** ** Lists and matrices *)
Lemma fnode_val l i : val (fnode l i) = node (map val l) i.
Proof. unfold fnode, node. rewrite <- (map_nth val). reflexivity. Qed.
Lemma fnode_in l i : i < length l -> In (fnode l i) l.
Proof. apply nth_In. Qed.
Lemma Asc_fin l : AscF l -> DistinctF l.
Proof.
  intros [F A]. split; [exact F|]. apply (NoDup_nth _ 0%R). intros i j Hi Hj E. unfold Asc, node in A. destruct (Nat.lt_total i j) as [H|[H|H]]; [|exact H|]; exfalso.
  - specialize (A i j ltac:(lia)). lra.
  - specialize (A j i ltac:(lia)). lra.
Qed.
Lemma distinct_nth l i j : DistinctF l -> i < length l -> j < length l -> val (fnode l i) = val (fnode l j) -> i = j.
Proof. intros [_ D] Hi Hj E. rewrite !fnode_val in E. unfold node in E. eapply (proj1 (NoDup_nth _ 0%R) D); rewrite ?map_length; eauto. Qed.

Section Stack.
Context {T : Type} {NT : Num T}.
Lemma hcat_cols (l : list (mat T)) m : (forall b, In b l -> nr b = m /\ nc b = 1) -> forall a, nr a = m ->
  exists Y, hcat_from a l = Ok Y /\ nr Y = m /\ nc Y = nc a + length l /\ (forall r j, j < nc a -> at_m Y r j = at_m a r j) /\
    forall r k b, nth_error l k = Some b -> at_m Y r (nc a + k) = at_m b r 0.
Proof.
  induction l as [|b l IH]; intros Hl a Ha.
  - exists a. cbn. split; [reflexivity|]. split; [exact Ha|]. split; [lia|]. split; [reflexivity|]. intros r [|k] b; discriminate.
  - destruct (Hl b (or_introl eq_refl)) as [B1 B2]. cbn [hcat_from]. unfold hcat2. rewrite Ha, B1, Nat.eqb_refl. cbn [rbind].
    destruct (IH ltac:(intros; apply Hl; now right) (Mat m (nc a + nc b) (fun i j => if j <? nc a then at_m a i j else at_m b i (j - nc a)))) as (Y & EY & Y1 & Y2 & Y3 & Y4); [reflexivity|].
    cbn [nr nc at_m] in *. exists Y. split; [exact EY|]. split; [exact Y1|]. split; [simpl; lia|]. split.
    + intros r j Hj. rewrite Y3 by lia. destruct (Nat.ltb_spec j (nc a)); [reflexivity|lia].
    + intros r [|k] c E; cbn in E.
      * injection E as ->. rewrite Y3 by lia. destruct (Nat.ltb_spec (nc a + 0) (nc a)); [lia|]. f_equal. lia.
      * rewrite <- (Y4 r k c E). f_equal. lia.
Qed.
Lemma hstack_cols (l : list (mat T)) m : l <> [] -> (forall b, In b l -> nr b = m /\ nc b = 1) ->
  exists Y, hstack l = Ok Y /\ nr Y = m /\ nc Y = length l /\ forall r k b, nth_error l k = Some b -> at_m Y r k = at_m b r 0.
Proof.
  destruct l as [|a l]; intros H Hl; [contradiction|]. destruct (Hl a (or_introl eq_refl)) as [A1 A2].
  destruct (hcat_cols l m ltac:(intros; apply Hl; now right) a A1) as (Y & EY & Y1 & Y2 & Y3 & Y4). exists Y. split; [exact EY|]. split; [exact Y1|]. split; [simpl; lia|].
  intros r [|k] b E; cbn in E.
  - injection E as ->. apply Y3. lia.
  - rewrite <- (Y4 r k b E). f_equal. lia.
Qed.
End Stack.
Lemma rmapM_fwd {A B} (f : A -> res B) (P : A -> B -> Prop) l : (forall a, In a l -> exists b, f a = Ok b /\ P a b) -> exists r, rmapM f l = Ok r /\ Forall2 P l r.
Proof.
  induction l as [|a l IH]; intros H; [exists []; split; [reflexivity|constructor]|]. destruct (H a (or_introl eq_refl)) as (b & E & Pb). destruct IH as (r & Er & Pr); [intros; apply H; now right|].
  exists (b :: r). cbn. rewrite E. cbn. rewrite Er. cbn. split; [reflexivity|now constructor].
Qed.
Lemma F2_nth {A B} (P : A -> B -> Prop) l r k a : Forall2 P l r -> nth_error l k = Some a -> exists b, nth_error r k = Some b /\ P a b.
Proof. intros H. revert k. induction H; intros [|k] E; cbn in *; try discriminate; [injection E as <-; eauto|auto]. Qed.
Lemma F2_len {A B} (P : A -> B -> Prop) l r : Forall2 P l r -> length r = length l.
Proof. induction 1; simpl; congruence. Qed.
Lemma F2_in {A B} (P : A -> B -> Prop) l r b : Forall2 P l r -> In b r -> exists a, In a l /\ P a b.
Proof. induction 1; simpl; [tauto|]. intros [<-|H1]; [eauto|]. destruct (IHForall2 H1) as (a & I & Q). eauto. Qed.

(** ** Sums with one term *)
Lemma sum_zero n (f : nat -> f64) a : Is a 0 -> (forall k, k < n -> Is (f k) 0) -> Is (fold_left (fun a k => (a + f k)%num) (seq 0 n) a) 0.
Proof.
  intros Ha. induction n as [|n IH]; intros H; [exact Ha|]. rewrite seq_S, fold_left_app. cbn [fold_left]. apply zero_add; [apply IH; intros; apply H; lia|apply H; lia].
Qed.
Lemma sum_single n (f : nat -> f64) j r : j < n -> Is (f j) r -> (forall k, k < n -> k <> j -> Is (f k) 0) -> Is (nsum n f) r.
Proof.
  intros Hj Hr. unfold nsum. induction n as [|n IH]; intros H; [lia|]. rewrite seq_S, fold_left_app. cbn [fold_left plus]. destruct (Nat.eq_dec j n) as [->|].
  - apply zero_add; [|exact Hr]. apply sum_zero; [apply zero_fin|]. intros k Hk. apply H; lia.
  - apply add_zero; [apply IH; [lia|]; intros; apply H; lia|apply H; lia].
Qed.

(** ** Interpolation at a node *)
Lemma row_node (b : basis f64) xi j : DistinctF (b_tau b) -> j < length (b_tau b) -> Finite xi -> val xi = val (fnode (b_tau b) j) ->
  exists row, interp_row b xi = Ok row /\ length row = length (b_tau b) /\ forall k, k < length (b_tau b) -> vget row k = if k =? j then n1 else n0.
Proof.
  intros D Hj Fx E. set (l := b_tau b) in *. pose proof D as [F _].
  assert (EQ : forall k, k < length l -> neqb xi (fnode l k) = (k =? j)).
  { intros k Hk. change (SFeqb xi (fnode l k) = (k =? j)). rewrite eqb_val by (auto using fnode_in). unfold Req_b. destruct Req_EM_T as [e|ne]; destruct (Nat.eqb_spec k j) as [Ek|Nk]; auto; exfalso.
    - apply Nk. apply (distinct_nth l); auto. congruence.
    - apply ne. subst. exact E. }
  unfold interp_row. fold l. set (ind := map (fun t => neqb xi t) l).
  assert (I : forall k, k < length l -> nth k ind false = (k =? j)).
  { intros k Hk. rewrite <- (EQ k Hk). unfold ind, fnode. rewrite (nth_indep _ false (neqb xi (S754_zero false))) by (rewrite map_length; exact Hk). now rewrite (map_nth (fun t => neqb xi t)). }
  assert (L : length ind = length l) by (unfold ind; apply map_length).
  assert (EX : existsb (fun x => x) ind = true).
  { apply existsb_exists. exists true. split; [|reflexivity]. replace true with (nth j ind false); [apply nth_In; lia|]. rewrite I by exact Hj. now rewrite Nat.eqb_refl. }
  assert (CN : length (filter (fun x : bool => x) ind) = 1).
  { clear -I L Hj. revert j Hj I. assert (Z : forall ind, (forall k, k < length ind -> nth k ind false = false) -> length (filter (fun x : bool => x) ind) = 0).
    { clear. induction ind as [|x l IH]; intros H; [reflexivity|]. pose proof (H 0 ltac:(simpl; lia)) as H0. cbn in H0. subst x. simpl. apply IH. intros k Hk. apply (H (S k)). simpl. lia. }
    rewrite <- L. clear L. induction ind as [|x ind IH]; intros j Hj I; [simpl in Hj; lia|]. destruct j as [|j].
    - pose proof (I 0 ltac:(simpl; lia)) as H0. cbn in H0. subst x. simpl. f_equal. apply Z. intros k Hk. exact (I (S k) ltac:(simpl; lia)).
    - pose proof (I 0 ltac:(simpl; lia)) as H0. cbn in H0. subst x. simpl. apply (IH j); [simpl in Hj; lia|]. intros k Hk. apply (I (S k)). simpl. lia. }
  rewrite EX, CN. cbn [rassert rbind Nat.eqb]. eexists. split; [reflexivity|]. split; [now rewrite map_length|].
  intros k Hk. rewrite <- (I k Hk). unfold vget. exact (map_nth (fun x : bool => if x then n1 else n0) ind false k).
Qed.
Lemma rows_node (b : basis f64) ts js : DistinctF (b_tau b) -> ts <> [] -> Forall2 (fun x j => Finite x /\ j < length (b_tau b) /\ val x = val (fnode (b_tau b) j)) ts js ->
  exists M, interp_matrix b (PVec ts) = Ok M /\ nr M = length ts /\ nc M = length (b_tau b) /\
    forall r j, nth_error js r = Some j -> forall k, k < length (b_tau b) -> at_m M r k = if k =? j then n1 else n0.
Proof.
  intros D Hn H. unfold interp_matrix. cbn [atleast_1d rbind].
  assert (K : exists rr, rmapM (interp_row b) ts = Ok rr /\ Forall2 (fun row j => forall k, k < length (b_tau b) -> vget row k = if k =? j then n1 else n0) rr js).
  { clear Hn. induction H as [|x j ts js (Fx & Hj & E) H (rr & Er & Hr)]; [exists []; split; [reflexivity|constructor]|].
    destruct (row_node b x j D Hj Fx E) as (row & ER & _ & HR). exists (row :: rr). cbn [rmapM]. rewrite ER. cbn [rbind]. rewrite Er. cbn. split; [reflexivity|now constructor]. }
  destruct K as (rr & Er & Hr). rewrite Er. cbn [rbind]. assert (L : length rr = length ts) by (rewrite <- (F2_len _ _ _ H), <- (F2_len _ _ _ Hr); reflexivity).
  destruct rr as [|r0 rr']; [destruct ts; [contradiction|discriminate L]|]. set (rr := r0 :: rr') in *. eexists. split; [reflexivity|]. cbn [vstack_rows nr nc at_m]. split; [exact L|]. split; [reflexivity|].
  intros r j Ej k Hk. assert (exists row, nth_error rr r = Some row /\ vget row k = if k =? j then n1 else n0) as (row & E1 & E2).
  { clear -Hr Ej Hk. revert r Ej. induction Hr; intros [|r] E; cbn in E; try discriminate; [injection E as <-; cbn; eauto|cbn; auto]. }
  rewrite (nth_error_nth _ _ _ E1). exact E2.
Qed.
Lemma dot_node (u M : mat f64) r j : FiniteM u -> nc M = nc u -> r < nr M -> j < nc u -> (forall k, k < nc u -> at_m M r k = if k =? j then n1 else n0) ->
  forall i, i < nr u -> Is (nsum (nc u) (fun k => (at_m u i k * at_m (mtr M) k r)%num)) (val (at_m u i j)).
Proof.
  intros Fu E Hr Hj H i Hi. apply (sum_single _ _ j); [exact Hj| |].
  - cbn [mtr at_m]. rewrite H, Nat.eqb_refl by exact Hj. apply mul_one; [now apply Fu|apply one_fin].
  - intros k Hk Nk. cbn [mtr at_m]. rewrite H by exact Hk. destruct (Nat.eqb_spec k j); [contradiction|]. apply mul_zero; [now apply Fu|apply zero_fin].
Qed.

(** [barycentricInterpolator(x)(u, q)] where every query equals a node *)
Theorem bary_nodes x (u : mat f64) ts js : DistinctF x -> FiniteM u -> nc u = length x -> ts <> [] ->
  Forall2 (fun q j => Finite q /\ j < length x /\ val q = val (fnode x j)) ts js ->
  exists Y, bary_interpolator (PVec x) u (PVec ts) = Ok Y /\ nr Y = nr u /\ nc Y = length ts /\ forall k j, nth_error js k = Some j -> IsCol Y k u j.
Proof.
  intros D Fu Hu Hn H. unfold bary_interpolator, basis_. cbn [atleast_1d rbind]. assert (L : 0 < length x) by (destruct H as [|q j qs js (_ & H & _)]; [contradiction|lia]). apply Nat.ltb_lt in L. rewrite L. cbn [rassert rbind].
  match goal with |- context [interp_matrix ?B _] => set (b := B) end.
  destruct (rows_node b ts js) as (M & EM & M1 & M2 & HM); [exact D|exact Hn|exact H|]. rewrite EM. cbn [rbind]. change (length (b_tau b)) with (length x) in *. unfold mdot. cbn [mtr nr nc]. rewrite M2, <- Hu, Nat.eqb_refl.
  eexists. split; [reflexivity|]. cbn [nr nc at_m]. split; [reflexivity|]. split; [exact M1|]. intros k j E r Hr. cbn [at_m].
  assert (Hk : k < length ts) by (rewrite <- (F2_len _ _ _ H); apply nth_error_Some; congruence).
  assert (Hj : j < length x). { clear -E H. revert k E. induction H as [|q j' ts js (_ & K & _) H IH]; intros [|k] E; cbn in E; try discriminate; [now injection E as <-|eauto]. }
  apply (dot_node u M k j Fu); auto; try congruence; try lia. intros k' Hk'. apply HM; [exact E|lia].
Qed.
