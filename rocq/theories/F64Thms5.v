(** Trajectories, collocation polynomials and collocation times in binary64 (C104). *)
From Coq Require Import Reals Lra.
From Coq Require Import Floats.SpecFloat.
From Verif Require Import PyBase NumModel NumInst PolynomialModel PiecewiseModel PdqModel SchemeModel PolySpec PdqSpec PiecewiseThms F64Spec F64Thms F64Thms2 F64Thms3 F64Thms4.
Open Scope list_scope. Open Scope nat_scope.

Section Generic.
Context {T : Type} {NT : Num T}.
Lemma diff_nth (t : list T) n : n + 1 < length t -> vget (ndiff t) n = (vget t (n + 1) - vget t n)%num.
Proof.
  revert n. induction t as [|a t IH]; intros n H; [simpl in H; lia|]. destruct t as [|b t]; [simpl in H; lia|]. change (ndiff (a :: b :: t)) with ((b - a)%num :: ndiff (b :: t)).
  destruct n; [reflexivity|]. exact (IH n ltac:(simpl in *; lia)).
Qed.
Lemma diff_len (t : list T) : length (ndiff t) = length t - 1.
Proof. induction t as [|a t IH]; [reflexivity|]. destruct t as [|b t]; [reflexivity|]. change (ndiff (a :: b :: t)) with ((b - a)%num :: ndiff (b :: t)). simpl length in *. rewrite IH. lia. Qed.
Lemma scheme_parts cspts (f : daefun T) t order method g rep x K Z u p s : scheme_ cspts f t order method g rep x K Z u p = Ok s ->
  sc_t s = t /\ sc_N s = length t - 1 /\ 2 <= length t /\ sc_M s = order /\ sc_x s = x /\
  sc_tc s = concat (map (fun n => map (fun c => (vget t n + vget (ndiff t) n * c)%num) (tb_c (sc_butcher s))) (seq 0 (length t - 1))) /\
  length (sc_tc s) = (length t - 1) * order.
Proof.
  unfold scheme_. destruct (length t - 1 =? 0) eqn:E0; [discriminate|]. apply Nat.eqb_neq in E0. intros H.
  repeat match type of H with
  | rbind ?X _ = Ok _ => let E := fresh "E" in destruct X eqn:E; [cbn [rbind] in H|discriminate]
  end.
  injection H as <-. cbn [sc_t sc_N sc_M sc_x sc_tc sc_butcher].
  match goal with |- context [length ?X = (length t - 1) * order] => assert (LC : length X = (length t - 1) * order) end.
  { match goal with E : dae_map _ _ _ _ _ _ _ _ _ _ = Ok _ |- _ => unfold dae_map in E; match type of E with (if ?b then _ else _) = _ => destruct b eqn:B; [|discriminate] end end.
    apply andb_prop in B. destruct B as [B _]. apply andb_prop in B. destruct B as [_ B]. now apply Nat.eqb_eq in B. }
  repeat (split; [first [reflexivity|lia]|]). exact LC.
Qed.
Lemma piecewise_parts (s : scheme T) x K pp : piecewise_X s x K = Ok pp -> exists X, eval_X s x K = Ok X /\ pp_t pp = sc_t s /\ b_tau (pp_b pp) = n0 :: tb_c (sc_butcher s) /\
  2 <= length (sc_t s) /\ length (pp_c pp) = length (sc_t s) - 1 /\
  forall n, n < sc_N s -> exists C, nth_error (pp_c pp) n = Some C /\ hstack [mcols x n (n + 1); mcols X (n * sc_M s) ((n + 1) * sc_M s)] = Ok C.
Proof.
  unfold piecewise_X. destruct (eval_X s x K) as [X|]; [|discriminate]. cbn [rbind]. destruct (rmapM _ _) as [cf|] eqn:EC; [|discriminate]. cbn [rbind]. apply rmapM_back in EC.
  unfold basis_. cbn [atleast_1d rbind length]. change (0 <? S (length (tb_c (sc_butcher s)))) with true. cbn [rassert rbind]. unfold ppoly_.
  destruct (1 <? length (sc_t s)) eqn:E1; [|discriminate]. cbn [rassert rbind]. destruct (length cf =? _) eqn:E2; [|discriminate]. cbn [rassert rbind]. intros [= <-]. apply Nat.ltb_lt in E1. apply Nat.eqb_eq in E2.
  exists X. cbn [pp_t pp_b pp_c b_tau]. repeat (split; [first [reflexivity|lia]|]). intros n Hn. destruct (F2_nth _ _ _ n n EC) as (C & H1 & H2); [rewrite (nth_error_nth' _ 0) by (rewrite seq_length; exact Hn); now rewrite seq_nth|]. eauto.
Qed.
End Generic.

#[local] Existing Instance numF.
(** ** SystemTrajectory *)
Section Traj64.
Context (colpts : nat -> string -> res (list f64)) (t : list f64) (order : nat) (ptype : string) (tau : list f64) (p : pdq f64).
Context (Ep : pdq_ colpts t order ptype = Ok p) (Ec : colpts order ptype = Ok tau) (H0 : Is (fnode tau 0) 0) (Ho : 1 <= order).
Context (HA : AscF t) (HS : StepsF t) (HP : AscF (pq_pts p)).
Theorem traj64_data x z u s : traj_ (PArr x) (PArr z) (PArr u) p = Ok s -> FiniteM x -> FiniteM z -> FiniteM u ->
  (exists Y, st_state s (PVec (pq_pts p)) = Ok Y /\ nr Y = nr x /\ nc Y = nc x /\ forall k, k < nc x -> IsCol Y k x k) /\
  (exists Y, st_algState s (PVec (removelast (pq_pts p))) = Ok Y /\ nr Y = nr z /\ nc Y = nc z /\ forall k, k < nc z -> IsCol Y k z k) /\
  (exists Y, st_input s (PVec (removelast (pq_pts p))) = Ok Y /\ nr Y = nr u /\ nc Y = nc u /\ forall k, k < nc u -> IsCol Y k u k).
Proof.
  intros E Fx Fz Fu. destruct (pdq_parts _ _ _ _ _ _ Ep Ec) as (HL & _ & _ & _ & HN & _). unfold traj_ in E. cbn [atleast_2d] in E. rewrite HN in E.
  destruct (nc x =? _) eqn:E1; [|discriminate]. cbn [rassert rbind] in E. destruct (nc z =? _) eqn:E2; [|discriminate]. cbn [rassert rbind] in E. destruct (nc u =? _) eqn:E3; [|discriminate]. cbn [rassert rbind] in E.
  apply Nat.eqb_eq in E1, E2, E3. rewrite Nat.add_sub in E2, E3.
  destruct (interp64_data colpts t order ptype tau p Ep Ec H0 Ho HA HS HP "both" (order + 1) ((length t - 1) * order + 1)) as (qx & Qx & Dx); [left; auto|].
  destruct (interp64_data colpts t order ptype tau p Ep Ec H0 Ho HA HS HP "right" order ((length t - 1) * order)) as (qz & Qz & Dz); [right; auto|].
  rewrite Qx, Qz in E. cbn [rbind] in E. injection E as <-. cbn [st_state st_algState st_input st_ix st_iz st_iu st_x st_z st_u].
  assert (L1 : firstn ((length t - 1) * order + 1) (pq_pts p) = pq_pts p) by (rewrite <- HN; apply firstn_all).
  assert (L2 : firstn ((length t - 1) * order) (pq_pts p) = removelast (pq_pts p)) by (rewrite removelast_firstn_len, HN; f_equal; lia).
  split; [|split].
  - destruct (Dx x E1 Fx) as (Y & EY & ? & ? & ?). exists Y. rewrite L1 in EY. rewrite E1. unfold st_state. cbn [st_ix st_x]. auto.
  - destruct (Dz z E2 Fz) as (Y & EY & ? & ? & ?). exists Y. rewrite L2 in EY. unfold st_algState. cbn [st_iz st_z]. rewrite E2. auto.
  - destruct (Dz u E3 Fu) as (Y & EY & ? & ? & ?). exists Y. rewrite L2 in EY. unfold st_input. cbn [st_iu st_u]. rewrite E3. auto.
Qed.
End Traj64.

(** ** piecewisePolyX *)
Section Poly64.
Context (s : scheme f64) (x K X : mat f64) (pp : ppoly f64).
Notation t := (sc_t s).
Notation c := (tb_c (sc_butcher s)).
Context (EN : sc_N s = length t - 1) (EX : eval_X s x K = Ok X) (Epp : piecewise_X s x K = Ok pp).
Context (HM : length c = sc_M s) (NX : nc X = sc_N s * sc_M s) (HA : AscF t) (HS : StepsF t) (HD : DistinctF (n0 :: c)) (Nx : nc x = sc_N s + 1).
Context (Fx : FiniteM x) (FX : FiniteM X).
Lemma coeff64 n : n < sc_N s -> let C := nth n (pp_c pp) no_mat in nr C = nr x /\ nc C = length (n0 :: c) /\ FiniteM C /\ nr X = nr x /\
  (forall r, at_m C r 0 = at_m x r n) /\ (forall r j, j < sc_M s -> at_m C r (j + 1) = at_m X r (n * sc_M s + j)).
Proof.
  intros Hn C. destruct (piecewise_parts _ _ _ _ Epp) as (X' & EX' & _ & _ & _ & _ & HC). rewrite EX in EX'. injection EX' as <-. destruct (HC n Hn) as (C' & E1 & E2).
  assert (EC : C = C') by (unfold C; apply nth_error_nth; exact E1). rewrite EC. unfold hstack, hcat_from, hcat2 in E2. cbn [nr nc mcols] in E2. destruct (nr x =? nr X) eqn:ER; [|discriminate]. apply Nat.eqb_eq in ER. cbn [rbind] in E2. injection E2 as <-. cbn [nr nc at_m length].
  replace (n + 1 - n) with 1 by lia. replace ((n + 1) * sc_M s - n * sc_M s) with (sc_M s) by lia.
  assert (B : n * sc_M s + sc_M s <= sc_N s * sc_M s) by nia.
  split; [reflexivity|]. split; [lia|]. split; [|split; [congruence|split]].
  - intros r j Hr Hj. cbn [nr nc at_m] in *. destruct (j <? 1) eqn:Ej; [apply Fx; [exact Hr|]; apply Nat.ltb_lt in Ej; lia|]. apply Nat.ltb_ge in Ej. apply FX; [congruence|]. rewrite NX. lia.
  - intros r. cbn. now rewrite Nat.add_0_r.
  - intros r j Hj. destruct (j + 1 <? 1) eqn:Ej; [apply Nat.ltb_lt in Ej; lia|]. f_equal. lia.
Qed.
Lemma Within_node l right i : i + 1 < length l -> Asc (map val l) -> Within (map val l) right (val (fnode l (if right then i else i + 1))) i.
Proof.
  intros Hi HAl. unfold Within. rewrite map_length, fnode_val. split; [exact Hi|]. destruct right; (split; right; [|]).
  - lra.
  - apply HAl. rewrite map_length. lia.
  - apply HAl. rewrite map_length. lia.
  - lra.
Qed.
Theorem poly64_grid n : n < sc_N s -> exists Y, pp_call pp (PNum (fnode t n)) "right" = Ok Y /\ nr Y = nr x /\ nc Y = 1 /\ IsCol Y 0 x n.
Proof.
  intros Hn. destruct (piecewise_parts _ _ _ _ Epp) as (X' & _ & E1 & E2 & E3 & E4 & _). destruct (coeff64 n Hn) as (C1 & C2 & C3 & _ & C5 & _).
  destruct (call_bound pp ltac:(now rewrite E1) ltac:(now rewrite E1, E4) ltac:(now rewrite E1) ltac:(now rewrite E1) ltac:(now rewrite E2) (fnode t n) "right" n 0) as (Y & Y1 & Y2 & Y3 & Y4).
  - apply HA, fnode_in. lia.
  - now right.
  - rewrite E1. apply (Within_node t true n); [lia|apply HA].
  - exact C3.
  - rewrite E2. exact C2.
  - rewrite E2. simpl. lia.
  - left. rewrite E1, E2. split; [reflexivity|]. exact (proj2 zero_fin).
  - exists Y. split; [exact Y1|]. split; [congruence|]. split; [exact Y3|]. intros r Hr. rewrite <- C5. apply Y4. congruence.
Qed.
Theorem poly64_end n : n < sc_N s -> 1 <= sc_M s -> Is (fnode c (sc_M s - 1)) 1 -> exists Y, pp_call pp (PNum (fnode t (n + 1))) "left" = Ok Y /\ nr Y = nr x /\ nc Y = 1 /\ IsCol Y 0 X ((n + 1) * sc_M s - 1).
Proof.
  intros Hn HM1 H1. destruct (piecewise_parts _ _ _ _ Epp) as (X' & _ & E1 & E2 & E3 & E4 & _). destruct (coeff64 n Hn) as (C1 & C2 & C3 & C4 & _ & C6).
  destruct (call_bound pp ltac:(now rewrite E1) ltac:(now rewrite E1, E4) ltac:(now rewrite E1) ltac:(now rewrite E1) ltac:(now rewrite E2) (fnode t (n + 1)) "left" n (sc_M s)) as (Y & Y1 & Y2 & Y3 & Y4).
  - apply HA, fnode_in. lia.
  - now left.
  - rewrite E1. apply (Within_node t false n); [lia|apply HA].
  - exact C3.
  - rewrite E2. exact C2.
  - rewrite E2. simpl. lia.
  - right. rewrite E1, E2. split; [reflexivity|]. destruct (sc_M s) as [|m]; [lia|]. change (val (fnode c m) = 1%R). replace m with (S m - 1) by lia. exact (proj2 H1).
  - exists Y. split; [exact Y1|]. split; [congruence|]. split; [exact Y3|]. intros r Hr. replace ((n + 1) * sc_M s - 1) with (n * sc_M s + (sc_M s - 1)) by nia. rewrite <- C6 by lia. replace (sc_M s - 1 + 1) with (sc_M s) by lia. apply Y4. congruence.
Qed.
End Poly64.

(** ** Collocation times *)
Section Times64.
Context (cspts : nat -> string -> res (list f64)) (f : daefun f64) (t : list f64) (order : nat) (method : string) (g : option (f64 -> mat f64)) (rep : bool) (x K Z u p : mat f64) (s : scheme f64).
Context (Es : scheme_ cspts f t order method g rep x K Z u p = Ok s).
Notation c := (tb_c (sc_butcher s)).
Lemma tc64_node n j : length c = order -> n < length t - 1 -> j < order -> fnode (sc_tc s) (n * order + j) = SFadd 53 1024 (fnode t n) (SFmul 53 1024 (SFsub 53 1024 (fnode t (n + 1)) (fnode t n)) (fnode c j)).
Proof.
  intros HC Hn Hj. destruct (scheme_parts _ _ _ _ _ _ _ _ _ _ _ _ _ Es) as (_ & _ & _ & _ & _ & ET & _). rewrite ET.
  destruct (blocks (fun n => map (fun c => (vget t n + vget (ndiff t) n * c)%num) c) order (S754_zero false)) with (n := length t - 1) as [_ B]; [intros; now rewrite map_length|].
  unfold fnode at 1. rewrite B by assumption. set (h := fun c => (vget t n + vget (ndiff t) n * c)%num). rewrite (nth_indep _ _ (h (S754_zero false))) by (rewrite map_length; lia). rewrite (map_nth h). unfold h. rewrite diff_nth by lia. reflexivity.
Qed.
Context (HC : length c = order) (HA : AscF t) (HS : StepsF t) (Fc : FiniteAll c) (H01 : forall j, j < order -> (0 <= val (fnode c j) <= 1)%R).
Context (n : nat) (Hn : n < length t - 1) (FE : Finite (SFadd 53 1024 (fnode t n) (SFsub 53 1024 (fnode t (n + 1)) (fnode t n)))).
Notation h := (SFsub 53 1024 (fnode t (n + 1)) (fnode t n)).
Lemma tc64_val j : j < order -> Is (fnode (sc_tc s) (n * order + j)) (rnd (val (fnode t n) + rnd (val h * val (fnode c j)))) /\
  (0 <= rnd (val h * val (fnode c j)) <= val h)%R.
Proof.
  intros Hj. destruct (times_side _ HA HS n ltac:(lia)) as (Fa & Fb & Hab & Fh). pose proof (h_pos _ _ Fa Fb Hab Fh) as Ph.
  assert (F : Finite (fnode c j)) by (apply Fc, fnode_in; lia). specialize (H01 j Hj).
  assert (R1 : (0 <= rnd (val h * val (fnode c j)) <= val h)%R).
  { split; [rewrite <- rnd_0; apply rnd_le; nra|]. rewrite <- (round_val _ Fh) at 2. apply rnd_le. nra. }
  assert (M1 : Is (SFmul 53 1024 h (fnode c j)) (rnd (val h * val (fnode c j)))).
  { apply mul_ok; [exact Fh|exact F|]. rewrite Rabs_pos_eq by lra. pose proof (val_lt _ Fh) as V. rewrite Rabs_pos_eq in V by lra. lra. }
  split; [|exact R1]. rewrite tc64_node by assumption. destruct M1 as [FM VM]. rewrite <- VM. apply add_ok; [exact Fa|exact FM|]. rewrite VM.
  assert (VE : val (SFadd 53 1024 (fnode t n) h) = rnd (val (fnode t n) + val h)) by (apply add_val; assumption).
  pose proof (val_lt _ FE) as V1. rewrite VE in V1. pose proof (val_lt _ Fa) as V2. rewrite <- (round_val _ Fa) in V2.
  pose proof (rnd_le (val (fnode t n)) (val (fnode t n) + rnd (val h * val (fnode c j))) ltac:(lra)) as L1. pose proof (rnd_le (val (fnode t n) + rnd (val h * val (fnode c j))) (val (fnode t n) + val h) ltac:(lra)) as L2.
  apply Rabs_def2 in V1, V2. apply Rabs_def1; lra.
Qed.
Theorem tc64_range j : j < order -> Finite (fnode (sc_tc s) (n * order + j)) /\
  (val (fnode t n) <= val (fnode (sc_tc s) (n * order + j)) <= val (SFadd 53 1024 (fnode t n) h))%R /\
  (val (fnode c j) = 0%R -> val (fnode (sc_tc s) (n * order + j)) = val (fnode t n)).
Proof.
  intros Hj. destruct (tc64_val j Hj) as [[F V] R1]. destruct (times_side _ HA HS n ltac:(lia)) as (Fa & Fb & Hab & Fh). split; [exact F|]. rewrite V. split; [split|].
  - rewrite <- (round_val _ Fa) at 1. apply rnd_le. lra.
  - rewrite add_val by assumption. apply rnd_le. lra.
  - intros ->. rewrite Rmult_0_r, rnd_0, Rplus_0_r. apply round_val, Fa.
Qed.
Theorem tc64_mono j k : j < order -> k < order -> (val (fnode c j) <= val (fnode c k))%R -> (val (fnode (sc_tc s) (n * order + j)) <= val (fnode (sc_tc s) (n * order + k)))%R.
Proof.
  intros Hj Hk L. destruct (tc64_val j Hj) as [[_ Vj] _]. destruct (tc64_val k Hk) as [[_ Vk] _]. rewrite Vj, Vk. apply rnd_le. apply Rplus_le_compat_l, rnd_le. destruct (times_side _ HA HS n ltac:(lia)) as (Fa & Fb & Hab & Fh). pose proof (h_pos _ _ Fa Fb Hab Fh). nra.
Qed.
End Times64.
