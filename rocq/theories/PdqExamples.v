(** Examples for C55-C60: the repository's own tests replayed over the rational numbers,
    concrete instances of the theorems' hypotheses over the real numbers, refutations. *)
From Coq Require Import Reals QArith Lra ClassicalEpsilon.
From Coquelicot Require Import Coquelicot.
From Verif Require Import PyBase NumModel NumInst NumSpec PolynomialModel PiecewiseModel PdqModel PolySpec PdqSpec PolyMath PolynomialBase PolynomialThms PolynomialThms2 PiecewiseThms PdqThms PdqThms2 PdqThms3 PolynomialExamples.

(** ** Computations over the rational numbers *)
Section OverQ.
#[local] Existing Instance numQ.
Open Scope Q_scope.
Definition qcol := collocation_points qcospi 1 qpts.
Definition qpdq (t : list Q) (order : nat) := pdq_ qcol t order "chebyshev".
Definition qred (m : res (mat Q)) : res (list (list Q)) := let* m := m in Ok (map (map Qred) (qlist m)).
(** test_system_trajectory.py, test_interpolation *)
Definition qtraj := let* p := qpdq [1 # 10; 2 # 10; 3 # 10; 4 # 10] 1 in traj_ (PVec [2; 3; 4; 5]) (PVec [4; 5; 6]) (PVec [-1; -2; -3]) p.
Example traj_state : (let* s := qtraj in qred (st_state s (PVec [1 # 10; 2 # 10; 3 # 10; 4 # 10]))) = Ok [[2; 3; 4; 5]]. Proof. vm_compute. reflexivity. Qed.
Example traj_alg : (let* s := qtraj in qred (st_algState s (PVec [1 # 10; 2 # 10; 3 # 10]))) = Ok [[4; 5; 6]]. Proof. vm_compute. reflexivity. Qed.
Example traj_input : (let* s := qtraj in qred (st_input s (PVec [1 # 10; 2 # 10; 3 # 10]))) = Ok [[-1; -2; -3]]. Proof. vm_compute. reflexivity. Qed.
Example traj_middle : (let* s := qtraj in qred (st_state s (PVec [15 # 100; 25 # 100]))) = Ok [[5 # 2; 7 # 2]]. Proof. vm_compute. reflexivity. Qed.
Example traj_middle_alg : (let* s := qtraj in qred (st_algState s (PVec [15 # 100; 25 # 100]))) = Ok [[4; 5]]. Proof. vm_compute. reflexivity. Qed.
Example traj_columns : (let* p := qpdq [0; 1; 2] 1 in let* _ := traj_ (PVec [2; 3; 4]) (PVec [4; 5; 6]) (PVec [-1; -2]) p in Ok tt) = Err EAssert. Proof. vm_compute. reflexivity. Qed.
(** The arguments of test_expandInput: two copies of each column, where the (skipped) test
    expects three. *)
Example expand_ex : (let* p := qpdq [0; 1; 2] 2 in qred (pq_expand p (qmat 2 2 [[1; 2]; [3; 4]]))) = Ok [[1; 1; 2; 2]; [3; 3; 4; 4]]. Proof. vm_compute. reflexivity. Qed.
Example pdq_points : (let* p := qpdq [0; 1; 3] 3 in Ok (map Qred (pq_pts p), pq_groups p)) = Ok ([0; 1 # 4; 3 # 4; 1; 3 # 2; 5 # 2; 3], [[0; 1; 2; 3]; [3; 4; 5; 6]]%nat). Proof. vm_compute. reflexivity. Qed.
(** t^2 on [0, 1] and 2 t - 1 on [1, 3]: both derivatives are 2 at 1. *)
Example pdq_derivative_ex : (let* p := qpdq [0; 1; 3] 2 in qred (pq_derivative p (qmat 1 5 [[0; 1 # 4; 1; 3; 5]]))) = Ok [[0; 1; 2; 2]]. Proof. vm_compute. reflexivity. Qed.
(** One state and a single point: the 1 x 1 factor scales. *)
Example pdq_derivative_scalar : (let* p := qpdq [0; 1; 3] 2 in qred (pq_derivative p (qmat 1 1 [[2]]))) = Ok [[-6; -2; 0; 0]; [8; 0; 0; 0]; [-2; 2; -3; -1]; [0; 0; 4; 0]; [0; 0; -1; 1]]. Proof. vm_compute. reflexivity. Qed.
Example pdq_no_interval : (let* p := qpdq [0] 2 in Ok tt) = Err EName. Proof. vm_compute. reflexivity. Qed.
(** C59: the option 'left' *)
Definition qleft (x : mat Q) (t : nparg Q) := let* p := qpdq [0; 1; 2; 3] 1 in let* q := pq_interpolator p "left" in qred (pi_call q x t).
(** The columns belong to the points 1, 2, 3; the first interval is read one column too far. *)
Example left_shifted : qleft (qmat 1 3 [[10; 20; 30]]) (PVec [1 # 2; 3 # 2]) = Ok [[20; 30]]. Proof. vm_compute. reflexivity. Qed.
Example left_last : qleft (qmat 1 3 [[10; 20; 30]]) (PNum 3) = Err EIndex. Proof. vm_compute. reflexivity. Qed.
End OverQ.

(** ** The hypotheses over the real numbers *)
Open Scope R_scope.
Example bounds_013 : Bounds [0; 1; 3]. Proof. split; [simpl; lia|apply Asc_013]. Qed.
Lemma Asc_3 a b c : a < b -> b < c -> Asc [a; b; c].
Proof. intros H1 H2 i j H. simpl in H. unfold node. destruct i as [|[|[|i]]], j as [|[|[|j]]]; simpl; try lia; lra. Qed.
Example nodes_3 : Nodes 2 [0; 1 / 2; 1]. Proof. split; [reflexivity|]. split; [apply Asc_3; lra|]. unfold node. simpl. lra. Qed.
(** Radau points of order 2 *)
Definition radau2 (order : nat) (s : string) : res (list R) := Ok [1 / 3; 1].
Example radau2_nodes : exists tau, collocation_points cos PI radau2 2 "radau" = Ok tau /\ Nodes 2 tau /\ node tau 2 = 1.
Proof. exists [0; 1 / 3; 1]. split; [reflexivity|]. split; [split; [reflexivity|]; split; [apply Asc_3; lra|]; unfold node; simpl; lra|reflexivity]. Qed.
Example pdq_radau_ex : exists p, pdq_ (collocation_points cos PI radau2) [0; 1; 3] 2 "radau" = Ok p /\ Grid [0; 1; 3] [0; 1 / 3; 1] 2 (pq_pts p).
Proof.
  destruct (pdq_grid (collocation_points cos PI radau2) [0; 1; 3] 2 "radau" [0; 1 / 3; 1] bounds_013 ltac:(lia) eq_refl) as (p & E & _ & G & _); [|now exists p].
  split; [reflexivity|]. split; [apply Asc_3; lra|]. unfold node. simpl. lra.
Qed.
Example pdq_chebyshev_ex cspts : exists p, pdq_ (collocation_points cos PI cspts) [0; 1; 3] 4 "chebyshev" = Ok p /\ length (pq_pts p) = 9%nat.
Proof. destruct (pdq_chebyshev cspts [0; 1; 3] 4 bounds_013 ltac:(lia)) as (p & E & _ & L & _). now exists p. Qed.
(** The samples of [|t - 1|]: a polynomial on each interval *)
Definition kink (i r : nat) : R -> R := match i with O => fun t => 1 - t | S _ => fun t => t - 1 end.
Example kink_poly i r : PolyLt (4 + 1) (kink i r).
Proof. destruct i; simpl; [exists [1; -1]|exists [-1; 1]]; (split; [simpl; lia|intros t; simpl; ring]). Qed.
Example kink_derivative cspts : exists p y M, pdq_ (collocation_points cos PI cspts) [0; 1; 3] 4 "chebyshev" = Ok p /\ pq_derivative p y = Ok M /\ at_m M 0 3 = -1 /\ at_m M 0 4 = 1.
Proof.
  destruct (pdq_chebyshev cspts [0; 1; 3] 4 bounds_013 ltac:(lia)) as (p & E & _ & L & _ & B & _). set (y := Mat 1 9 (fun _ k => Rabs (node (pq_pts p) k - 1))).
  destruct (cheb_nodes cspts 4 ltac:(lia)) as (tau & Ec & HN & H1). pose proof (gpts_grid [0; 1; 3] tau 4 bounds_013 HN) as HG.
  destruct (pdq_grid _ [0; 1; 3] 4 "chebyshev"%string tau bounds_013 ltac:(lia) Ec HN) as (p' & E' & _ & G & _). rewrite E in E'. injection E' as <-. pose proof (grid_bounds [0; 1; 3] tau 4 (pq_pts p) bounds_013 ltac:(lia) HN H1 G) as (_ & GB & _).
  destruct (derivative_exact _ [0; 1; 3] 4 "chebyshev"%string tau p bounds_013 ltac:(lia) Ec HN E y kink H1 eq_refl) as (M & EM & _ & _ & D).
  - intros i r _ _. apply kink_poly.
  - intros i r j Hi _ Hj. change (Rabs (node (pq_pts p) (i * 4 + j) - 1) = kink i r (node (pq_pts p) (i * 4 + j))). rewrite (GB i j Hi Hj). pose proof (tau_range 4 tau j HN Hj) as HT. set (c := node tau j) in *. clearbody c. unfold ivals in Hi. simpl in Hi. destruct i as [|[|i]]; [| |lia]; unfold step, node; simpl.
    + rewrite Rabs_left1 by lra. ring.
    + rewrite Rabs_pos_eq by lra. ring.
  - exists p, y, M. split; [exact E|]. split; [exact EM|]. split.
    + specialize (D 0%nat 0%nat 3%nat ltac:(unfold ivals; simpl; lia) ltac:(simpl; lia) ltac:(lia)). apply is_derive_unique in D. symmetry in D. etransitivity; [exact D|]. apply is_derive_unique. unfold kink. auto_derive; [auto|ring].
    + specialize (D 1%nat 0%nat 0%nat ltac:(unfold ivals; simpl; lia) ltac:(simpl; lia) ltac:(lia)). apply is_derive_unique in D. symmetry in D. etransitivity; [exact D|]. apply is_derive_unique. unfold kink. auto_derive; [auto|ring].
Qed.
(** A solver for every solvable system *)
Definition solve_any (A B : mat R) : res (mat R) :=
  match excluded_middle_informative (exists S, Solution A B S) with
  | left H => Ok (proj1_sig (constructive_indefinite_description _ H))
  | right _ => Err EValue
  end.
Example solve_any_solver : Solver solve_any.
Proof. intros A B S. unfold solve_any. destruct (excluded_middle_informative _) as [H|]; [|discriminate]. intros [= <-]. exact (proj2_sig (constructive_indefinite_description _ H)). Qed.
Example solve_any_complete : Complete solve_any.
Proof. intros A B _ _ H. unfold solve_any. destruct (excluded_middle_informative _); [eexists; reflexivity|contradiction]. Qed.
Example polynomial_interpolator_ex : exists m, poly_interpolator solve_any (PVec [0; 1]) (Mat 1 2 (fun _ j => INR j)) (PArr (Mat 1 2 (fun _ j => 5 + INR j))) = Ok m /\ at_m m 0 1 = 6.
Proof.
  assert (Hd : NoDup [0; 1]) by (repeat constructor; simpl; intros H; repeat destruct H as [H|H]; lra || tauto).
  destruct (polynomial_interpolator solve_any [0; 1] (Mat 1 2 (fun _ j => INR j)) (PArr (Mat 1 2 (fun _ j => 5 + INR j))) [5 + INR 0; 5 + INR 1]
    solve_any_solver solve_any_complete Hd ltac:(discriminate) eq_refl (QRow (Mat 1 2 (fun _ j => 5 + INR j)) eq_refl)) as (m & E & _ & _ & H).
  exists m. split; [exact E|]. rewrite (H 0%nat 1%nat (fun t => t)).
  - unfold node. simpl. lra.
  - simpl. lia.
  - exists [0; 1]. split; [simpl; lia|]. intros t. simpl. ring.
  - intros [|[|j]] Hj; [reflexivity|reflexivity|simpl in Hj; lia].
Qed.
Example integral_ex cspts (dy : mat R) : nc dy = 8%nat -> exists p Y M, pdq_ (collocation_points cos PI cspts) [0; 1; 3] 4 "chebyshev" = Ok p /\ pq_integral solve_any p dy = Ok Y /\ pq_derivative p (with_zero Y) = Ok M /\ MatEq M dy.
Proof.
  intros Hd. destruct (cheb_nodes cspts 4 ltac:(lia)) as (tau & Ec & HN & H1). destruct (pdq_grid _ [0; 1; 3] 4 "chebyshev"%string tau bounds_013 ltac:(lia) Ec HN) as (p & E & _).
  destruct (integral_total _ [0; 1; 3] 4 "chebyshev"%string tau p bounds_013 ltac:(lia) Ec HN E solve_any dy solve_any_solver solve_any_complete Hd) as [Y EY].
  destruct (integral_spec _ [0; 1; 3] 4 "chebyshev"%string tau p bounds_013 ltac:(lia) Ec HN E solve_any dy Y solve_any_solver Hd EY) as (_ & _ & M & EM & Q). now exists p, Y, M.
Qed.
Example in_interval_ex : InInterval [0; 1; 3] 1 1 /\ InInterval [0; 1; 3] 3 1 /\ InInterval [0; 1; 3] (-5) 0.
Proof. unfold InInterval, ivals, node. simpl. repeat split; try lia; try (left; lia); right; lra. Qed.
Example traj_ex cspts : exists p s, pdq_ (collocation_points cos PI cspts) [0; 1; 3] 4 "chebyshev" = Ok p /\ traj_ (PArr (Mat 2 9 (fun i j => INR (i + j)))) (PVec [1; 2; 3; 4; 5; 6; 7; 8]) (PVec [1; 2; 3; 4; 5; 6; 7; 8]) p = Ok s.
Proof.
  destruct (cheb_nodes cspts 4 ltac:(lia)) as (tau & Ec & HN & H1). destruct (pdq_grid _ [0; 1; 3] 4 "chebyshev"%string tau bounds_013 ltac:(lia) Ec HN) as (p & E & _).
  destruct (proj1 (trajectory_accepts _ [0; 1; 3] 4 "chebyshev"%string tau p bounds_013 ltac:(lia) Ec HN E (PArr (Mat 2 9 (fun i j => INR (i + j)))) (PVec [1; 2; 3; 4; 5; 6; 7; 8]) (PVec [1; 2; 3; 4; 5; 6; 7; 8]) _ _ _ (rows_2d _) (rows_2d _) (rows_2d _))) as [s Hs]; [repeat split|]. now exists p, s.
Qed.

(** ** Refutations *)
(** C56 for Gauss-Legendre points, which leave out the end of the interval: the value taken
    as that at the last point of an interval is the one at the next bound.  The samples of
    [f t = t] at 0, 1, 3/2 give the slope 2 at 0. *)
Definition legendre1 (order : nat) (s : string) : res (list R) := Ok [1 / 2].
Lemma legendre1_pts : collocation_points cos PI legendre1 1 "legendre" = Ok [0; 1 / 2]. Proof. reflexivity. Qed.
Theorem derivative_legendre_refuted : exists p M,
  pdq_ (collocation_points cos PI legendre1) [0; 1; 2] 1 "legendre" = Ok p /\ pq_pts p = [0; 1; 3 / 2] /\
  pq_derivative p (Mat 1 3 (fun _ k => node (pq_pts p) k)) = Ok M /\ at_m M 0 0 = 2 /\ ~ is_derive (fun t => t) (node (pq_pts p) 0) (at_m M 0 0).
Proof.
  assert (HB : Bounds [0; 1; 2]) by (split; [simpl; lia|apply Asc_3; lra]). assert (HN : Nodes 1 [0; 1 / 2]) by (split; [reflexivity|]; split; [|unfold node; simpl; lra]; intros i j H; simpl in H; unfold node; destruct i as [|[|i]], j as [|[|j]]; simpl; try lia; lra).
  destruct (pdq_grid (collocation_points cos PI legendre1) [0; 1; 2] 1 "legendre"%string [0; 1 / 2] HB (le_n 1) legendre1_pts HN) as (p & Ep & _ & (G1 & G2 & G3) & _).
  assert (EP : pq_pts p = [0; 1; 3 / 2]).
  { pose proof (G2 0%nat 0%nat ltac:(unfold ivals; simpl; lia) ltac:(lia)) as A0. pose proof (G2 1%nat 0%nat ltac:(unfold ivals; simpl; lia) ltac:(lia)) as A1. unfold ivals, step, node in *. simpl in *. destruct (pq_pts p) as [|a [|b [|c [|d l]]]]; simpl in *; try lia. f_equal; [lra|]. f_equal; [lra|]. f_equal. lra. }
  destruct (derivative_blocks (collocation_points cos PI legendre1) [0; 1; 2] 1 "legendre"%string [0; 1 / 2] p HB (le_n 1) legendre1_pts HN Ep (Mat 1 3 (fun _ k => node (pq_pts p) k)) eq_refl) as (M & EM & _ & _ & HM).
  exists p, M. split; [exact Ep|]. split; [exact EP|]. split; [exact EM|].
  assert (E2 : at_m M 0 0 = 2).
  { pose proof (HM 0%nat 0%nat 0%nat ltac:(unfold ivals; simpl; lia) ltac:(lia)) as H. etransitivity; [exact H|]. clear H.
    destruct (differentiation_matrix _ _ (lbasis_ok [0; 1; 2] [0; 1 / 2] 0 ltac:(discriminate)) (lbasis_nodup [0; 1; 2] [0; 1 / 2] 0 1 HB ltac:(unfold ivals; simpl; lia) HN)) as (_ & _ & D & _).
    assert (P2 : PolyLt (length (lpts [0; 1; 2] [0; 1 / 2] 0)) (fun z => 2 * z)) by (exists [0; 2]; split; [simpl; lia|intros z; simpl; ring]).
    pose proof (is_derive_unique _ _ _ (D _ 0%nat P2 ltac:(simpl; lia))) as E. assert (K : Derive (fun z => 2 * z) (node (lpts [0; 1; 2] [0; 1 / 2] 0) 0) = 2) by (apply is_derive_unique; auto_derive; [auto|ring]). rewrite K in E. symmetry. etransitivity; [exact E|].
    change (length (lpts [0; 1; 2] [0; 1 / 2] 0)) with (1 + 1)%nat. apply Sum_ext. intros k Hk. f_equal. rewrite EP. destruct k as [|[|k]]; [| |lia]; rewrite lpts_node by (simpl; lia); unfold step, node; simpl; lra. }
  split; [exact E2|]. rewrite E2. intros H. apply is_derive_unique in H. assert (K : Derive (fun t : R => t) (node (pq_pts p) 0) = 1) by (apply is_derive_unique; auto_derive; [auto|ring]). pose proof (eq_trans (eq_sym K) H). lra.
Qed.
(** C59 for 'left': the data cannot be read back at any point of the last interval, for any
    grid (left_last_interval_raises); here for one grid. *)
Theorem left_refuted : exists p q x, pdq_ (collocation_points cos PI radau2) [0; 1; 3] 2 "radau" = Ok p /\ pq_interpolator p "left" = Ok q /\ nc x = (length (pq_pts p) - 1)%nat /\ pi_call q x (PNum 3) = Err EIndex.
Proof.
  destruct radau2_nodes as (tau & Ec & HN & H1). destruct (pdq_grid _ [0; 1; 3] 2 "radau"%string tau bounds_013 ltac:(lia) Ec HN) as (p & E & _ & G & _).
  destruct (left_last_interval_raises _ [0; 1; 3] 2 "radau"%string tau p bounds_013 ltac:(lia) Ec HN E) as (q & Eq & Hq). exists p, q, (Mat 1 4 (fun _ _ => 7)). split; [exact E|]. split; [exact Eq|]. destruct G as [-> _]. split; [reflexivity|]. apply Hq; [reflexivity|]. apply in_interval_ex.
Qed.
(** C55 in binary64: with the bounds 0.2 and 0.9 the last collocation point is
    1 * (0.9 - 0.2) + 0.2, the number before 0.9. *)
Section OverF.
#[local] Existing Instance numF.
Definition f01 (order : nat) (s : string) : res (list f64) := Ok [n0; n1].
Definition ftf : res bool := let* p := pdq_ f01 [fq 2 10; fq 9 10] 1 "chebyshev" in Ok (neqb (pq_tf p) (fq 9 10)).
Lemma ftf_false : ftf = Ok false. Proof. vm_compute. reflexivity. Qed.
Theorem pdq_tf_refuted : exists p : pdq f64, pdq_ f01 [fq 2 10; fq 9 10] 1 "chebyshev" = Ok p /\ neqb (pq_tf p) (fq 9 10) = false.
Proof. pose proof ftf_false as H. unfold ftf in H. destruct (pdq_ _ _ _ _) as [p|]; [|discriminate]. cbn [rbind] in H. exists p. split; [reflexivity|]. injection H as H. exact H. Qed.
End OverF.
