(** The length of the time interval of a [Pdq] (C83). *)
From Coq Require Import Reals Lra.
From Coquelicot Require Import Coquelicot.
From Verif Require Import PyBase NumModel NumInst NumSpec PolynomialModel PiecewiseModel PdqModel PolySpec PdqSpec PdqThms PdqThms2 PdqThms3 PolynomialExamples PdqExamples.
Open Scope R_scope.

Lemma Asc_le l i j : Asc l -> (i <= j < length l)%nat -> node l i <= node l j.
Proof. intros HA H. destruct (Nat.eq_dec i j) as [->|]; [lra|]. left. apply HA. lia. Qed.

(** [intervalLength()] is the largest distance of two collocation points. *)
Theorem pdq_length_points colpts t order ptype tau p : Bounds t -> (1 <= order)%nat -> colpts order ptype = Ok tau -> Nodes order tau ->
  pdq_ colpts t order ptype = Ok p ->
  pq_num p = ivals t /\ pq_order p = order /\ 0 < pq_length p /\
  (exists x y, In x (pq_pts p) /\ In y (pq_pts p) /\ pq_length p = y - x) /\
  forall x y, In x (pq_pts p) -> In y (pq_pts p) -> y - x <= pq_length p.
Proof.
  intros HB Ho Ec HN Ep. destruct (pdq_grid colpts t order ptype tau HB Ho Ec HN) as (p' & Ep' & Et & (G1 & _) & HA & _).
  rewrite Ep in Ep'. injection Ep' as <-. split; [unfold pq_num; now rewrite Et|].
  assert (HO : pq_order p = order).
  { unfold pdq_ in Ep. destruct (rmapM _ _) as [l|]; [|discriminate]. cbn [rbind] in Ep. destruct (rev l) as [|[tl ?] ?]; [discriminate|]. injection Ep as <-. reflexivity. }
  split; [exact HO|].
  assert (Hl : (1 <= ivals t)%nat) by (destruct HB; unfold ivals; lia).
  assert (Hn : (0 < length (pq_pts p) - 1 < length (pq_pts p))%nat) by (rewrite G1; nia).
  change (pq_length p) with (node (pq_pts p) (length (pq_pts p) - 1) - node (pq_pts p) 0).
  split; [|split].
  - pose proof (HA 0%nat (length (pq_pts p) - 1)%nat ltac:(lia)). lra.
  - exists (node (pq_pts p) 0), (node (pq_pts p) (length (pq_pts p) - 1)). split; [apply nth_In; lia|]. split; [apply nth_In; lia|reflexivity].
  - intros x y Hx Hy. apply (In_nth _ _ 0) in Hx, Hy. destruct Hx as (i & Hi & <-), Hy as (j & Hj & <-).
    pose proof (Asc_le _ 0 i HA ltac:(lia)). pose proof (Asc_le _ j (length (pq_pts p) - 1) HA ltac:(lia)). unfold node in *. lra.
Qed.
(** It falls short of the distance of the outer bounds by the part of the last interval
    that lies after its last collocation point. *)
Theorem pdq_length_bounds colpts t order ptype tau p : Bounds t -> (1 <= order)%nat -> colpts order ptype = Ok tau -> Nodes order tau ->
  pdq_ colpts t order ptype = Ok p ->
  pq_length p = node t (ivals t) - node t 0 - (1 - node tau order) * step t (ivals t - 1) /\
  (pq_length p = node t (ivals t) - node t 0 <-> node tau order = 1).
Proof.
  intros HB Ho Ec HN Ep. destruct (pdq_grid colpts t order ptype tau HB Ho Ec HN) as (p' & Ep' & Et & (G1 & G2 & G3) & _ & E0 & _).
  rewrite Ep in Ep'. injection Ep' as <-.
  assert (Hl : (1 <= ivals t)%nat) by (destruct HB; unfold ivals; lia).
  assert (Hs : 0 < step t (ivals t - 1)).
  { destruct HB as [H2 HA]. unfold step, ivals. assert (node t (length t - 1 - 1) < node t (length t - 1 - 1 + 1)); [apply HA; lia|lra]. }
  assert (E : pq_length p = node t (ivals t) - node t 0 - (1 - node tau order) * step t (ivals t - 1)).
  { change (pq_length p) with (node (pq_pts p) (length (pq_pts p) - 1) - pq_t0 p). rewrite E0, G1, Nat.add_sub, G3.
    unfold step. replace (ivals t - 1 + 1)%nat with (ivals t) by lia. ring. }
  split; [exact E|]. rewrite E. split; [|intros ->; ring]. intros H.
  assert ((1 - node tau order) * step t (ivals t - 1) = 0) as K by lra. apply Rmult_integral in K. destruct K; lra.
Qed.

(** Gauss-Legendre points of order 1 on the bounds 0, 1, 2: the length is 3/2. *)
Example C83_example : exists p, Bounds [0; 1; 2] /\ Nodes 1 [0; 1 / 2] /\ collocation_points cos PI legendre1 1 "legendre" = Ok [0; 1 / 2] /\
  pdq_ (collocation_points cos PI legendre1) [0; 1; 2] 1 "legendre" = Ok p /\ pq_length p = 3 / 2.
Proof.
  assert (HB : Bounds [0; 1; 2]) by (split; [simpl; lia|apply Asc_3; lra]).
  assert (HN : Nodes 1 [0; 1 / 2]) by (split; [reflexivity|]; split; [|unfold node; simpl; lra]; intros i j H; simpl in H; unfold node; destruct i as [|[|i]], j as [|[|j]]; simpl; try lia; lra).
  destruct (pdq_grid (collocation_points cos PI legendre1) [0; 1; 2] 1 "legendre"%string [0; 1 / 2] HB (le_n 1) legendre1_pts HN) as (p & Ep & _).
  exists p. split; [exact HB|]. split; [exact HN|]. split; [exact legendre1_pts|]. split; [exact Ep|].
  destruct (pdq_length_bounds _ _ 1 _ _ p HB (le_n 1) legendre1_pts HN Ep) as [-> _]. unfold step, ivals, node. simpl. lra.
Qed.
