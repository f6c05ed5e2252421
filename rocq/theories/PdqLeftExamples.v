(** C59 for 'left' on one grid: the value at collocation point 1 is column 1 of the data, which belongs to point 2. *)
From Coq Require Import Reals Lra.
From Coquelicot Require Import Coquelicot.
From Verif Require Import PyBase NumModel NumInst NumSpec PolynomialModel PiecewiseModel PdqModel PolySpec PdqSpec PdqThms PdqThms2 PdqThms3 PolynomialExamples PdqExamples PdqLeftThms.
Open Scope R_scope.

Theorem left_shift_refuted : exists p q x M, pdq_ (collocation_points cos PI radau2) [0; 1; 3] 2 "radau" = Ok p /\ pq_interpolator p "left" = Ok q /\ nc x = (length (pq_pts p) - 1)%nat /\
  pi_call q x (PVec [node (pq_pts p) 1]) = Ok M /\ at_m M 0 0 = at_m x 0 1 /\ at_m x 0 1 <> at_m x 0 0.
Proof.
  destruct radau2_nodes as (tau & Ec & HN & H1). destruct (pdq_grid _ [0; 1; 3] 2 "radau"%string tau bounds_013 ltac:(lia) Ec HN) as (p & E & _ & G & _).
  destruct (left_data _ [0; 1; 3] 2 "radau"%string tau p bounds_013 ltac:(lia) Ec HN E) as (q & Eq & Hq).
  destruct (Hq (Mat 1 4 (fun _ k => INR k)) 0%nat 1%nat eq_refl ltac:(unfold ivals; simpl; lia) ltac:(lia)) as (M & EM & _ & _ & HM).
  exists p, q, (Mat 1 4 (fun _ k => INR k)), M. split; [exact E|]. split; [exact Eq|]. destruct G as [-> _]. split; [reflexivity|]. split; [exact EM|]. split; [apply HM|]. simpl. lra.
Qed.
