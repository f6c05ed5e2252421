(** Property theorems about binary64 arithmetic (C104). *)
From Coq Require Import Reals Lra.
From Coq Require Import Floats.SpecFloat.
From Verif Require Import PyBase NumModel NumInst PolynomialModel PiecewiseModel PdqModel SchemeModel PolySpec PdqSpec F64Spec F64Thms F64Thms2 F64Thms3 F64Thms4 F64Thms5 F64Thms6 F64Examples.
Open Scope list_scope. Open Scope nat_scope.
#[local] Existing Instance numF.

Theorem C104_interpolator_nodes : forall x (u : mat f64) ts js,
  DistinctF x -> FiniteM u -> nc u = length x -> ts <> [] ->
  Forall2 (fun q j => Finite q /\ j < length x /\ val q = val (fnode x j)) ts js ->
  exists Y, bary_interpolator (PVec x) u (PVec ts) = Ok Y /\ nr Y = nr u /\ nc Y = length ts /\ forall k j, nth_error js k = Some j -> IsCol Y k u j.
Proof. exact bary_nodes. Qed.

Theorem C104_interval_exists : forall l x right,
  2 <= length l -> AscF l -> Finite x -> exists i, Within (map val l) right (val x) i.
Proof. exact within_exists. Qed.

Theorem C104_interval_unique : forall t right x i j,
  Asc t -> Within t right x i -> Within t right x j -> i = j.
Proof. exact within_unique. Qed.

(** Local times *)
Section Times.
Context (l : list f64) (HA : AscF l) (HS : StepsF l) (i : nat) (Hi : i + 1 < length l).
Theorem C104_local_time : forall x,
  Finite x -> (val (fnode l i) <= val x <= val (fnode l (i + 1)))%R ->
  Finite (local_time l i x) /\ (0 <= val (local_time l i x) <= 1)%R /\
  (Rabs (val (local_time l i x) - (val x - val (fnode l i)) / (val (fnode l (i + 1)) - val (fnode l i))) <= 4 * powerRZ 2 (-53))%R /\
  (val x = val (fnode l i) -> val (local_time l i x) = 0%R) /\ (val x = val (fnode l (i + 1)) -> val (local_time l i x) = 1%R).
Proof. exact (local_range l HA HS i Hi). Qed.

Theorem C104_local_mono : forall x y,
  Finite x -> Finite y -> (val (fnode l i) <= val x)%R -> (val x <= val y)%R -> (val y <= val (fnode l (i + 1)))%R ->
  (val (local_time l i x) <= val (local_time l i y))%R.
Proof. exact (local_mono l HA HS i Hi). Qed.

End Times.

Section Call.
Context (p : ppoly f64) (HL : 2 <= length (pp_t p)) (HC : length (pp_c p) = length (pp_t p) - 1) (HA : AscF (pp_t p)).
Context (HS : StepsF (pp_t p)) (HD : DistinctF (b_tau (pp_b p))).
Theorem C104_call : forall x c i,
  Finite x -> c = "left"%string \/ c = "right"%string -> Within (map val (pp_t p)) (to_right c) (val x) i ->
  pp_call p (PNum x) c = let* m := interp_matrix (pp_b p) (PNum (local_time (pp_t p) i x)) in mdot (nth i (pp_c p) no_mat) (mtr m).
Proof. exact (call_local p HL HC HA). Qed.

Theorem C104_call_bounds : forall x c i j,
  Finite x -> c = "left"%string \/ c = "right"%string -> Within (map val (pp_t p)) (to_right c) (val x) i ->
  FiniteM (nth i (pp_c p) no_mat) -> nc (nth i (pp_c p) no_mat) = length (b_tau (pp_b p)) -> j < length (b_tau (pp_b p)) ->
  (val x = val (fnode (pp_t p) i) /\ val (fnode (b_tau (pp_b p)) j) = 0%R) \/ (val x = val (fnode (pp_t p) (i + 1)) /\ val (fnode (b_tau (pp_b p)) j) = 1%R) ->
  exists Y, pp_call p (PNum x) c = Ok Y /\ nr Y = nr (nth i (pp_c p) no_mat) /\ nc Y = 1 /\ IsCol Y 0 (nth i (pp_c p) no_mat) j.
Proof. exact (call_bound p HL HC HA HS HD). Qed.

End Call.

Section Grid64.
Context (colpts : nat -> string -> res (list f64)) (t : list f64) (order : nat) (ptype : string) (tau : list f64) (p : pdq f64).
Context (Ep : pdq_ colpts t order ptype = Ok p) (Ec : colpts order ptype = Ok tau) (H0 : Is (fnode tau 0) 0) (Ho : 1 <= order).
Context (HA : AscF t) (HS : StepsF t) (HP : AscF (pq_pts p)).
Notation N := (length t - 1).
Notation pts := (pq_pts p).
Theorem C104_pdq_data : forall c w n,
  Width t order c w n -> exists q, pq_interpolator p c = Ok q /\ forall x, nc x = n -> FiniteM x ->
  exists Y, pi_call q x (PVec (firstn n pts)) = Ok Y /\ nr Y = nr x /\ nc Y = n /\ forall k, k < n -> IsCol Y k x k.
Proof. exact (interp64_data colpts t order ptype tau p Ep Ec H0 Ho HA HS HP). Qed.

End Grid64.

Section Traj64.
Context (colpts : nat -> string -> res (list f64)) (t : list f64) (order : nat) (ptype : string) (tau : list f64) (p : pdq f64).
Context (Ep : pdq_ colpts t order ptype = Ok p) (Ec : colpts order ptype = Ok tau) (H0 : Is (fnode tau 0) 0) (Ho : 1 <= order).
Context (HA : AscF t) (HS : StepsF t) (HP : AscF (pq_pts p)).
Theorem C104_trajectory_data : forall x z u s,
  traj_ (PArr x) (PArr z) (PArr u) p = Ok s -> FiniteM x -> FiniteM z -> FiniteM u ->
  (exists Y, st_state s (PVec (pq_pts p)) = Ok Y /\ nr Y = nr x /\ nc Y = nc x /\ forall k, k < nc x -> IsCol Y k x k) /\
  (exists Y, st_algState s (PVec (removelast (pq_pts p))) = Ok Y /\ nr Y = nr z /\ nc Y = nc z /\ forall k, k < nc z -> IsCol Y k z k) /\
  (exists Y, st_input s (PVec (removelast (pq_pts p))) = Ok Y /\ nr Y = nr u /\ nc Y = nc u /\ forall k, k < nc u -> IsCol Y k u k).
Proof. exact (traj64_data colpts t order ptype tau p Ep Ec H0 Ho HA HS HP). Qed.

End Traj64.

Section Scheme64.
Context (cspts : nat -> string -> res (list f64)) (f : daefun f64) (t : list f64) (order : nat) (method : string) (g : option (f64 -> mat f64)) (rep : bool) (x0 K0 Z u p : mat f64) (s : scheme f64).
Context (Es : scheme_ cspts f t order method g rep x0 K0 Z u p = Ok s).
Notation c := (tb_c (sc_butcher s)).
Theorem C104_collocation_poly : forall x K X pp,
  eval_X s x K = Ok X -> piecewise_X s x K = Ok pp -> nc x = length t -> nc X = (length t - 1) * order ->
  AscF t -> StepsF t -> DistinctF (n0 :: c) -> FiniteM x -> FiniteM X ->
  (forall n, n < length t - 1 -> exists Y, pp_call pp (PNum (fnode t n)) "right" = Ok Y /\ nr Y = nr x /\ nc Y = 1 /\ IsCol Y 0 x n) /\
  (forall n, n < length t - 1 -> 1 <= order -> Is (fnode c (order - 1)) 1 ->
     exists Y, pp_call pp (PNum (fnode t (n + 1))) "left" = Ok Y /\ nr Y = nr x /\ nc Y = 1 /\ IsCol Y 0 X ((n + 1) * order - 1)).
Proof. exact (scheme64_poly cspts f t order method g rep x0 K0 Z u p s Es). Qed.

End Scheme64.

Section Times64.
Context (cspts : nat -> string -> res (list f64)) (f : daefun f64) (t : list f64) (order : nat) (method : string) (g : option (f64 -> mat f64)) (rep : bool) (x K Z u p : mat f64) (s : scheme f64).
Context (Es : scheme_ cspts f t order method g rep x K Z u p = Ok s).
Notation c := (tb_c (sc_butcher s)).
Context (HC : length c = order) (HA : AscF t) (HS : StepsF t) (Fc : FiniteAll c) (H01 : forall j, j < order -> (0 <= val (fnode c j) <= 1)%R).
Context (n : nat) (Hn : n < length t - 1) (FE : Finite (SFadd 53 1024 (fnode t n) (SFsub 53 1024 (fnode t (n + 1)) (fnode t n)))).
Notation h := (SFsub 53 1024 (fnode t (n + 1)) (fnode t n)).
Theorem C104_tc_range : forall j,
  j < order -> Finite (fnode (sc_tc s) (n * order + j)) /\
  (val (fnode t n) <= val (fnode (sc_tc s) (n * order + j)) <= val (SFadd 53 1024 (fnode t n) h))%R /\
  (val (fnode c j) = 0%R -> val (fnode (sc_tc s) (n * order + j)) = val (fnode t n)).
Proof. exact (tc64_range cspts f t order method g rep x K Z u p s Es HC HA HS Fc H01 n Hn FE). Qed.

Theorem C104_tc_mono : forall j k,
  j < order -> k < order -> (val (fnode c j) <= val (fnode c k))%R -> (val (fnode (sc_tc s) (n * order + j)) <= val (fnode (sc_tc s) (n * order + k)))%R.
Proof. exact (tc64_mono cspts f t order method g rep x K Z u p s Es HC HA HS Fc H01 n Hn FE). Qed.

End Times64.

Theorem C104_tc_end_refuted :
  exists t s, AscF t /\ StepsF t /\ sch1 t = Ok s /\ Is (fnode (tb_c (sc_butcher s)) 0) 1 /\
  (val (fnode t 1) < val (fnode (sc_tc s) 0))%R.
Proof. exact tc64_end_refuted. Qed.

Print Assumptions C104_interpolator_nodes.
Print Assumptions C104_interval_exists.
Print Assumptions C104_interval_unique.
Print Assumptions C104_local_time.
Print Assumptions C104_local_mono.
Print Assumptions C104_call.
Print Assumptions C104_call_bounds.
Print Assumptions C104_pdq_data.
Print Assumptions C104_trajectory_data.
Print Assumptions C104_collocation_poly.
Print Assumptions C104_tc_range.
Print Assumptions C104_tc_mono.
Print Assumptions C104_tc_end_refuted.
