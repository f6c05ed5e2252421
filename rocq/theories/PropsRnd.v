(** Property theorems about rounding errors of interpolation and differentiation (C105). *)
From Coq Require Import Reals Lra.
From Coq Require Import Floats.SpecFloat.
From Coquelicot Require Import Coquelicot.
From Verif Require Import PyBase NumModel NumInst PolynomialModel PiecewiseModel PolySpec F64Spec F64Thms F64Thms2 F64Thms3 RndSpec RndThms RndThms2 RndThms3 RndThms4 RndExamples.
Open Scope list_scope. Open Scope nat_scope.
#[local] Existing Instance numF.

(** What is missing for all inputs: nodes and queries with extreme distances, and queries
    whose Lebesgue function is of the order of [2^53 / n]; see the refutations. *)
Theorem C105_interpolator_partial : forall (tau : list f64) b L (u : mat f64) ts,
  Spread b tau -> 1 <= b -> b * length tau <= 300 -> Cardinals (map val tau) L -> tau <> [] -> ts <> [] -> nc u = length tau -> Moderate u ->
  (forall x, In x ts -> Query b tau x /\ (rate (length tau) * Leb (length tau) L (val x) <= / 2)%R) ->
  exists Y, bary_interpolator (PVec tau) u (PVec ts) = Ok Y /\ nr Y = nr u /\ nc Y = length ts /\
    forall i k f, i < nr u -> k < length ts -> PolyLt (length tau) f -> (forall j, j < length tau -> f (node (map val tau) j) = val (at_m u i j)) ->
      Finite (at_m Y i k) /\ (Rabs (val (at_m Y i k) - f (val (fnode ts k))) <= err_bound (map val tau) L f (val (fnode ts k)))%R.
Proof. exact interpolator_accuracy. Qed.

Section Basis.
Context (tau : list f64) (b : nat) (Hs : Spread b tau) (Hb : 1 <= b) (Hn : b * length tau <= 300) (B : basis f64) (EB : basis_ (PVec tau) = Ok B) (L : nat -> R -> R) (HL : Cardinals (map val tau) L).
Theorem C105_matrix_partial : forall ts,
  (forall x, In x ts -> Query b tau x /\ (rate (length tau) * Leb (length tau) L (val x) <= / 2)%R) -> ts <> [] ->
  exists M, interp_matrix B (PVec ts) = Ok M /\ nr M = length ts /\ nc M = length tau /\ forall i k, i < length ts -> k < length tau ->
    Finite (at_m M i k) /\ (Rabs (val (at_m M i k) - L k (val (fnode ts i))) <= 4 * rate (length tau) * Leb (length tau) L (val (fnode ts i)) * Rabs (L k (val (fnode ts i))))%R.
Proof. exact (matrix_accuracy tau b Hs Hb Hn B EB L HL). Qed.

Theorem C105_differentiation_partial : nr (b_D B) = length tau /\ nc (b_D B) = length tau /\
  forall j (d : nat -> R), j < length tau -> (forall k, k < length tau -> is_derive (L k) (node (map val tau) j) (d k)) ->
  (forall k, k < length tau -> Finite (at_m (b_D B) j k)) /\
  (forall k, k < length tau -> k <> j -> (Rabs (val (at_m (b_D B) j k) - d k) <= (8 * INR (length tau) + 2) * uro * Rabs (d k))%R) /\
  (Rabs (val (at_m (b_D B) j j) - d j) <= 10 * INR (length tau) * uro * SumBut (length tau) j (fun k => Rabs (d k)))%R.
Proof. exact (diff_accuracy tau b Hs Hb Hn B EB L HL). Qed.

Theorem C105_call_partial : forall (p : ppoly f64), pp_b p = B -> 2 <= length (pp_t p) -> length (pp_c p) = length (pp_t p) - 1 -> AscF (pp_t p) -> StepsF (pp_t p) ->
  forall x c i, Finite x -> c = "left"%string \/ c = "right"%string -> Within (map val (pp_t p)) (to_right c) (val x) i ->
  (val (fnode (pp_t p) i) <= val x <= val (fnode (pp_t p) (i + 1)))%R ->
  let s := local_time (pp_t p) i x in let C := nth i (pp_c p) no_mat in
  Query b tau s -> (rate (length tau) * Leb (length tau) L (val s) <= / 2)%R -> nc C = length tau -> Moderate C ->
  exists Y, pp_call p (PNum x) c = Ok Y /\ nr Y = nr C /\ nc Y = 1 /\
    forall r f g G, r < nr C -> PolyLt (length tau) f -> (forall j, j < length tau -> f (node (map val tau) j) = val (at_m C r j)) ->
      (forall t, (0 <= t <= 1)%R -> is_derive f t (g t) /\ (Rabs (g t) <= G)%R) ->
      Finite (at_m Y r 0) /\
      (Rabs (val (at_m Y r 0) - f ((val x - val (fnode (pp_t p) i)) / (val (fnode (pp_t p) (i + 1)) - val (fnode (pp_t p) i)))) <= err_bound (map val tau) L f (val s) + 4 * uro * G)%R.
Proof. exact (call_accuracy tau b Hs Hb Hn B EB L HL). Qed.
End Basis.

Theorem C105_derivative_partial : forall (tau : list f64) b L (p : ppoly f64),
  Spread b tau -> 1 <= b -> b * length tau <= 200 -> basis_ (PVec tau) = Ok (pp_b p) -> Cardinals (map val tau) L ->
  2 <= length (pp_t p) -> length (pp_c p) = length (pp_t p) - 1 -> FiniteAll (pp_t p) ->
  (forall i, i < length (pp_c p) -> nc (nth i (pp_c p) no_mat) = length tau /\ Moderate (nth i (pp_c p) no_mat) /\ Apart 60 (val (fnode (pp_t p) (i + 1))) (val (fnode (pp_t p) i))) ->
  exists q, pp_derivative p = Ok q /\ pp_t q = pp_t p /\ pp_b q = pp_b p /\ length (pp_c q) = length (pp_c p) /\
    forall i r j d f, i < length (pp_c p) -> r < nr (nth i (pp_c p) no_mat) -> j < length tau -> PolyLt (length tau) f ->
      (forall k, k < length tau -> f (node (map val tau) k) = val (at_m (nth i (pp_c p) no_mat) r k) /\ is_derive (L k) (node (map val tau) j) (d k)) ->
      let h := (val (fnode (pp_t p) (i + 1)) - val (fnode (pp_t p) i))%R in
      let e := at_m (nth i (pp_c q) no_mat) r j in
      exists v, is_derive f (node (map val tau) j) v /\ Finite e /\
        (Rabs (val e - v / h) <= ((28 * INR (length tau) + 12) * uro * dcond (length tau) j d (fun k => f (node (map val tau) k)) + 2 * INR (length tau) * / 2 ^ 1074) / Rabs h + / 2 ^ 1075)%R.
Proof. exact derivative_accuracy. Qed.

Theorem C105_near_node_refuted : exists (x : list f64) (u : mat f64) q Y,
  AscF x /\ Spread 1 x /\ Moderate u /\ nc u = length x /\ Finite q /\ (val (fnode x 0) < val q < val (fnode x 1))%R /\
  bary_interpolator (PVec x) u (PVec [q]) = Ok Y /\ at_m Y 0 0 = S754_nan.
Proof. exact near_node. Qed.

Theorem C105_call_near_node_refuted : exists (p : ppoly f64) x Y,
  AscF (pp_t p) /\ basis_ (PVec [n0; n1]) = Ok (pp_b p) /\ Moderate (nth 0 (pp_c p) no_mat) /\ Finite x /\ (val (fnode (pp_t p) 0) < val x < val (fnode (pp_t p) 1))%R /\
  pp_call p (PNum x) "right" = Ok Y /\ at_m Y 0 0 = S754_nan.
Proof. exact call_near_node. Qed.

Print Assumptions C105_interpolator_partial.
Print Assumptions C105_matrix_partial.
Print Assumptions C105_differentiation_partial.
Print Assumptions C105_call_partial.
Print Assumptions C105_derivative_partial.
Print Assumptions C105_near_node_refuted.
Print Assumptions C105_call_near_node_refuted.
