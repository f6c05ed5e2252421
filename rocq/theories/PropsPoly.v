(** Property theorems about polynomials, Butcher tableaus and piecewise polynomials
    (C43-C54). *)
From Coq Require Import Reals Sorted.
From Coquelicot Require Import Coquelicot.
From Verif Require Import PyBase NumModel NumInst NumSpec PolynomialModel PiecewiseModel PolySpec PiecewiseSpec PolynomialThms PolynomialThms2 PiecewiseThms PiecewiseThms2 PolynomialExamples.
Open Scope R_scope.

Theorem C43_basis_accepts : forall (a : nparg R),
  (exists b, basis_ a = Ok b) <-> (exists x, a = PNum x) \/ exists tau, a = PVec tau /\ tau <> [].
Proof. exact basis_accepts. Qed.

Theorem C43_basis_scalar : forall (x : R),
  basis_ (PNum x) = basis_ (PVec [x]).
Proof. exact basis_scalar. Qed.

Theorem C43_basis_lagrange : forall tau b,
  basis_ (PVec tau) = Ok b -> NoDup tau ->
  b_tau b = tau /\ length (b_poly b) = length tau /\
  (forall j k, (j < length tau)%nat -> (k < length tau)%nat -> polyval (nth j (b_poly b) []) (node tau k) = if Nat.eqb j k then 1 else 0) /\
  (forall j, (j < length tau)%nat -> PolyLt (length tau) (polyval (nth j (b_poly b) []))) /\
  (forall f, PolyLt (length tau) f -> forall t, f t = Sum (length tau) (fun j => f (node tau j) * polyval (nth j (b_poly b) []) t)).
Proof. exact basis_lagrange. Qed.

Theorem C44_interpolation_matrix : forall tau b ts,
  basis_ (PVec tau) = Ok b -> NoDup tau -> ts <> [] ->
  exists m, interp_matrix b (PVec ts) = Ok m /\ nr m = length ts /\ nc m = length tau /\
    (forall i f, (i < length ts)%nat -> PolyLt (length tau) f -> Sum (length tau) (fun j => at_m m i j * f (node tau j)) = f (node ts i)) /\
    (forall i, (i < length ts)%nat -> Sum (length tau) (fun j => at_m m i j) = 1) /\
    (forall i k j, (i < length ts)%nat -> (k < length tau)%nat -> node ts i = node tau k -> (j < length tau)%nat -> at_m m i j = if Nat.eqb j k then 1 else 0).
Proof. exact interpolation_matrix. Qed.

Theorem C44_interpolation_matrix_scalar : forall (b : basis R) t,
  interp_matrix b (PNum t) = interp_matrix b (PVec [t]).
Proof. exact interpolation_matrix_scalar. Qed.

Theorem C44_barycentric_interpolator : forall x u xq,
  NoDup x -> x <> [] -> xq <> [] -> nc u = length x ->
  exists m, bary_interpolator (PVec x) u (PVec xq) = Ok m /\ nr m = nr u /\ nc m = length xq /\
    forall i k f, (k < length xq)%nat -> PolyLt (length x) f -> (forall j, (j < length x)%nat -> f (node x j) = at_m u i j) -> at_m m i k = f (node xq k).
Proof. exact barycentric_interpolator. Qed.

Theorem C44_barycentric_repeated_node : exists tau b, basis_ (PVec tau) = Ok b /\ interp_matrix b (PNum 1) = Err EAssert.
Proof. exact barycentric_repeated_node. Qed.

Theorem C45_differentiation_matrix : forall (tau : list R) b,
  basis_ (PVec tau) = Ok b -> NoDup tau ->
  nr (b_D b) = length tau /\ nc (b_D b) = length tau /\
  (forall f j, PolyLt (length tau) f -> (j < length tau)%nat -> is_derive f (node tau j) (Sum (length tau) (fun k => at_m (b_D b) j k * f (node tau k)))) /\
  (forall j, (j < length tau)%nat -> Sum (length tau) (fun k => at_m (b_D b) j k) = 0).
Proof. exact differentiation_matrix. Qed.

Theorem C46_compose_spec : forall tau b c,
  basis_ (PVec tau) = Ok b -> NoDup tau -> (nc c <= length tau)%nat ->
  exists q, compose b c = Ok q /\ length q = nr c /\
    forall i, (i < nr c)%nat ->
      (forall t, polyval (nth i q []) t = Sum (nc c) (fun j => at_m c i j * polyval (nth j (b_poly b) []) t)) /\
      (forall k, (k < length tau)%nat -> polyval (nth i q []) (node tau k) = if (k <? nc c)%nat then at_m c i k else 0).
Proof. exact compose_spec. Qed.

Theorem C46_compose_too_wide : forall tau b c,
  basis_ (PVec tau) = Ok b -> (length tau < nc c)%nat -> (0 < nr c)%nat -> compose b c = Err EIndex.
Proof. exact compose_too_wide. Qed.

Theorem C47_vandermonde_nonsingular : forall x,
  NoDup x -> Nonsingular (vandermonde (length x) x).
Proof. exact vandermonde_nonsingular. Qed.

Theorem C47_vandermonde_solvable : forall x q,
  NoDup x -> x <> [] ->
  exists S : nat -> nat -> R, forall i j, (i < length x)%nat -> (j < length q)%nat ->
    Sum (length x) (fun k => at_m (vandermonde (length x) x) i k * S k j) = at_m (vandermonde (length x) q) i j.
Proof. exact vandermonde_solvable. Qed.

Theorem C47_interpolators_agree : forall solve x u q m,
  Solver solve -> NoDup x -> x <> [] -> q <> [] -> nc u = length x ->
  poly_interpolator solve (PVec x) u (PVec q) = Ok m ->
  exists m', bary_interpolator (PVec x) u (PVec q) = Ok m' /\ MatEq m m'.
Proof. exact interpolators_agree. Qed.

Theorem C47_polynomial_interpolator : forall solve x u xx q,
  Solver solve -> Complete solve -> NoDup x -> x <> [] -> nc u = length x -> Queries xx q ->
  exists m, poly_interpolator solve (PVec x) u xx = Ok m /\ nr m = nr u /\ nc m = length q /\
    forall i k f, (k < length q)%nat -> PolyLt (length x) f -> (forall j, (j < length x)%nat -> f (node x j) = at_m u i j) -> at_m m i k = f (node q k).
Proof. exact polynomial_interpolator. Qed.

Theorem C47_barycentric_queries : forall x u,
  x <> [] ->
  (forall t, bary_interpolator (PVec x) u (PNum t) = bary_interpolator (PVec x) u (PVec [t])) /\
  (forall m, bary_interpolator (PVec x) u (PArr m) = Err EAssert) /\
  bary_interpolator (PVec x) u (PVec []) = Err EValue.
Proof. exact barycentric_queries. Qed.

Theorem C47_interpolator_nodes : forall solve u xx,
  (forall t, poly_interpolator solve (PNum t) u xx = Err EAssert) /\ (forall m, poly_interpolator solve (PArr m) u xx = Err EAssert) /\
  (forall m, bary_interpolator (PArr m) u xx = Err EAssert) /\ bary_interpolator (PVec []) u xx = Err EAssert /\
  (forall t, bary_interpolator (PNum t) u xx = bary_interpolator (PVec [t]) u xx).
Proof. exact interpolator_nodes. Qed.

Theorem C47_polynomial_interpolator_array : forall solve x u m,
  length x <> 1%nat -> nr m <> 1%nat -> nr m <> length x ->
  poly_interpolator solve (PVec x) u (PArr m) = Err EValue.
Proof. exact polynomial_interpolator_array. Qed.

Theorem C48_chebyshev_points : forall (cspts : nat -> string -> res (list R)) order,
  (1 <= order)%nat ->
  exists tau, collocation_points cos PI cspts order "chebyshev" = Ok tau /\ length tau = (order + 1)%nat /\ Asc tau /\ node tau 0 = 0 /\ node tau order = 1.
Proof. exact chebyshev_points. Qed.

Theorem C48_cheb_spec : forall (cspts : nat -> string -> res (list R)) N (t0 tf : R),
  (1 <= N)%nat -> t0 <> tf ->
  exists D t, cheb cos PI cspts N t0 tf = Ok (D, t) /\ length t = (N + 1)%nat /\ nr D = (N + 1)%nat /\ nc D = (N + 1)%nat /\
    node t 0 = t0 /\ node t N = tf /\ (t0 < tf -> Asc t) /\ NoDup t /\
    forall f j, PolyLt (N + 1) f -> (j < N + 1)%nat -> is_derive f (node t j) (Sum (N + 1) (fun k => at_m D j k * f (node t k))).
Proof. exact cheb_spec. Qed.

Theorem C49_butcher_exact : forall tau,
  NoDup tau ->
  exists tb, butcher_points tau = Ok tb /\ nr (tb_A tb) = length tau /\ nc (tb_A tb) = length tau /\ length (tb_b tb) = length tau /\ tb_c tb = tau /\
    (forall f, PolyLt (length tau) f ->
      (forall i, (i < length tau)%nat -> is_RInt f 0 (node tau i) (Sum (length tau) (fun j => at_m (tb_A tb) i j * f (node tau j)))) /\
      is_RInt f 0 1 (Sum (length tau) (fun j => node (tb_b tb) j * f (node tau j)))).
Proof. exact butcher_exact. Qed.

Theorem C49_butcher_row_sums : forall tau tb,
  NoDup tau -> tau <> [] -> butcher_points tau = Ok tb ->
  (forall i, (i < length tau)%nat -> Sum (length tau) (fun j => at_m (tb_A tb) i j) = node tau i) /\ Sum (length tau) (fun j => node (tb_b tb) j) = 1.
Proof. exact butcher_row_sums. Qed.

Theorem C49_butcher_method_spec : forall (cspts : nat -> string -> res (list R)) order method tau,
  cspts order method = Ok tau -> butcher_method cspts order method = butcher_points tau.
Proof. exact butcher_method_spec. Qed.

Theorem C50_tableau_accepts : forall (A b c : ndarr R),
  (exists tb, tableau_ A b c = Ok tb) <->
  exists (m : mat R) vb vc, A = NdMat m /\ b = NdVec vb /\ c = NdVec vc /\ nr m = nc m /\ length vb = nr m /\ length vc = nr m.
Proof. exact tableau_accepts. Qed.

Theorem C50_tableau_fields : forall (A b c : ndarr R) tb,
  tableau_ A b c = Ok tb -> A = NdMat (tb_A tb) /\ b = NdVec (tb_b tb) /\ c = NdVec (tb_c tb).
Proof. exact tableau_fields. Qed.

Theorem C51_belongs_unique : forall p m right t,
  PpOk p m -> exists i, Belongs p right t i /\ forall j, Belongs p right t j -> j = i.
Proof. exact belongs_unique. Qed.

Theorem C51_piece_exists : forall p m i r,
  PpOk p m -> (i < nint p)%nat -> exists f, Piece p i r f.
Proof. exact piece_exists. Qed.

Theorem C51_piece_unique : forall p m i r f g,
  PpOk p m -> (i < nint p)%nat -> Piece p i r f -> Piece p i r g -> forall t, f t = g t.
Proof. exact piece_unique. Qed.

Theorem C51_call_spec : forall p m ts c,
  PpOk p m -> ts <> [] -> c = "left"%string \/ c = "right"%string ->
  exists Y, pp_call p (PVec ts) c = Ok Y /\ nr Y = m /\ nc Y = length ts /\
    forall k i r f, (k < length ts)%nat -> Belongs p (is_right c) (node ts k) i -> Piece p i r f -> at_m Y r k = f (node ts k).
Proof. exact call_spec. Qed.

Theorem C51_call_scalar : forall (p : ppoly R) t c,
  pp_call p (PNum t) c = pp_call p (PVec [t]) c.
Proof. exact call_scalar. Qed.

Theorem C51_call_bad_continuity : forall (p : ppoly R) t c,
  c <> "left"%string -> c <> "right"%string -> pp_call p t c = Err EValue.
Proof. exact call_bad_continuity. Qed.

Theorem C51_belongs_open : forall p m t i,
  PpOk p m -> ~ In t (pp_t p) -> (Belongs p true t i <-> Belongs p false t i).
Proof. exact belongs_open. Qed.

Theorem C51_ctor_iff : forall (t : list R) cs b,
  (exists p, ppoly_ t cs b = Ok p) <-> (1 < length t)%nat /\ length cs = (length t - 1)%nat.
Proof. exact ctor_iff. Qed.

Theorem C52_derivative_spec : forall p m,
  PpOk p m -> exists q, pp_derivative p = Ok q /\ pp_t q = pp_t p /\ pp_b q = pp_b p /\ PpOk q m /\
  forall i r f g, (i < nint p)%nat -> Piece p i r f -> (forall t, is_derive f t (g t)) -> Piece q i r g.
Proof. exact derivative_spec. Qed.

Theorem C52_derivative_is_derivative : forall p m q c r t,
  PpOk p m -> c = "left"%string \/ c = "right"%string -> pp_derivative p = Ok q -> ~ In t (pp_t p) ->
  is_derive (ppval p c r) t (ppval q c r t).
Proof. exact derivative_is_derivative. Qed.

Theorem C53_discretize_spec_partial : forall p m step,
  PpOk p m -> 0 < step ->
  exists xs Y, pp_discretize p step = Ok (concat xs, Y) /\ length xs = nint p /\ nr Y = m /\ nc Y = length (concat xs) /\
    forall i, (i < nint p)%nat -> PieceGrid p step i (nth i xs []) /\
      forall r f k, Piece p i r f -> (k < length (nth i xs []))%nat -> at_m Y r (offset (map (@length R) xs) i + k) = f (node (nth i xs []) k).
Proof. exact discretize_spec. Qed.

Theorem C53_discretize_ascending : forall p m step x Y,
  PpOk p m -> 0 < step -> pp_discretize p step = Ok (x, Y) -> StronglySorted Rle x.
Proof. exact discretize_ascending. Qed.

Theorem C53_discretize_bad_step : forall p m step,
  PpOk p m -> step <= 0 -> exists e, pp_discretize p step = Err e.
Proof. exact discretize_bad_step. Qed.

Section OverF.
#[local] Existing Instance numF.
Theorem C53_discretize_end_refuted : exists (b : basis f64) (p : ppoly f64) (x : list f64) (y : mat f64),
  basis_ (PVec [n0; n1]) = Ok b /\ ppoly_ [fq 2 10; fq 9 10] [Mat 1 2 (fun _ _ => n1)] b = Ok p /\
  pp_discretize p (fq 1 10) = Ok (x, y) /\ existsb (neqb (fq 9 10)) x = false.
Proof. exact discretize_end_refuted. Qed.

End OverF.

Theorem C54_poly_spec_partial : forall p m n P,
  PpOk p m -> (n < nint p)%nat -> pp_poly p n = Ok P ->
  length P = m /\ forall r f, (r < m)%nat -> Piece p n r f -> forall t, polyval (nth r P []) t = f (bound p n + t).
Proof. exact poly_spec. Qed.

Theorem C54_poly_equals_call_partial : forall p m n P r t,
  PpOk p m -> (n < nint p)%nat -> pp_poly p n = Ok P -> (r < m)%nat -> 0 <= t < width p n ->
  polyval (nth r P []) t = ppval p "right" r (bound p n + t).
Proof. exact poly_equals_call. Qed.

Theorem C54_poly_succeeds_iff : forall p m n,
  PpOk p m -> (n < nint p)%nat ->
  ((exists P, pp_poly p n = Ok P) <-> forall r, (r < m)%nat -> FullDegree p n r).
Proof. exact poly_succeeds_iff. Qed.

Theorem C54_poly_degree_drop_refuted : exists p m n, PpOk p m /\ (n < nint p)%nat /\ exists e, pp_poly p n = Err e.
Proof. exact poly_degree_drop_refuted. Qed.

Print Assumptions C43_basis_accepts.
Print Assumptions C43_basis_scalar.
Print Assumptions C43_basis_lagrange.
Print Assumptions C44_interpolation_matrix.
Print Assumptions C44_interpolation_matrix_scalar.
Print Assumptions C44_barycentric_interpolator.
Print Assumptions C44_barycentric_repeated_node.
Print Assumptions C45_differentiation_matrix.
Print Assumptions C46_compose_spec.
Print Assumptions C46_compose_too_wide.
Print Assumptions C47_vandermonde_nonsingular.
Print Assumptions C47_vandermonde_solvable.
Print Assumptions C47_interpolators_agree.
Print Assumptions C47_polynomial_interpolator.
Print Assumptions C47_barycentric_queries.
Print Assumptions C47_interpolator_nodes.
Print Assumptions C47_polynomial_interpolator_array.
Print Assumptions C48_chebyshev_points.
Print Assumptions C48_cheb_spec.
Print Assumptions C49_butcher_exact.
Print Assumptions C49_butcher_row_sums.
Print Assumptions C49_butcher_method_spec.
Print Assumptions C50_tableau_accepts.
Print Assumptions C50_tableau_fields.
Print Assumptions C51_belongs_unique.
Print Assumptions C51_piece_exists.
Print Assumptions C51_piece_unique.
Print Assumptions C51_call_spec.
Print Assumptions C51_call_scalar.
Print Assumptions C51_call_bad_continuity.
Print Assumptions C51_belongs_open.
Print Assumptions C51_ctor_iff.
Print Assumptions C52_derivative_spec.
Print Assumptions C52_derivative_is_derivative.
Print Assumptions C53_discretize_spec_partial.
Print Assumptions C53_discretize_ascending.
Print Assumptions C53_discretize_bad_step.
Print Assumptions C53_discretize_end_refuted.
Print Assumptions C54_poly_spec_partial.
Print Assumptions C54_poly_equals_call_partial.
Print Assumptions C54_poly_succeeds_iff.
Print Assumptions C54_poly_degree_drop_refuted.
