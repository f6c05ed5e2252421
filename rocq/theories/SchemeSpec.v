(** Specification vocabulary for collocation schemes and integrators. *)
From Coq Require Import Reals.
From Coquelicot Require Import Coquelicot.
From Verif Require Import PyBase DMModel IneqModel DaeModel NumModel NumInst PolySpec PdqSpec PolynomialModel PiecewiseModel SchemeModel.
Open Scope R_scope.

Definition Shaped (m : mat R) (r c : nat) : Prop := nr m = r /\ nc m = c.
(** The symbols' values have the symbols' shapes. *)
Definition VarsOk (f : daefun R) (N M : nat) (rep : bool) (x K Z u p : mat R) : Prop :=
  Shaped x (f_nx f) (N + 1) /\ Shaped K (f_nx f) (N * M) /\ Shaped Z (f_nz f) (N * M) /\ Shaped u (f_nu f) N /\ Shaped p (f_np f) (if rep then N * M else 1)%nat.
(** Equal vectors of the sizes that the function takes *)
Definition SameArgs (f : daefun R) (a b : dargs R) : Prop :=
  (forall i, (i < f_nx f)%nat -> a_xdot a i = a_xdot b i) /\ (forall i, (i < f_nx f)%nat -> a_x a i = a_x b i) /\ (forall i, (i < f_nz f)%nat -> a_z a i = a_z b i) /\
  (forall i, (i < f_nu f)%nat -> a_u a i = a_u b i) /\ (forall i, (i < f_np f)%nat -> a_p a i = a_p b i) /\ a_t a = a_t b /\ (forall i, (i < f_ntdp f)%nat -> a_tdp a i = a_tdp b i).
(** A function of such vectors; structural zeros are zero. *)
Definition DaeOk (f : daefun R) : Prop :=
  (forall a b r, SameArgs f a b -> f_dae f a r = f_dae f b r) /\ (forall a b r, SameArgs f a b -> f_quad f a r = f_quad f b r) /\
  (forall a r, f_pat f r = false -> f_dae f a r = 0).
(** The time-dependent parameter *)
Definition TdpOk (f : daefun R) (g : option (R -> mat R)) : Prop :=
  match g with Some g => forall s, Shaped (g s) (f_ntdp f) 1 | None => f_ntdp f = 0%nat end.
Definition tdp_at (g : option (R -> mat R)) (s : R) (i : nat) : R := match g with Some g => at_m (g s) i 0 | None => 0 end.

(** Collocation points: [order] distinct numbers *)
Definition Points (cspts : nat -> string -> res (list R)) (order : nat) (method : string) (tau : list R) : Prop :=
  cspts order method = Ok tau /\ NoDup tau /\ length tau = order /\ (1 <= order)%nat.
(** The Runge-Kutta coefficients of collocation at [tau]: they integrate polynomials of
    degree < M from 0 to each point and from 0 to 1. *)
Definition RungeKutta (tau : list R) (A : nat -> nat -> R) (b : nat -> R) : Prop :=
  forall f, PolyLt (length tau) f ->
    (forall i, (i < length tau)%nat -> is_RInt f 0 (node tau i) (Sum (length tau) (fun j => A i j * f (node tau j)))) /\
    is_RInt f 0 1 (Sum (length tau) (fun j => b j * f (node tau j))).
(** The arguments of the DAE at point [j] of interval [n] *)
Definition stage_x (t : list R) (M : nat) (A : nat -> nat -> R) (x K : mat R) (n j i : nat) : R :=
  at_m x i n + step t n * Sum M (fun l => A j l * at_m K i (n * M + l)%nat).
Definition stage_t (t tau : list R) (n j : nat) : R := node t n + step t n * node tau j.
Definition stage (t tau : list R) (M : nat) (A : nat -> nat -> R) (rep : bool) (g : option (R -> mat R)) (x K Z u p : mat R) (n j : nat) : dargs R :=
  DArgs (fun i => at_m K i (n * M + j)%nat) (stage_x t M A x K n j) (fun i => at_m Z i (n * M + j)%nat) (fun i => at_m u i n)
        (fun i => at_m p i (if rep then n * M + j else 0)%nat) (stage_t t tau n j) (tdp_at g (stage_t t tau n j)).
(** The collocation equations *)
Definition CollocationEqs (f : daefun R) (t tau : list R) (M : nat) (A : nat -> nat -> R) (b : nat -> R) (rep : bool) (g : option (R -> mat R)) (x K Z u p : mat R) : Prop :=
  (forall n j r, (n < ivals t)%nat -> (j < M)%nat -> (r < f_ndae f)%nat -> f_dae f (stage t tau M A rep g x K Z u p n j) r = 0) /\
  (forall n i, (n < ivals t)%nat -> (i < f_nx f)%nat -> at_m x i n + step t n * Sum M (fun l => b l * at_m K i (n * M + l)%nat) = at_m x i (n + 1)) /\
  (rep = true -> forall i k l, (i < f_np f)%nat -> (k < ivals t * M)%nat -> (l < ivals t * M)%nat -> at_m p i k = at_m p i l).
(** Collocation points in (0, 1], as CasADi's "radau" and "legendre" are *)
Definition InUnit (tau : list R) : Prop := forall j, (j < length tau)%nat -> 0 < node tau j <= 1.

(** ** Solutions as functions of time *)
(** [w] is a polynomial of degree < [m] on each interval. *)
Definition PiecewiseLt (t : list R) (m : nat) (w : R -> R) : Prop :=
  forall n, (n < ivals t)%nat -> exists F, PolyLt m F /\ forall s, node t n < s <= node t (n + 1) -> w s = F s.
(** So is the continuous [w], and [d] is its derivative (at the bounds from the left). *)
Definition PiecewiseC1 (t : list R) (m : nat) (w d : R -> R) : Prop :=
  forall n, (n < ivals t)%nat -> exists F, PolyLt m F /\ (forall s, node t n <= s <= node t (n + 1) -> w s = F s) /\ forall s, node t n < s <= node t (n + 1) -> is_derive F s (d s).
(** The arguments of the DAE at time [s] *)
Definition dae_at (xd x z u : nat -> R -> R) (p : nat -> R) (g : option (R -> mat R)) (s : R) : dargs R :=
  DArgs (fun i => xd i s) (fun i => x i s) (fun i => z i s) (fun i => u i s) p s (tdp_at g s).
Definition SolvesDae (f : daefun R) (t : list R) (xd x z u : nat -> R -> R) (p : nat -> R) (g : option (R -> mat R)) : Prop :=
  forall s r, node t 0 < s <= node t (ivals t) -> (r < f_ndae f)%nat -> f_dae f (dae_at xd x z u p g s) r = 0.
(** The matrices hold the functions' values. *)
Definition Sampled (f : daefun R) (t tau : list R) (M : nat) (rep : bool) (xd x z u : nat -> R -> R) (pv : nat -> R) (X K Z U p : mat R) : Prop :=
  (forall i n, (i < f_nx f)%nat -> (n <= ivals t)%nat -> at_m X i n = x i (node t n)) /\
  (forall i n j, (i < f_nx f)%nat -> (n < ivals t)%nat -> (j < M)%nat -> at_m K i (n * M + j) = xd i (stage_t t tau n j)) /\
  (forall i n j, (i < f_nz f)%nat -> (n < ivals t)%nat -> (j < M)%nat -> at_m Z i (n * M + j) = z i (stage_t t tau n j)) /\
  (forall i n s, (i < f_nu f)%nat -> (n < ivals t)%nat -> node t n < s <= node t (n + 1) -> u i s = at_m U i n) /\
  (forall i k, (i < f_np f)%nat -> (k < if rep then ivals t * M else 1)%nat -> at_m p i k = pv i).

(** ** Integrators *)
(** What a rootfinder returns is a root, as long as the initial point. *)
Definition RootFinder (rf : (list R -> res (list R)) -> list R -> res (list R)) : Prop :=
  forall F w0 w, rf F w0 = Ok w -> length w = length w0 /\ exists e, F w = Ok e /\ forall v, In v e -> v = 0.
(** It always returns something of the right length. *)
Definition Answers (rf : (list R -> res (list R)) -> list R -> res (list R)) : Prop := forall F w0, exists w, rf F w0 = Ok w /\ length w = length w0.
(** No equation of the DAE is structurally zero. *)
Definition Full (f : daefun R) : Prop := forall r, (r < f_ndae f)%nat -> f_pat f r = true.
(** The assignment depends on the arguments' elements only. *)
Definition AssignOk (d : dae) (assign : dargs R -> val) : Prop := forall a b,
  (forall i, (i < numel (d_x d))%nat -> a_xdot a i = a_xdot b i) -> (forall i, (i < numel (d_x d))%nat -> a_x a i = a_x b i) -> (forall i, (i < numel (d_z d))%nat -> a_z a i = a_z b i) ->
  (forall i, (i < numel (d_u d))%nat -> a_u a i = a_u b i) -> (forall i, (i < numel (d_p d))%nat -> a_p a i = a_p b i) -> a_t a = a_t b -> (forall i, (i < numel (d_tdp d))%nat -> a_tdp a i = a_tdp b i) ->
  assign a = assign b.

(** ** Parts of a scheme *)
(** Part [w] of the scheme; [e] is the vector of equations. *)
Definition PartOf (s : scheme R) (e : list R) (w : string) (m : dm R) : Prop :=
  (w = "K"%string /\ m = mat_dm (sc_K s)) \/ (w = "x"%string /\ m = mat_dm (sc_x s)) \/ (w = "Z"%string /\ m = mat_dm (sc_Z s)) \/ (w = "U"%string /\ m = mat_dm (sc_U s)) \/
  (w = "u"%string /\ m = mat_dm (sc_u s)) \/ (w = "p"%string /\ m = mat_dm (sc_p s)) \/ (w = "eq"%string /\ m = dm_col e) \/ (w = "q"%string /\ m = mat_dm (sc_q s)).
(** The names in the documentation of [combine] (collocation.py:490-491) *)
Definition documented_parts : list string := ["x0"; "x"; "z"; "u"; "p"; "eq"; "q"]%string.

(** ** Binding of arguments *)
(** A call with [npos] arguments by position and the keywords [kws] fits the parameters
    (name, has a default): the first [npos] parameters are taken by position, each keyword
    names one of the others, and each of the others without a default is named. *)
Definition Binds (params : list (string * bool)) (npos : nat) (kws : list string) : Prop :=
  (npos <= length params)%nat /\ (forall k, In k kws -> exists i d, (npos <= i)%nat /\ nth_error params i = Some (k, d)) /\
  forall i n, (npos <= i)%nat -> nth_error params i = Some (n, false) -> In n kws.
