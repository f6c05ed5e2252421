(** Specification vocabulary for the dependence of collocation on its inputs (C113). *)
From Coq Require Import Reals List.
From Verif Require Import PyBase DMModel DaeModel NumModel NumInst PolynomialModel PiecewiseModel SchemeModel PolySpec PdqSpec SchemeSpec OrderSpec.
Open Scope R_scope.

(** Controls, parameters and time-dependent parameters that differ by at most [d], at the same time *)
Definition NearInput (f : daefun R) (d : R) (a c : dargs R) : Prop :=
  (forall i, (i < f_nu f)%nat -> Rabs (a_u a i - a_u c i) <= d) /\ (forall i, (i < f_np f)%nat -> Rabs (a_p a i - a_p c i) <= d) /\ a_t a = a_t c /\ (forall i, (i < f_ntdp f)%nat -> Rabs (a_tdp a i - a_tdp c i) <= d).
(** [xdot] depends on the inputs with constant [Lu]. *)
Definition LipInput (f : daefun R) (Lu : R) : Prop := forall a c, Solves f a -> Solves f c -> (forall i, (i < f_nx f)%nat -> a_x a i = a_x c i) ->
  forall d, NearInput f d a c -> forall i, (i < f_nx f)%nat -> Rabs (a_xdot a i - a_xdot c i) <= Lu * d.
(** So do [z] and the rates of the quadratures on states and inputs. *)
Definition LipZin (f : daefun R) (Lz Lu : R) : Prop := forall a c, Solves f a -> Solves f c -> forall e d, (forall i, (i < f_nx f)%nat -> Rabs (a_x a i - a_x c i) <= e) -> NearInput f d a c ->
  forall i, (i < f_nz f)%nat -> Rabs (a_z a i - a_z c i) <= Lz * e + Lu * d.
Definition LipQin (f : daefun R) (Lq Lu : R) : Prop := forall a c, Solves f a -> Solves f c -> forall e d, (forall i, (i < f_nx f)%nat -> Rabs (a_x a i - a_x c i) <= e) -> NearInput f d a c ->
  forall r, (r < f_nq f)%nat -> Rabs (f_quad f a r - f_quad f c r) <= Lq * e + Lu * d.
(** The inputs of two problems on the grid [t] *)
Definition NearInputs (f : daefun R) (t : list R) (d : R) (g g' : option (R -> mat R)) (u p u' p' : mat R) : Prop :=
  (forall i n, (i < f_nu f)%nat -> (n < ivals t)%nat -> Rabs (at_m u i n - at_m u' i n) <= d) /\ (forall i, (i < f_np f)%nat -> Rabs (at_m p i 0 - at_m p' i 0) <= d) /\
  (forall i v, (i < f_ntdp f)%nat -> node t 0 < v <= node t (ivals t) -> Rabs (tdp_at g v i - tdp_at g' v i) <= d).
