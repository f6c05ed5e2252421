(** Specification vocabulary for parts of grids and changes of variables (C98, C99). *)
From Coq Require Import Reals List.
From Verif Require Import PyBase DMModel DaeModel NumModel NumInst PolynomialModel PiecewiseModel SchemeModel PolySpec PdqSpec SchemeSpec.
Open Scope R_scope.

(** [t[a:b+1]] *)
Definition part (t : list R) (a b : nat) : list R := firstn (S (b - a)) (skipn a t).
Arguments part : simpl never.
(** A number is zero for all elements *)
Definition AllZero (l : list R) : Prop := forall v, In v l -> v = 0.
(** The columns of the parameters that belong to intervals [a] to [b - 1] *)
Definition ppart (rep : bool) (M : nat) (p : mat R) (a b : nat) : mat R := if rep then mcols p (a * M) (b * M) else p.

(** [x = S y + d], [t_new = c + kap * t]: how the arguments of two DAEs correspond *)
Definition Moved (f g : daefun R) (S : nat -> nat -> R) (d : nat -> R) (kap c : R) (a b : dargs R) : Prop :=
  (forall i, (i < f_nx f)%nat -> a_xdot b i = Sum (f_nx g) (fun k => S i k * a_xdot a k) / kap) /\
  (forall i, (i < f_nx f)%nat -> a_x b i = Sum (f_nx g) (fun k => S i k * a_x a k) + d i) /\
  (forall i, (i < f_nz f)%nat -> a_z b i = a_z a i) /\ (forall i, (i < f_nu f)%nat -> a_u b i = a_u a i) /\ (forall i, (i < f_np f)%nat -> a_p b i = a_p a i) /\
  a_t b = c + kap * a_t a /\ (forall i, (i < f_ntdp f)%nat -> a_tdp b i = a_tdp a i).
(** Solutions of [g] become solutions of [f], and rates of quadratures rates of quadratures. *)
Definition Carries (f g : daefun R) (S : nat -> nat -> R) (d : nat -> R) (kap c : R) : Prop :=
  f_nz f = f_nz g /\ f_nu f = f_nu g /\ f_np f = f_np g /\ f_ntdp f = f_ntdp g /\ f_nq f = f_nq g /\
  forall a b, Moved f g S d kap c a b -> (forall r, (r < f_ndae g)%nat -> f_dae g a r = 0) ->
    (forall r, (r < f_ndae f)%nat -> f_dae f b r = 0) /\ forall r, (r < f_nq f)%nat -> f_quad f b r = f_quad g a r / kap.
(** The matrices and the grid in the new variables *)
Definition moved (n m : nat) (S : nat -> nat -> R) (d : nat -> R) (y : mat R) : mat R := Mat n (nc y) (fun i j => Sum m (fun k => S i k * at_m y k j) + d i).
Definition slopes (n m : nat) (S : nat -> nat -> R) (kap : R) (K : mat R) : mat R := Mat n (nc K) (fun i j => Sum m (fun k => S i k * at_m K k j) / kap).
Definition clock (kap c : R) (t : list R) : list R := map (fun s => c + kap * s) t.
