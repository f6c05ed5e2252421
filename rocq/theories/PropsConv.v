(** Property theorems about the solvability (C95) and the accuracy (C96) of collocation. *)
From Coq Require Import Reals Lra.
From Coquelicot Require Import Coquelicot.
From Verif Require Import PyBase IndexModel DMModel StructModel StructsModel IneqModel DaeModel NumModel NumInst PolynomialModel PiecewiseModel PdqModel SchemeModel
  PolySpec PdqSpec SchemeSpec SchemeExamples OrderSpec OrderExamples ConvSpec ConvThms ConvExamples.
Open Scope R_scope.

Section S1.
Context (cspts : nat -> string -> res (list R)) (f : daefun R) (t : list R) (order : nat) (method : string) (tau : list R) (g : option (R -> mat R)) (rep : bool).
Context (HP : Points cspts order method tau) (HL : (2 <= length t)%nat) (HD : DaeOk f) (HT : TdpOk f g) (HA : Asc t).
Context (al L : R) (Hal : CoefBound tau al) (Hss : ShortSteps t al L) (Lip : LipDae f L).
Notation N := (ivals t).
Notation sch x K Z u p := (scheme_ cspts f t order method g rep x K Z u p).
Theorem C95_solution_exists : forall G H u p (x0 : nat -> R),
  Resolvable f G H -> Shaped u (f_nu f) N -> Shaped p (f_np f) (if rep then N * order else 1)%nat ->
  (rep = true -> forall i k l, (i < f_np f)%nat -> (k < N * order)%nat -> (l < N * order)%nat -> at_m p i k = at_m p i l) ->
  exists x K Z s e, VarsOk f N order rep x K Z u p /\ (forall i, (i < f_nx f)%nat -> at_m x i 0 = x0 i) /\ sch x K Z u p = Ok s /\ veccat_master (sc_eq s) = Ok e /\ forall v, In v e -> v = 0.
Proof. exact (solution_exists cspts f t order method tau g rep HP HL HD HT HA al L Hal Hss Lip). Qed.

Section Two.
Context (x K Z u p x' K' Z' : mat R) (HV : VarsOk f N order rep x K Z u p) (HV' : VarsOk f N order rep x' K' Z' u p) (s s' : scheme R) (e e' : list R).
Context (Es : sch x K Z u p = Ok s) (Ee : veccat_master (sc_eq s) = Ok e) (Hz : forall v, In v e -> v = 0) (Es' : sch x' K' Z' u p = Ok s') (Ee' : veccat_master (sc_eq s') = Ok e') (Hz' : forall v, In v e' -> v = 0).
Theorem C95_solution_unique : (forall i, (i < f_nx f)%nat -> at_m x i 0 = at_m x' i 0) ->
  (forall n i, (n <= N)%nat -> (i < f_nx f)%nat -> at_m x i n = at_m x' i n) /\ (forall n j i, (n < N)%nat -> (j < order)%nat -> (i < f_nx f)%nat -> at_m K i (n * order + j) = at_m K' i (n * order + j)) /\
  (forall n j i, (n < N)%nat -> (j < order)%nat -> (i < f_nx f)%nat -> at_m (sc_X s) i (n * order + j) = at_m (sc_X s') i (n * order + j)).
Proof. exact (solution_unique cspts f t order method tau g rep HP HL HD HT HA al L Hal Hss Lip x K Z u p x' K' Z' HV HV' s s' e e' Es Ee Hz Es' Ee' Hz'). Qed.

Theorem C95_solution_continuous : forall d,
  (forall i, (i < f_nx f)%nat -> Rabs (at_m x i 0 - at_m x' i 0) <= d) ->
  forall n i, (n <= N)%nat -> (i < f_nx f)%nat -> Rabs (at_m x i n - at_m x' i n) <= exp (2 * al * L * (node t n - node t 0)) * d.
Proof. exact (solution_continuous cspts f t order method tau g rep HP HL HD HT HA al L Hal Hss Lip x K Z u p x' K' Z' HV HV' s s' e e' Es Ee Hz Es' Ee' Hz'). Qed.

End Two.
Section Error.
Context (x K Z u p : mat R) (HV : VarsOk f N order rep x K Z u p) (s : scheme R) (e : list R) (Es : sch x K Z u p = Ok s) (Ee : veccat_master (sc_eq s) = Ok e) (Hz : forall v, In v e -> v = 0) (HU : InUnit tau).
Context (D d : R) (xd xs zs us : nat -> R -> R) (pv : nat -> R) (HD0 : 0 <= D) (Hd0 : 0 <= d).
Theorem C96_error_bound : SolvesDae f t xd xs zs us pv g -> FedBy f t u p us pv -> (forall i, (i < f_nx f)%nat -> Close t order D (xs i) (xd i)) ->
  (forall i, (i < f_nx f)%nat -> Rabs (at_m x i 0 - xs i (node t 0)) <= d) ->
  (forall n i, (n <= N)%nat -> (i < f_nx f)%nat -> Rabs (at_m x i n - xs i (node t n)) <= exp (2 * al * L * (node t n - node t 0)) * (d + (node t n - node t 0) * ((1 + al) * D))) /\
  (forall n j i, (n < N)%nat -> (j < order)%nat -> (i < f_nx f)%nat ->
     Rabs (at_m (sc_X s) i (n * order + j) - xs i (node (sc_tc s) (n * order + j))) <= 2 * exp (2 * al * L * (node t n - node t 0)) * (d + (node t (n + 1) - node t 0) * ((1 + al) * D))).
Proof. exact (error_bound cspts f t order method tau g rep HP HL HD HT HA al L Hal Hss Lip x K Z u p HV s e Es Ee Hz HU D d xd xs zs us pv HD0 Hd0). Qed.

End Error.
End S1.

Section S2.
Context (cspts : nat -> string -> res (list R)) (f : daefun R) (t : list R) (order : nat) (method : string) (tau : list R) (g : option (R -> mat R)).
Context (HP : Points cspts order method tau) (HL : (2 <= length t)%nat) (HD : DaeOk f) (HT : TdpOk f g) (Hsq : f_ndae f = (f_nx f + f_nz f)%nat) (HA : Asc t).
Context (al L : R) (Hal : CoefBound tau al) (Hss : ShortSteps t al L) (Lip : LipDae f L).
Notation N := (ivals t).
Context (x0 : nat -> R) (u p : mat R) (Hu : Shaped u (f_nu f) (ivals t)) (Hp : Shaped p (f_np f) 1).
Notation integ rf nan z0 := (integrator_ rf nan cspts f t order method g x0 z0 u p).
Theorem C95_integrator_unique : forall rf nan z0 out rf' nan' z0' out',
  RootFinder rf -> RootFinder rf' -> integ rf nan z0 = Ok out -> integ rf' nan' z0' = Ok out' ->
  (forall n i, (n < N)%nat -> (i < f_nx f)%nat -> at_m (io_xf out) i n = at_m (io_xf out') i n) /\ (forall n j i, (n < N)%nat -> (j < order)%nat -> (i < f_nx f)%nat -> at_m (io_X out) i (n * order + j) = at_m (io_X out') i (n * order + j)).
Proof. exact (integrator_unique cspts f t order method tau g HP HL HD HT Hsq HA al L Hal Hss Lip x0 u p Hu Hp). Qed.

Theorem C96_integrator_error : forall rf nan z0 out D xd xs zs us pv,
  InUnit tau -> 0 <= D -> RootFinder rf -> integ rf nan z0 = Ok out ->
  SolvesDae f t xd xs zs us pv g -> FedBy f t u p us pv -> (forall i, (i < f_nx f)%nat -> Close t order D (xs i) (xd i)) -> (forall i, (i < f_nx f)%nat -> xs i (node t 0) = x0 i) ->
  forall n i, (n < N)%nat -> (i < f_nx f)%nat -> Rabs (at_m (io_xf out) i n - xs i (node t (n + 1))) <= exp (2 * al * L * (node t (n + 1) - node t 0)) * ((node t (n + 1) - node t 0) * ((1 + al) * D)).
Proof. exact (integrator_error cspts f t order method tau g HP HL HD HT Hsq HA al L Hal Hss Lip x0 u p Hu Hp). Qed.

End S2.

Notation lsch q a b c d x0 y0 x1 y1 k l := (scheme_ (lpts q) (lf a b c d) [0; 1] 1 "m" None false (two x0 y0 x1 y1) (one k l) (non 1) (non 1) (non 1)).
Theorem C95_long_steps_refuted : LipDae (lf 1 0 0 1) 1 /\ CoefBound [1] 1 /\ Resolvable (lf 1 0 0 1) (fun v i => 1 * a_x v i) (fun _ _ => 0) /\
  (forall x K Z s e, VarsOk (lf 1 0 0 1) 1 1 false x K Z (non 1) (non 1) -> at_m x 0 0 = 1 -> scheme_ (lpts 1) (lf 1 0 0 1) [0; 1] 1 "m" None false x K Z (non 1) (non 1) = Ok s ->
     veccat_master (sc_eq s) = Ok e -> ~ forall v, In v e -> v = 0) /\
  (forall k, exists s e, lsch 1 1 0 0 1 0 0 k k k k = Ok s /\ veccat_master (sc_eq s) = Ok e /\ forall v, In v e -> v = 0).
Proof. exact long_steps_refuted. Qed.

Print Assumptions C95_solution_exists.
Print Assumptions C95_solution_unique.
Print Assumptions C95_solution_continuous.
Print Assumptions C96_error_bound.
Print Assumptions C95_integrator_unique.
Print Assumptions C96_integrator_error.
Print Assumptions C95_long_steps_refuted.
