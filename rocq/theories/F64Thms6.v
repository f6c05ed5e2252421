(** Collocation polynomials of a scheme in binary64; an end time that is exceeded (C104). *)
From Coq Require Import Reals Lra.
From Coq Require Import Floats.SpecFloat.
From Verif Require Import PyBase NumModel NumInst PolynomialModel PiecewiseModel PdqModel SchemeModel PolySpec PdqSpec F64Spec F64Thms F64Thms2 F64Thms3 F64Thms4 F64Thms5.
Open Scope list_scope. Open Scope nat_scope.
#[local] Existing Instance numF.

Section Scheme64.
Context (cspts : nat -> string -> res (list f64)) (f : daefun f64) (t : list f64) (order : nat) (method : string) (g : option (f64 -> mat f64)) (rep : bool) (x0 K0 Z u p : mat f64) (s : scheme f64).
Context (Es : scheme_ cspts f t order method g rep x0 K0 Z u p = Ok s).
Notation c := (tb_c (sc_butcher s)).
Lemma scheme64_c : length c = order.
Proof.
  destruct (scheme_parts _ _ _ _ _ _ _ _ _ _ _ _ _ Es) as (_ & _ & HL & _ & _ & ET & EL). rewrite ET in EL.
  destruct (blocks (fun n => map (fun c => (vget t n + vget (ndiff t) n * c)%num) c) (length c) (S754_zero false)) with (n := length t - 1) as [B _]; [intros; now rewrite map_length|]. rewrite B in EL. apply Nat.mul_cancel_l in EL; [exact EL|lia].
Qed.
Theorem scheme64_poly x K X pp : eval_X s x K = Ok X -> piecewise_X s x K = Ok pp -> nc x = length t -> nc X = (length t - 1) * order ->
  AscF t -> StepsF t -> DistinctF (n0 :: c) -> FiniteM x -> FiniteM X ->
  (forall n, n < length t - 1 -> exists Y, pp_call pp (PNum (fnode t n)) "right" = Ok Y /\ nr Y = nr x /\ nc Y = 1 /\ IsCol Y 0 x n) /\
  (forall n, n < length t - 1 -> 1 <= order -> Is (fnode c (order - 1)) 1 ->
     exists Y, pp_call pp (PNum (fnode t (n + 1))) "left" = Ok Y /\ nr Y = nr x /\ nc Y = 1 /\ IsCol Y 0 X ((n + 1) * order - 1)).
Proof.
  intros EX Epp Nx NX HA HS HD Fx FX. destruct (scheme_parts _ _ _ _ _ _ _ _ _ _ _ _ _ Es) as (Et & EN & HL & EM & _). pose proof scheme64_c as HC.
  assert (P1 : sc_N s = length (sc_t s) - 1) by congruence. assert (P2 : length c = sc_M s) by congruence. assert (P3 : nc X = sc_N s * sc_M s) by congruence. assert (P4 : nc x = sc_N s + 1) by lia.
  rewrite <- Et in HA, HS. rewrite <- Et, <- EM. rewrite <- P1. split; intros n Hn.
  - exact (poly64_grid s x K X pp P1 EX Epp P2 P3 HA HS HD P4 Fx FX n Hn).
  - exact (poly64_end s x K X pp P1 EX Epp P2 P3 HA HS HD P4 Fx FX n Hn).
Qed.
End Scheme64.
