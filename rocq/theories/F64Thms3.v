(** Piecewise polynomials and collocation grids in binary64 (C104). *)
From Coq Require Import Reals Lra.
From Coq Require Import Floats.SpecFloat.
From Flocq Require Import Core.
From Verif Require Import PyBase NumModel NumInst PolynomialModel PiecewiseModel PdqModel PolySpec PdqSpec PiecewiseThms F64Spec F64Thms F64Thms2.
Open Scope list_scope. Open Scope nat_scope.
#[local] Existing Instance numF.

(** ** Which interval *)
Lemma search_val l x right : FiniteAll l -> Finite x -> searchsorted l x right = searchsorted (map val l) (val x) right.
Proof.
  intros F Fx. unfold searchsorted. induction l as [|y l IH]; [reflexivity|]. cbn [map filter].
  assert (E : (if right then negb (nltb x y) else nltb y x) = (if right then negb (nltb (val x) (val y)) else nltb (val y) (val x))).
  { assert (Fy : Finite y) by (apply F; now left). destruct right; [f_equal|]; now apply ltb_val. }
  assert (F' : FiniteAll l) by (intros z Hz; apply F; now right). specialize (IH F'). cbn beta. rewrite E. destruct (if right then negb (nltb (val x) (val y)) else nltb (val y) (val x)); cbn [length]; [f_equal|]; exact IH.
Qed.
Lemma within_unique t right x i j : Asc t -> Within t right x i -> Within t right x j -> i = j.
Proof.
  intros A (I1 & I2 & I3) (J1 & J2 & J3). destruct (Nat.lt_total i j) as [K|[K|K]]; [|exact K|]; exfalso.
  - destruct I3 as [I3|I3]; [lia|]. destruct J2 as [J2|J2]; [lia|]. assert (node t (i + 1) <= node t j)%R by (apply Asc_le; auto; lia). destruct right; lra.
  - destruct J3 as [J3|J3]; [lia|]. destruct I2 as [I2|I2]; [lia|]. assert (node t (j + 1) <= node t i)%R by (apply Asc_le; auto; lia). destruct right; lra.
Qed.
Lemma search_within l x right i : 2 <= length l -> AscF l -> Finite x -> Within (map val l) right (val x) i -> clip1 (searchsorted l x right) (Z.of_nat (length l) - 2) = i.
Proof.
  intros L [F A] Fx H. rewrite search_val by assumption. rewrite <- (map_length val l).
  pose proof (found_interval (map val l) (val x) right A ltac:(rewrite map_length; exact L)) as K. cbv zeta in K. eapply within_unique; [exact A|exact K|exact H].
Qed.
Lemma within_exists l x right : 2 <= length l -> AscF l -> Finite x -> exists i, Within (map val l) right (val x) i.
Proof. intros L [F A] Fx. eexists. apply (found_interval (map val l) (val x) right A). now rewrite map_length. Qed.

(** ** Local times *)
Section Times.
Context (l : list f64) (HA : AscF l) (HS : StepsF l) (i : nat) (Hi : i + 1 < length l).
Lemma times_side : Finite (fnode l i) /\ Finite (fnode l (i + 1)) /\ (val (fnode l i) < val (fnode l (i + 1)))%R /\ Finite (SFsub 53 1024 (fnode l (i + 1)) (fnode l i)).
Proof.
  destruct HA as [F A]. split; [apply F, fnode_in; lia|]. split; [apply F, fnode_in; lia|]. split; [|now apply HS]. rewrite !fnode_val. apply A. rewrite map_length. lia.
Qed.
Theorem local_range x : Finite x -> (val (fnode l i) <= val x <= val (fnode l (i + 1)))%R ->
  Finite (local_time l i x) /\ (0 <= val (local_time l i x) <= 1)%R /\
  (Rabs (val (local_time l i x) - (val x - val (fnode l i)) / (val (fnode l (i + 1)) - val (fnode l i))) <= 4 * powerRZ 2 (-53))%R /\
  (val x = val (fnode l i) -> val (local_time l i x) = 0%R) /\ (val x = val (fnode l (i + 1)) -> val (local_time l i x) = 1%R).
Proof.
  intros Fx H. destruct times_side as (Fa & Fb & Hab & Fh). change (local_time l i x) with (ltime (fnode l i) (fnode l (i + 1)) x). split; [|split; [|split; [|split]]].
  - now apply ltime_val.
  - now apply ltime_val.
  - change (powerRZ 2 (-53)) with (powerRZ (IZR radix2) (-53)). rewrite <- bpow_powerRZ. now apply ltime_error.
  - intros E. now apply (ltime_left _ _ Fa Fb Hab Fh x Fx).
  - intros E. now apply (ltime_right _ _ Fa Fb Hab Fh x Fx).
Qed.
Theorem local_mono x y : Finite x -> Finite y -> (val (fnode l i) <= val x)%R -> (val x <= val y)%R -> (val y <= val (fnode l (i + 1)))%R ->
  (val (local_time l i x) <= val (local_time l i y))%R.
Proof. intros. destruct times_side as (Fa & Fb & Hab & Fh). now apply (ltime_mono (fnode l i) (fnode l (i + 1))). Qed.
End Times.
Lemma within_range l right x i : Asc l -> Within l right x i -> (node l 0 <= x <= node l (length l - 1))%R -> (node l i <= x <= node l (i + 1))%R.
Proof.
  intros A (H1 & H2 & H3) H. split.
  - destruct H2 as [->|H2]; [tauto|destruct right; lra].
  - destruct H3 as [H3|H3]; [replace (i + 1) with (length l - 1) by lia; tauto|destruct right; lra].
Qed.

(** ** PiecewisePoly *)
Definition no_mat : mat f64 := Mat 0 0 (fun _ _ => n0).
Section Call.
Context (p : ppoly f64) (HL : 2 <= length (pp_t p)) (HC : length (pp_c p) = length (pp_t p) - 1) (HA : AscF (pp_t p)).
Theorem call_local x c i : Finite x -> c = "left"%string \/ c = "right"%string -> Within (map val (pp_t p)) (to_right c) (val x) i ->
  pp_call p (PNum x) c = let* m := interp_matrix (pp_b p) (PNum (local_time (pp_t p) i x)) in mdot (nth i (pp_c p) no_mat) (mtr m).
Proof.
  intros Fx Hc HW. unfold pp_call. assert (E : negb (String.eqb c "left" || String.eqb c "right") = false) by (destruct Hc as [-> | ->]; reflexivity). rewrite E. cbn [rbind rmapM].
  fold (to_right c). unfold pp_eval1. rewrite (search_within _ x (to_right c) i HL HA Fx HW). unfold lget. destruct HW as (Hi & _). rewrite map_length in Hi. rewrite (nth_error_nth' (pp_c p) no_mat) by lia. cbn [rbind].
  change (ndiv (nsub x (vget (pp_t p) i)) (nsub (vget (pp_t p) (i + 1)) (vget (pp_t p) i))) with (local_time (pp_t p) i x).
  destruct (interp_matrix (pp_b p) (PNum (local_time (pp_t p) i x))) as [m|e]; cbn [rbind]; [|reflexivity]. destruct (mdot (nth i (pp_c p) no_mat) (mtr m)); reflexivity.
Qed.
Context (HS : StepsF (pp_t p)) (HD : DistinctF (b_tau (pp_b p))).
Theorem call_bound x c i j : Finite x -> c = "left"%string \/ c = "right"%string -> Within (map val (pp_t p)) (to_right c) (val x) i ->
  FiniteM (nth i (pp_c p) no_mat) -> nc (nth i (pp_c p) no_mat) = length (b_tau (pp_b p)) -> j < length (b_tau (pp_b p)) ->
  (val x = val (fnode (pp_t p) i) /\ val (fnode (b_tau (pp_b p)) j) = 0%R) \/ (val x = val (fnode (pp_t p) (i + 1)) /\ val (fnode (b_tau (pp_b p)) j) = 1%R) ->
  exists Y, pp_call p (PNum x) c = Ok Y /\ nr Y = nr (nth i (pp_c p) no_mat) /\ nc Y = 1 /\ IsCol Y 0 (nth i (pp_c p) no_mat) j.
Proof.
  intros Fx Hc HW FC NC Hj HX. rewrite (call_local x c i Fx Hc HW). set (C := nth i (pp_c p) no_mat) in *. pose proof HW as (Hi & _). rewrite map_length in Hi.
  destruct (times_side _ HA HS i Hi) as (_ & _ & Hab & _).
  destruct (local_range _ HA HS i Hi x Fx) as (FT & _ & _ & T0 & T1); [destruct HX as [[-> _]|[-> _]]; lra|].
  change (interp_matrix (pp_b p) (PNum (local_time (pp_t p) i x))) with (interp_matrix (pp_b p) (PVec [local_time (pp_t p) i x])).
  destruct (rows_node (pp_b p) [local_time (pp_t p) i x] [j] HD ltac:(discriminate)) as (M & EM & M1 & M2 & HM).
  { constructor; [|constructor]. split; [exact FT|]. split; [exact Hj|]. destruct HX as [[X ->]|[X ->]]; auto. }
  rewrite EM. cbn [rbind]. unfold mdot. cbn [mtr nr nc]. rewrite M2, NC, Nat.eqb_refl. eexists. split; [reflexivity|]. cbn [nr nc]. split; [reflexivity|]. split; [exact M1|].
  intros r Hr. cbn [at_m]. rewrite <- NC. apply (dot_node C M 0 j FC); auto; try congruence; try lia; [simpl in M1; lia|]. intros k Hk. apply HM; [reflexivity|lia].
Qed.
End Call.
