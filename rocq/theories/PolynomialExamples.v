(** Examples for C43-C54: the repository's own tests replayed over the rational numbers,
    and concrete instances of the theorems' hypotheses over the real numbers. *)
From Coq Require Import Reals QArith Lra.
From Coquelicot Require Import Coquelicot.
From Verif Require Import PyBase NumModel NumInst NumSpec PolynomialModel PiecewiseModel PolySpec PiecewiseSpec PolyMath PolynomialBase PolynomialThms PolynomialThms2 PiecewiseThms PiecewiseThms2.

(** ** Computations over the rational numbers *)
Section OverQ.
#[local] Existing Instance numQ.
Open Scope Q_scope.
Definition qlist (m : mat Q) : list (list Q) := map (fun i => map (at_m m i) (seq 0 (nc m))) (seq 0 (nr m)).
Definition qmat (r c : nat) (l : list (list Q)) : mat Q := Mat r c (fun i j => nth j (nth i l []) 0).
(** cos(pi * q) where it is rational *)
Definition qcospi (q : Q) : Q := if Qeq_bool q 0 then 1 else if Qeq_bool q (1 # 3) then 1 # 2 else if Qeq_bool q (1 # 2) then 0 else if Qeq_bool q (2 # 3) then - (1 # 2) else - (1).
Definition qpts (order : nat) (scheme : string) : res (list Q) :=
  if String.eqb scheme "radau" then match order with 1%nat => Ok [1] | 2%nat => Ok [1 # 3; 1] | _ => Err EValue end
  else if String.eqb scheme "legendre" then match order with 1%nat => Ok [1 # 2] | _ => Err EValue end else Err EValue.
Definition qcheb N a b := match cheb qcospi 1 qpts N a b with Ok (D, t) => Ok (qlist D, t) | Err e => Err e end.

(** test_collocation.py, ChebTest *)
Example cheb_0 : qcheb 0 1 (-1) = Ok ([[0]], [1]). Proof. vm_compute. reflexivity. Qed.
Example cheb_1 : qcheb 1 1 (-1) = Ok ([[1 # 2; -1 # 2]; [1 # 2; -1 # 2]], [1; -1]). Proof. vm_compute. reflexivity. Qed.
Example cheb_2 : qcheb 2 1 (-1) = Ok ([[3 # 2; -2; 1 # 2]; [1 # 2; 0; -1 # 2]; [-1 # 2; 2; -3 # 2]], [1; 0; -1]). Proof. vm_compute. reflexivity. Qed.
Example cheb_3 : qcheb 3 1 (-1) = Ok ([[19 # 6; -4; 4 # 3; -1 # 2]; [1; -1 # 3; -1; 1 # 3]; [-1 # 3; 1; 1 # 3; -1]; [1 # 2; -4 # 3; 4; -19 # 6]], [1; 1 # 2; -1 # 2; -1]).
Proof. vm_compute. reflexivity. Qed.
(** test_collocation.py, test_interpolationMatrixChebyshev *)
Example interp_cheb : (let* tau := collocation_points qcospi 1 qpts 3 "chebyshev" in let* b := basis_ (PVec tau) in let* m := interp_matrix b (PVec [0; 1]) in Ok (qlist m)) = Ok [[1; 0; 0; 0]; [0; 0; 0; 1]].
Proof. vm_compute. reflexivity. Qed.
Example basis_quadratic : (let* b := basis_ (PVec [0; 1 # 2; 1]) in Ok (b_poly b, qlist (b_D b))) =
  Ok ([[2; -3; 1]; [-4; 4; 0]; [2; -1; 0]], [[-3; 4; -1]; [-1; 0; 1]; [1; -4; 3]]).
Proof. vm_compute. reflexivity. Qed.
Example compose_ex : (let* b := basis_ (PVec [0; 1 # 2; 1]) in compose b (qmat 2 3 [[1; 2; 3]; [0; 1; 4]])) = Ok [[2; 1]; [4; 0; 0]].
Proof. vm_compute. reflexivity. Qed.
(** Radau IIA of order 3 *)
Example radau_tableau : (let* tb := butcher_method qpts 2 "radau" in Ok (qlist (tb_A tb), tb_b tb, tb_c tb)) = Ok ([[5 # 12; -1 # 12]; [3 # 4; 1 # 4]], [3 # 4; 1 # 4], [1 # 3; 1]).
Proof. vm_compute. reflexivity. Qed.
Example bary_ex : (let* m := bary_interpolator (PVec [0; 1; 2]) (qmat 2 3 [[0; 1; 4]; [1; 1; 1]]) (PVec [3; 1; 1 # 2]) in Ok (qlist m)) = Ok [[9; 1; 1 # 4]; [1; 1; 1]].
Proof. vm_compute. reflexivity. Qed.

(** test_piecewise_poly.py style: two intervals, two components *)
Definition qpp (c1 c2 : list (list Q)) : res (ppoly Q) := let* b := basis_ (PVec [0; 1 # 2; 1]) in ppoly_ [0; 1; 3] [qmat 2 3 c1; qmat 2 3 c2] b.
Definition qpp1 := qpp [[0; 1 # 4; 1]; [1; 2; 3]] [[1; 4; 9]; [0; 0; 1]].
Definition rl (x : res (mat Q)) : res (list (list Q)) := let* m := x in Ok (qlist m).
Example pp_right : (let* p := qpp1 in rl (pp_call p (PVec [-1; 0; 1 # 2; 1; 2; 3; 4]) "right")) = Ok [[1; 0; 1 # 4; 1; 4; 9; 16]; [-1; 1; 2; 0; 0; 1; 3]].
Proof. vm_compute. reflexivity. Qed.
Example pp_left : (let* p := qpp1 in rl (pp_call p (PVec [-1; 0; 1 # 2; 1; 2; 3; 4]) "left")) = Ok [[1; 0; 1 # 4; 1; 4; 9; 16]; [-1; 1; 2; 3; 0; 1; 3]].
Proof. vm_compute. reflexivity. Qed.
Example pp_other : (let* p := qpp1 in rl (pp_call p (PNum 1) "both")) = Err EValue. Proof. vm_compute. reflexivity. Qed.
Example pp_deriv : (let* p := qpp1 in let* q := pp_derivative p in rl (pp_call q (PVec [1 # 2; 2]) "right")) = Ok [[1; 4]; [2; 1 # 2]].
Proof. vm_compute. reflexivity. Qed.
Example pp_disc : (let* p := qpp1 in let* xy := pp_discretize p (3 # 4) in Ok (fst xy, qlist (snd xy))) =
  Ok ([0; 3 # 4; 1; 1; 7 # 4; 5 # 2; 3], [[0; 9 # 16; 1; 1; 49 # 16; 25 # 4; 9]; [1; 5 # 2; 3; 0; -3 # 32; 3 # 8; 1]]).
Proof. vm_compute. reflexivity. Qed.
(** [poly] works for a component of full degree and raises as soon as one has a lower degree. *)
Example pp_poly_full : (let* p := qpp [[0; 1 # 4; 1]; [1; 2; 4]] [[1; 4; 9]; [0; 0; 1]] in pp_poly p 1) = Ok [[1; 2; 1]; [1 # 2; -1 # 2; 0]].
Proof. vm_compute. reflexivity. Qed.
Example pp_poly_drop : (let* p := qpp1 in pp_poly p 0) = Err EValue. Proof. vm_compute. reflexivity. Qed.
End OverQ.

(** ** The hypotheses over the real numbers *)
Open Scope R_scope.
Definition tau3 : list R := [0; 1 / 2; 1].
Example tau3_nodup : NoDup tau3.
Proof. unfold tau3. repeat constructor; simpl; intros H; repeat destruct H as [H|H]; lra || tauto. Qed.
Example tau3_basis : exists b, basis_ (PVec tau3) = Ok b. Proof. apply basis_accepts. right. exists tau3. split; [reflexivity|discriminate]. Qed.
Example tau3_polylt : PolyLt (length tau3) (fun t => 3 * t ^ 2 + 1). Proof. exists [1; 0; 3]. split; [simpl; lia|]. intros t. simpl. ring. Qed.
(** A solver that answers when it is given the identity matrix. *)
Definition is_unit (A : mat R) : bool := (nr A =? nc A)%nat && forallb (fun i => forallb (fun k => Req_b (at_m A i k) (if Nat.eqb i k then 1 else 0)) (seq 0 (nc A))) (seq 0 (nr A)).
Definition solve_unit (A B : mat R) : res (mat R) := if is_unit A && (nr B =? nr A)%nat then Ok B else Err EValue.
Lemma solve_unit_solver : Solver solve_unit.
Proof.
  intros A B S. unfold solve_unit, is_unit. destruct (Nat.eqb_spec (nr A) (nc A)) as [E|]; [|discriminate]. simpl. destruct (forallb _ _) eqn:F; [|discriminate]. destruct (Nat.eqb_spec (nr B) (nr A)) as [E'|]; [|discriminate]. intros H. injection H as <-.
  split; [lia|]. split; [reflexivity|]. intros i j Hi Hj. assert (U : forall k, (k < nc A)%nat -> at_m A i k = if Nat.eqb i k then 1 else 0).
  { intros k Hk. rewrite forallb_forall in F. specialize (F i ltac:(apply in_seq; lia)). rewrite forallb_forall in F. specialize (F k ltac:(apply in_seq; lia)). now apply Req_b_iff in F. }
  assert (Hik : (i < nc A)%nat) by lia. rewrite (Sum_single _ i _ Hik); [rewrite U, Nat.eqb_refl by lia; ring|]. intros k Hk Hn. rewrite U by exact Hk. destruct (Nat.eqb_spec i k); [lia|ring].
Qed.
(** With the single node 5 the Vandermonde matrix is [[1]]. *)
Example poly_interp_ex : exists m, poly_interpolator solve_unit (PVec [5]) (Mat 1 1 (fun _ _ => 7)) (PVec [2; 3]) = Ok m /\ at_m m 0 1 = 7.
Proof.
  unfold poly_interpolator, solve_unit, is_unit. simpl. rnum. unfold Req_b. destruct (Req_EM_T 1 1) as [_|N]; [|exfalso; now apply N]. simpl. eexists. split; [reflexivity|]. simpl. unfold nsum. simpl. rnum. ring.
Qed.
Example tableau_ok : exists tb, tableau_ (NdMat (Mat 2 2 (fun _ _ => 0))) (NdVec [1; 2]) (NdVec [0; 1]) = Ok tb. Proof. eexists. reflexivity. Qed.
Example tableau_bad : tableau_ (NdMat (Mat 2 2 (fun _ _ => 0))) (NdVec [1; 2; 3]) (NdVec [0; 1]) = Err EAssert. Proof. reflexivity. Qed.

(** A piecewise polynomial on [0, 1, 3] with basis nodes 0, 1 *)
Definition rb : basis R := match basis_ (PVec [0; 1]) with Ok b => b | Err _ => Basis [] (Mat 0 0 (fun _ _ => 0)) [] [] end.
Definition rpp (a b c d : R) : ppoly R := PPoly [0; 1; 3] [Mat 1 2 (fun _ j => if Nat.eqb j 0 then a else b); Mat 1 2 (fun _ j => if Nat.eqb j 0 then c else d)] rb.
Lemma Asc_013 : Asc [0; 1; 3].
Proof. intros i j H. simpl in H. unfold node. destruct i as [|[|[|i]]], j as [|[|[|j]]]; simpl; try lia; lra. Qed.
Example rpp_ok a b c d : PpOk (rpp a b c d) 1.
Proof.
  split; [simpl; lia|]. split; [apply Asc_013|]. split; [reflexivity|]. split; [simpl; repeat constructor; simpl; intros H; repeat destruct H as [H|H]; lra || tauto|]. split; [reflexivity|].
  intros i Hi. unfold nint in Hi. simpl in Hi. destruct i as [|[|i]]; [split; reflexivity|split; reflexivity|lia].
Qed.
Example rpp_piece a b c d : Piece (rpp a b c d) 1 0 (fun t => c + (t - 1) / 2 * (d - c)).
Proof.
  split; [exists [c - (d - c) / 2; (d - c) / 2]; split; [simpl; unfold nnodes; simpl; lia|intros t; simpl; field]|]. intros j Hj. unfold nnodes in Hj. simpl in Hj. unfold bound, width, coef, bound, node. destruct j as [|[|j]]; [simpl; field|simpl; field|lia].
Qed.
Example rpp_belongs a b c d : Belongs (rpp a b c d) true 1 1 /\ Belongs (rpp a b c d) false 1 0.
Proof. unfold Belongs, nint, bound, node. simpl. split; (split; [lia|]; split); first [left; lia|right; lra]. Qed.
(** The value at the middle bound depends on the option. *)
Example rpp_middle : ppval (rpp 0 1 5 7) "right" 0 1 = 5 /\ ppval (rpp 0 1 5 7) "left" 0 1 = 1.
Proof.
  pose proof (rpp_ok 0 1 5 7) as OK. split.
  - rewrite (ppval_spec _ 1 "right" 0 1 1 (fun t => 5 + (t - 1) / 2 * (7 - 5)) OK); [field|now right|apply rpp_belongs|apply rpp_piece].
  - destruct (piece_exists _ 1 0 0 OK ltac:(unfold nint; simpl; lia)) as [f Hf]. rewrite (ppval_spec _ 1 "left" 0 1 0 f OK); [|now left|apply rpp_belongs|exact Hf]. destruct Hf as [_ Hf]. specialize (Hf 1%nat ltac:(unfold nnodes; simpl; lia)). unfold bound, width, coef, bound, node in Hf. simpl in Hf. rewrite <- Hf. f_equal. lra.
Qed.
Example rpp_off_bounds : ~ In 2 (pp_t (rpp 0 1 5 7)). Proof. simpl. intros H. repeat destruct H as [H|H]; lra || tauto. Qed.
Example rpp_full : FullDegree (rpp 0 1 5 7) 1 0.
Proof.
  right. intros f Hf HP. change (nnodes (rpp 0 1 5 7) - 1)%nat with 1%nat in HP. destruct HP as (c & Lc & H). destruct Hf as [_ Hf]. pose proof (Hf 0%nat ltac:(unfold nnodes; simpl; lia)) as H0. pose proof (Hf 1%nat ltac:(unfold nnodes; simpl; lia)) as H1.
  rewrite H in H0, H1. unfold bound, width, coef, bound, node in H0, H1. simpl in H0, H1. destruct c as [|x [|y c]]; simpl in *; [lra|lra|lia].
Qed.
(** ** Refutations *)
(** C54: a component that is constant on an interval makes [poly] raise. *)
Theorem poly_degree_drop_refuted : exists p m n, PpOk p m /\ (n < nint p)%nat /\ exists e, pp_poly p n = Err e.
Proof.
  exists (rpp 2 2 5 7), 1%nat, 0%nat. split; [apply rpp_ok|]. split; [unfold nint; simpl; lia|].
  destruct (pp_poly (rpp 2 2 5 7) 0) as [P|e] eqn:E.
  - exfalso. assert (HS : exists P, pp_poly (rpp 2 2 5 7) 0 = Ok P) by eauto. apply (proj1 (poly_succeeds_iff _ 1 0 (rpp_ok _ _ _ _) ltac:(unfold nint; simpl; lia))) with (r := 0%nat) in HS; [|lia].
    destruct HS as [HS|HS]; [unfold nnodes in HS; simpl in HS; lia|]. apply (HS (fun _ => 2)); [|unfold nnodes; simpl; apply PolyLt_const]. split; [unfold nnodes; simpl; apply (PolyLt_mon 1); [lia|apply PolyLt_const]|]. intros j Hj. unfold nnodes in Hj. simpl in Hj. unfold coef. destruct j as [|[|j]]; simpl; [reflexivity|reflexivity|lia].
  - now exists e.
Qed.

(** C53 in binary64: with the bounds 0.2 and 0.9 the last point is 0.2 + (0.9 - 0.2), the
    number before 0.9, so that the end of the interval is not in [x]. *)
Section OverF.
#[local] Existing Instance numF.
Definition fq (a b : Z) : f64 := ndiv (f64_of_Z a) (f64_of_Z b).
Definition fpp : res (ppoly f64) := let* b := basis_ (PVec [n0; n1]) in ppoly_ [fq 2 10; fq 9 10] [Mat 1 2 (fun _ _ => n1)] b.
Definition fend : res bool := let* p := fpp in let* xy := pp_discretize p (fq 1 10) in Ok (existsb (neqb (fq 9 10)) (fst xy)).
Lemma fend_false : fend = Ok false. Proof. vm_compute. reflexivity. Qed.
Theorem discretize_end_refuted : exists (b : basis f64) (p : ppoly f64) (x : list f64) (y : mat f64),
  basis_ (PVec [n0; n1]) = Ok b /\ ppoly_ [fq 2 10; fq 9 10] [Mat 1 2 (fun _ _ => n1)] b = Ok p /\
  pp_discretize p (fq 1 10) = Ok (x, y) /\ existsb (neqb (fq 9 10)) x = false.
Proof.
  pose proof fend_false as H. unfold fend, fpp in H. destruct (basis_ _) as [b|]; [|discriminate]. cbn [rbind] in H. destruct (ppoly_ _ _ _) as [p|] eqn:Ep; [|discriminate]. cbn [rbind] in H.
  destruct (pp_discretize _ _) as [[x y]|] eqn:Ed; [|discriminate]. cbn [rbind fst] in H. exists b, p, x, y. split; [reflexivity|]. split; [exact Ep|]. split; [exact Ed|]. injection H as H. exact H.
Qed.
End OverF.
