(** Examples for binary64 (C104) and an end time that is exceeded. *)
From Coq Require Import Reals Lra.
From Coq Require Import Floats.SpecFloat.
From Verif Require Import PyBase NumModel NumInst PolynomialModel PiecewiseModel PdqModel SchemeModel PolySpec PdqSpec F64Spec F64Thms F64Thms2 F64Thms3 F64Thms4 F64Thms5 F64Thms6.
Open Scope list_scope. Open Scope nat_scope.
#[local] Existing Instance numF.

(** [a / b] in binary64 *)
Definition fq (a b : Z) : f64 := SFdiv 53 1024 (f64_of_Z a) (f64_of_Z b).
(** Deciding the hypotheses *)
Definition finb (x : f64) : bool := SpecFloat.valid_binary 53 1024 x && match x with S754_zero _ | S754_finite _ _ _ => true | _ => false end.
Lemma finb_ok x : finb x = true -> Finite x.
Proof. unfold finb, Finite. intros H. apply andb_prop in H. destruct H as [H1 H2]. split; [exact H1|]. destruct x; simpl in *; congruence. Qed.
Lemma finall_ok l : forallb finb l = true -> FiniteAll l.
Proof. intros H x Hx. apply finb_ok. rewrite forallb_forall in H. auto. Qed.
Lemma lt_ok x y : finb x = true -> finb y = true -> SFltb x y = true -> (val x < val y)%R.
Proof. intros Hx Hy. rewrite ltb_val by (now apply finb_ok). unfold Rlt_b. destruct (Rlt_dec _ _); [auto|discriminate]. Qed.
Lemma eq_ok x y : finb x = true -> finb y = true -> SFeqb x y = true -> val x = val y.
Proof. intros Hx Hy. rewrite eqb_val by (now apply finb_ok). unfold Req_b. destruct (Req_EM_T _ _); [auto|discriminate]. Qed.
Fixpoint ascb (l : list f64) : bool := match l with [] => true | x :: l' => forallb (SFltb x) l' && ascb l' end.
Lemma asc_ok l : forallb finb l = true -> ascb l = true -> AscF l.
Proof.
  intros H A. split; [now apply finall_ok|]. revert H A. induction l as [|x l IH]; intros H A i j Hij; [simpl in Hij; lia|]. cbn in H, A. apply andb_prop in H, A. destruct H as [Hx Hl], A as [Ax Al].
  destruct j as [|j]; [lia|]. rewrite map_length in Hij. simpl in Hij. destruct i as [|i].
  - change (val x < node (map val l) j)%R. rewrite <- fnode_val. rewrite forallb_forall in Ax, Hl. assert (In (fnode l j) l) by (apply fnode_in; lia). apply lt_ok; auto.
  - change (node (map val l) i < node (map val l) j)%R. apply IH; auto. rewrite map_length. lia.
Qed.
Definition stepsb (l : list f64) : bool := forallb (fun i => finb (SFsub 53 1024 (fnode l (i + 1)) (fnode l i))) (seq 0 (length l - 1)).
Lemma steps_ok l : stepsb l = true -> StepsF l.
Proof. unfold stepsb. intros H i Hi. apply finb_ok. rewrite forallb_forall in H. apply (H i). apply in_seq. lia. Qed.
Definition finmb (m : mat f64) : bool := forallb (fun i => forallb (fun j => finb (at_m m i j)) (seq 0 (nc m))) (seq 0 (nr m)).
Lemma finm_ok m : finmb m = true -> FiniteM m.
Proof. unfold finmb. intros H i j Hi Hj. apply finb_ok. rewrite forallb_forall in H. assert (K : forallb (fun j => finb (at_m m i j)) (seq 0 (nc m)) = true) by (apply H, in_seq; lia). rewrite forallb_forall in K. apply K, in_seq. lia. Qed.
Ltac dec := vm_compute; reflexivity.

(** Nodes 0, 0.1, 0.7, 1 and a 2 x 4 matrix of decimals: the column at 0.7 *)
Definition ns : list f64 := [n0; fq 1 10; fq 7 10; n1].
Definition um : mat f64 := Mat 2 4 (fun i j => fq (Z.of_nat (17 * i + 3 * j) - 20) 7).
Example ex_bary : DistinctF ns /\ FiniteM um /\
  exists Y, bary_interpolator (PVec ns) um (PVec [fq 7 10; n1]) = Ok Y /\ IsCol Y 0 um 2 /\ IsCol Y 1 um 3.
Proof.
  assert (D : DistinctF ns) by (apply Asc_fin, asc_ok; dec). assert (F : FiniteM um) by (apply finm_ok; dec). split; [exact D|]. split; [exact F|].
  destruct (bary_nodes ns um [fq 7 10; n1] [2; 3] D F eq_refl ltac:(discriminate)) as (Y & E & _ & _ & H).
  { constructor; [|constructor; [|constructor]]; (split; [apply finb_ok; dec|]; split; [simpl; lia|reflexivity]). }
  exists Y. split; [exact E|]. split; apply H; reflexivity.
Qed.

(** Grid 0.1, 0.3, 0.7: 0.3 is local time 1 of interval 0 and local time 0 of interval 1. *)
Definition tg : list f64 := [fq 1 10; fq 3 10; fq 7 10].
Example ex_local : AscF tg /\ StepsF tg /\ SFeqb (local_time tg 0 (fq 3 10)) (f64_of_Z 1) = true /\ SFeqb (local_time tg 1 (fq 3 10)) (S754_zero false) = true /\
  SFltb (local_time tg 1 (fq 4 10)) (local_time tg 1 (fq 6 10)) = true.
Proof. split; [apply asc_ok; dec|]. split; [apply steps_ok; dec|]. repeat split; dec. Qed.
(** The same numbers with a local time computed from reciprocals would miss the bound:
    (0.3 - 0.1) * (1 / (0.3 - 0.1)) is 1, but 0.4 * (1 / 0.4) etc. need not be; here 49 *
    (1 / 49) is below 1. *)
Example ex_reciprocal : SFltb (SFmul 53 1024 (f64_of_Z 49) (SFdiv 53 1024 (f64_of_Z 1) (f64_of_Z 49))) (f64_of_Z 1) = true.
Proof. dec. Qed.

(** A collocation grid of 2 intervals and 2 points per interval *)
Definition cp3 (order : nat) (s : string) : res (list f64) := Ok [n0; fq 3 10; n1].
Example ex_pdq : exists p, pdq_ cp3 tg 2 "x" = Ok p /\ AscF (pq_pts p) /\ length (pq_pts p) = 5 /\
  (let m := Mat 2 5 (fun i j => fq (Z.of_nat (13 * i + j) - 9) 11) in exists q Y, pq_interpolator p "both" = Ok q /\ pi_call q m (PVec (pq_pts p)) = Ok Y /\ IsCol Y 3 m 3 /\ IsCol Y 4 m 4).
Proof.
  assert (E : match pdq_ cp3 tg 2 "x" with Ok p => forallb finb (pq_pts p) && ascb (pq_pts p) | Err _ => false end = true) by dec.
  destruct (pdq_ cp3 tg 2 "x") as [p|] eqn:Ep; [|discriminate]. apply andb_prop in E. destruct E as [E1 E2]. assert (HP : AscF (pq_pts p)) by (now apply asc_ok).
  assert (HA : AscF tg) by (apply asc_ok; dec). assert (HS : StepsF tg) by (apply steps_ok; dec).
  exists p. split; [reflexivity|]. split; [exact HP|]. destruct (pdq_parts _ _ _ _ [n0; fq 3 10; n1] _ Ep eq_refl) as (_ & _ & _ & _ & HN & _). split; [exact HN|]. intros m.
  assert (H0 : Is (fnode [n0; fq 3 10; n1] 0) 0) by (change (fnode [n0; fq 3 10; n1] 0) with (S754_zero false : f64); apply zero_fin).
  assert (HW : Width tg 2 "both" 3 5) by (left; repeat split).
  destruct (interp64_data cp3 tg 2 "x" [n0; fq 3 10; n1] p Ep eq_refl H0 ltac:(lia) HA HS HP "both" 3 5 HW) as (q & Eq & H).
  assert (M5 : nc m = 5) by reflexivity. destruct (H m M5) as (Y & EY & _ & _ & HY); [apply finm_ok; dec|]. exists q, Y. split; [exact Eq|]. split; [rewrite <- EY; f_equal; f_equal; rewrite firstn_all2; [reflexivity|rewrite HN; simpl; lia]|]. split; apply HY; lia.
Qed.

(** xdot = x, one interval, radau points of order 1 *)
Definition ode1 : daefun f64 := DaeFun 1 0 0 0 0 1 0 (fun _ => true) (fun a i => (a_xdot a i - a_x a i)%num) (fun _ _ => n0).
Definition radau1 (order : nat) (s : string) : res (list f64) := Ok [n1].
Definition sch1 (t : list f64) : res (scheme f64) :=
  scheme_ radau1 ode1 t 1 "radau" None false (mzeros 1 2) (mzeros 1 1) (mzeros 0 1) (mzeros 0 1) (mzeros 0 1).
(** The collocation time of c = 1 can lie after the end of its interval: t = [-3, -0.9]. *)
Theorem tc64_end_refuted : exists t s, AscF t /\ StepsF t /\ sch1 t = Ok s /\ Is (fnode (tb_c (sc_butcher s)) 0) 1 /\
  (val (fnode t 1) < val (fnode (sc_tc s) 0))%R.
Proof.
  pose (t := [f64_of_Z (-3); fq (-9) 10]). exists t.
  assert (E : match sch1 t with Ok s => finb (fnode (sc_tc s) 0) && SFltb (fnode t 1) (fnode (sc_tc s) 0) && finb (fnode (tb_c (sc_butcher s)) 0) && SFeqb (fnode (tb_c (sc_butcher s)) 0) (f64_of_Z 1) | Err _ => false end = true) by dec.
  destruct (sch1 t) as [s|]; [|discriminate]. apply andb_prop in E; destruct E as [E E4]. apply andb_prop in E; destruct E as [E E3]. apply andb_prop in E; destruct E as [E1 E2]. exists s. split; [apply asc_ok; dec|]. split; [apply steps_ok; dec|]. split; [reflexivity|]. split.
  - split; [exact (finb_ok _ E3)|]. rewrite <- (proj2 one_fin). apply eq_ok; [exact E3|dec|exact E4].
  - apply lt_ok; [dec|exact E1|exact E2].
Qed.
(** On [0.1, 0.3] it is the end. *)
Example ex_tc : exists s, sch1 [fq 1 10; fq 3 10] = Ok s /\ AscF [fq 1 10; fq 3 10] /\ StepsF [fq 1 10; fq 3 10] /\ FiniteAll (tb_c (sc_butcher s)) /\
  Finite (SFadd 53 1024 (fq 1 10) (SFsub 53 1024 (fq 3 10) (fq 1 10))) /\ (val (fq 1 10) < val (fnode (sc_tc s) 0))%R /\ val (fnode (sc_tc s) 0) = val (fq 3 10).
Proof.
  assert (E : match sch1 [fq 1 10; fq 3 10] with Ok s => forallb finb (tb_c (sc_butcher s)) && finb (fnode (sc_tc s) 0) && SFltb (fq 1 10) (fnode (sc_tc s) 0) && SFeqb (fnode (sc_tc s) 0) (fq 3 10) | Err _ => false end = true) by dec.
  destruct (sch1 [fq 1 10; fq 3 10]) as [s|]; [|discriminate]. apply andb_prop in E; destruct E as [E E4]. apply andb_prop in E; destruct E as [E E3]. apply andb_prop in E; destruct E as [E1 E2]. exists s. split; [reflexivity|]. split; [apply asc_ok; dec|]. split; [apply steps_ok; dec|]. split; [exact (finall_ok _ E1)|]. split; [apply finb_ok; dec|]. split; [apply lt_ok; [dec|exact E2|exact E3]|apply eq_ok; [exact E2|dec|exact E4]].
Qed.
(** The polynomial of x = [0.1, 0.2], K = [0.7] on it *)
Definition xx : mat f64 := Mat 1 2 (fun _ j => fq (Z.of_nat j + 1) 10).
Definition kk : mat f64 := Mat 1 1 (fun _ _ => fq 7 10).
Example ex_poly : exists s X pp Y, sch1 [fq 1 10; fq 3 10] = Ok s /\ eval_X s xx kk = Ok X /\ piecewise_X s xx kk = Ok pp /\
  pp_call pp (PNum (fq 1 10)) "right" = Ok Y /\ IsCol Y 0 xx 0.
Proof.
  set (t := [fq 1 10; fq 3 10]).
  assert (E : match sch1 t with Ok s => match eval_X s xx kk, piecewise_X s xx kk with Ok X, Ok pp => finmb X && (nc X =? 1) && forallb finb (n0 :: tb_c (sc_butcher s)) && ascb (n0 :: tb_c (sc_butcher s)) | _, _ => false end | Err _ => false end = true) by dec.
  destruct (sch1 t) as [s|] eqn:Es; [|discriminate]. destruct (eval_X s xx kk) as [X|] eqn:EX; [|discriminate]. destruct (piecewise_X s xx kk) as [pp|] eqn:Epp; [|discriminate].
  apply andb_prop in E. destruct E as [E E4]. apply andb_prop in E. destruct E as [E E3]. apply andb_prop in E. destruct E as [E1 E2]. apply Nat.eqb_eq in E2.
  destruct (scheme64_poly radau1 ode1 t 1 "radau" None false _ _ _ _ _ s Es xx kk X pp EX Epp eq_refl E2) as [H _];
    [apply asc_ok; dec|apply steps_ok; dec|apply Asc_fin, asc_ok; assumption|apply finm_ok; dec|now apply finm_ok|].
  destruct (H 0 ltac:(simpl; lia)) as (Y & EY & _ & _ & HY). exists s, X, pp, Y. repeat split; auto; apply HY; auto.
Qed.
