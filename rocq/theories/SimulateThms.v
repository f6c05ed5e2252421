(** [CollocationSimulator.simulate]. *)
From Coq Require Import Reals.
From Verif Require Import PyBase IndexModel DMModel StructModel PowerModel EntryModel StructsModel IneqModel DaeModel NumModel NumInst PolynomialModel PiecewiseModel PdqModel SchemeModel SimulateModel.
Open Scope list_scope.
Open Scope nat_scope.

(** The specification: at which points a function is called when it is called along a list
    until it raises. *)
Inductive Calls {A B} (f : A -> res B) : list A -> list A -> res (list B) -> Prop :=
| Calls_end : Calls f [] [] (Ok [])
| Calls_stop x l k : f x = Err k -> Calls f (x :: l) [x] (Err k)
| Calls_go x l y log ys : f x = Ok y -> Calls f l log (Ok ys) -> Calls f (x :: l) (x :: log) (Ok (y :: ys))
| Calls_fail x l y log k : f x = Ok y -> Calls f l log (Err k) -> Calls f (x :: l) (x :: log) (Err k).

Lemma call_inputs_spec {T} (input : T -> res (mat T)) ts : Calls input ts (fst (call_inputs input ts)) (snd (call_inputs input ts)).
Proof.
  induction ts as [|t ts IH]; cbn [call_inputs fst snd]; [constructor|].
  destruct (input t) as [c|k] eqn:E; [|constructor; exact E].
  destruct (call_inputs input ts) as [log [l|k]]; cbn [fst snd rbind] in *; econstructor; eassumption.
Qed.

Lemma Calls_ok {A B} (f : A -> res B) l log ys : Calls f l log (Ok ys) -> log = l /\ Forall2 (fun x y => f x = Ok y) l ys.
Proof.
  intros H. remember (Ok ys) as r eqn:E. revert ys E. induction H; intros zs E; [injection E as <-; split; [reflexivity|constructor]|discriminate E| |discriminate E].
  injection E as <-. destruct (IHCalls ys eq_refl) as [-> F]. split; [reflexivity|constructor; assumption].
Qed.

Lemma Calls_all {A B} (f : A -> res B) l ys : Forall2 (fun x y => f x = Ok y) l ys -> Calls f l l (Ok ys).
Proof. induction 1; [constructor|eapply Calls_go; eassumption]. Qed.

Lemma Calls_fun {A B} (f : A -> res B) l : forall log r log' r', Calls f l log r -> Calls f l log' r' -> log = log' /\ r = r'.
Proof.
  induction l as [|x l IH]; intros log r log' r' H H'; inversion H; inversion H'; subst; try congruence; try (split; congruence).
  - match goal with A : Calls f l ?a _, B : Calls f l ?b _ |- _ => destruct (IH _ _ _ _ A B) as [-> E]; inversion E; subst end. split; [reflexivity|congruence].
  - match goal with A : Calls f l ?a _, B : Calls f l ?b _ |- _ => destruct (IH _ _ _ _ A B) as [_ E]; discriminate E end.
  - match goal with A : Calls f l ?a _, B : Calls f l ?b _ |- _ => destruct (IH _ _ _ _ A B) as [_ E]; discriminate E end.
  - match goal with A : Calls f l ?a _, B : Calls f l ?b _ |- _ => destruct (IH _ _ _ _ A B) as [-> E]; inversion E; subst end. split; reflexivity.
Qed.

Section S.
Context {O : Type} (rest : O -> res (traj R)) (s : simulator R O) (x0 : mat R) (input : R -> res (mat R)).

(** A missing parameter value is refused before anything is called. *)
Theorem simulate_needs_param : 0 < sm_np s -> simulate rest s x0 input None = ([], Err EValue).
Proof. intros H. unfold simulate. apply Nat.ltb_lt in H. rewrite H. reflexivity. Qed.

(** Otherwise the input is asked at the collocation points, in order, until it raises; an
    exception of the input is passed on. *)
Theorem simulate_asks param : (param = None -> sm_np s = 0) ->
  forall log r, Calls input (pq_pts (sm_pdq s)) log r ->
  fst (simulate rest s x0 input param) = log /\ forall k, r = Err k -> snd (simulate rest s x0 input param) = Err k.
Proof.
  intros Hp log r HC. pose proof (call_inputs_spec input (pq_pts (sm_pdq s))) as HS.
  destruct (Calls_fun _ _ _ _ _ _ HC HS) as [-> ->]. unfold simulate.
  replace (match param with None => true | Some _ => false end && (0 <? sm_np s)) with false by (destruct param; [reflexivity|rewrite (Hp eq_refl); reflexivity]).
  destruct (call_inputs input (pq_pts (sm_pdq s))) as [log r]; cbn [fst snd]. split; [reflexivity|]. intros k ->. reflexivity.
Qed.

(** When the input has a value at every point and the simulation itself succeeds, the call
    ends in a TypeError: the results are thrown away and SystemTrajectory is called without
    its arguments. *)
Theorem simulate_type_error param cols u o : (param = None -> sm_np s = 0) ->
  Forall2 (fun t c => input t = Ok c) (pq_pts (sm_pdq s)) cols -> hstack cols = Ok u ->
  sm_call s x0 (Mat (sm_nz s) 1 (fun _ _ => 0%R)) u param = Ok o ->
  simulate rest s x0 input param = (pq_pts (sm_pdq s), Err EType).
Proof.
  intros Hp HF Hu Ho. apply Calls_all in HF. destruct (simulate_asks param Hp _ _ HF) as [H1 _].
  pose proof (call_inputs_spec input (pq_pts (sm_pdq s))) as HS. destruct (Calls_fun _ _ _ _ _ _ HF HS) as [E1 E2].
  unfold simulate in *.
  replace (match param with None => true | Some _ => false end && (0 <? sm_np s)) with false in * by (destruct param; [reflexivity|rewrite (Hp eq_refl); reflexivity]).
  destruct (call_inputs input (pq_pts (sm_pdq s))) as [log r]; cbn [fst snd] in *. subst r log. f_equal.
  cbn [rbind]. rewrite Hu. cbn [rbind]. unfold mzeros. cbn [n0 numR]. change (@n0 R numR) with 0%R. rewrite Ho. reflexivity.
Qed.

(** No call returns a trajectory. *)
Theorem simulate_refuted param tr : snd (simulate rest s x0 input param) <> Ok tr.
Proof.
  unfold simulate. destruct (_ && _); [discriminate|]. destruct (call_inputs input (pq_pts (sm_pdq s))) as [log [cols|k]]; cbn [snd rbind]; [|discriminate].
  destruct (hstack cols) as [u|k]; cbn [rbind]; [|discriminate].
  destruct (sm_call s x0 (mzeros (sm_nz s) 1) u param) as [o|k]; cbn [rbind]; discriminate.
Qed.
End S.

(** The theorems are not vacuous: a simulator with two points, an input and a parameter. *)
Definition ex_pdq : pdq R := Pdq [] [0%R; 1%R] [] [0%R; 1%R] 1 (Mat 0 0 (fun _ _ => 0%R)).
Definition ex_sim : simulator R unit := @Simulator R unit ex_pdq 1 2 (fun x0 z0 u p => if (nc u =? 2) && (nr z0 =? 2) then Ok tt else Err EException).
Example simulate_ex : exists cols u, (Some (Mat 1 1 (fun _ _ => 5%R)) = None -> sm_np ex_sim = 0) /\ 0 < sm_np ex_sim /\
  Forall2 (fun t c => (fun t : R => Ok (Mat 1 1 (fun _ _ => t))) t = Ok c) (pq_pts (sm_pdq ex_sim)) cols /\ hstack cols = Ok u /\
  sm_call ex_sim (Mat 1 1 (fun _ _ => 0%R)) (Mat (sm_nz ex_sim) 1 (fun _ _ => 0%R)) u (Some (Mat 1 1 (fun _ _ => 5%R))) = Ok tt.
Proof.
  eexists. eexists. split; [discriminate|]. split; [cbn; lia|]. split; [repeat constructor|]. split; reflexivity.
Qed.
Example simulate_ex_stop : Calls (fun t : R => if Req_EM_T t 0%R then Err EKey else Ok (Mat 1 1 (fun _ _ => t))) (pq_pts (sm_pdq ex_sim)) [0%R] (Err EKey).
Proof. apply Calls_stop. destruct (Req_EM_T 0 0) as [_|N]; [reflexivity|contradiction N; reflexivity]. Qed.
