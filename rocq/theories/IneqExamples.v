(** Examples and refutations for inequalities (C36-C39): numbers are integers, a point
    gives a value to every element of every symbol. *)
From Verif Require Import PyBase IndexModel DMModel StructModel StructSpec PowerModel
  DMProofs EntryModel EntrySpec StructsModel IneqModel IneqSpec IneqThms.
Open Scope nat_scope.

Definition pt := string -> nat * nat -> Z.
Definition sym0 (n : string) (p : nat * nat) (x : pt) : xnum Z := Fin (x n p).
Definition XS (n : string) (k : nat) : ex Z pt := ExMat (mx_sym sym0 n (k, 1)).
Definition vec (l : list Z) : barg Z := AVec (map Fin l).
Definition dmv (l : list Z) : dm (xnum Z) := dm_col (map Fin l).

Ltac dmok := split; [split; [repeat constructor; simpl; lia|repeat constructor; simpl; lia]|reflexivity].

(** test_inequality.py: test_ctor, test_ctorInconsistentShape, test_ctorDefaultBounds,
    test_ctorDefaultLowerBound, test_ctorDefaultUpperBound, test_numel, test_empty *)
Example ctor : exists i, inequality_ (XS "x" 2) (vec [-1; -2]%Z) (vec [3; 4]%Z) ANone = Ok i /\
  bd_mat (iq_lb i) = dmv [-1; -2]%Z /\ bd_mat (iq_ub i) = dmv [3; 4]%Z.
Proof. eexists. vm_compute. auto. Qed.
Example ctor_inconsistent : inequality_ (XS "x" 2) (vec [-1; -2; -3]%Z) (vec [3; 4]%Z) ANone = Err EAssert.
Proof. reflexivity. Qed.
Example ctor_default : exists i, inequality_ (XS "x" 3) ANone ANone ANone = Ok i /\
  bd_mat (iq_lb i) = dm_col [NInf; NInf; NInf] /\ bd_mat (iq_ub i) = dm_col [PInf; PInf; PInf] /\ iq_numel i = 3.
Proof. eexists. vm_compute. auto. Qed.
Example ctor_default_lower : exists i, inequality_ (XS "x" 3) ANone (ADM (dmv [1; 2; 3]%Z)) ANone = Ok i /\
  bd_mat (iq_lb i) = dm_col [NInf; NInf; NInf] /\ bd_mat (iq_ub i) = dmv [1; 2; 3]%Z.
Proof. eexists. vm_compute. auto. Qed.
Example ctor_empty : exists i, inequality_ (XS "" 0) ANone ANone ANone = Ok i /\ iq_numel i = 0.
Proof. eexists. vm_compute. auto. Qed.
(** BoundedVariableTest *)
Example bounded_ctor : exists i, bounded_variable sym0 "x" (vec [-1; -2]%Z) (vec [3; 4]%Z) (ADM (dmv [1; 2]%Z)) = Ok i /\
  bd_mat (iq_lb i) = dmv [-1; -2]%Z /\ bd_mat (iq_ub i) = dmv [3; 4]%Z /\ option_map bd_mat (iq_nom i) = Some (dmv [1; 2]%Z).
Proof. eexists. vm_compute. auto. Qed.

(** Two inequalities as in test_vertcat_list and test_vertcat_dict. *)
Definition I1 : ineq Z pt := Ineq (XS "x" 3) (BdMat (dmv [0; 1; 2]%Z)) (BdMat (dmv [5; 6; 7]%Z)) (Some (BdMat (dmv [1; 1; 1]%Z))).
Definition I2 : ineq Z pt := Ineq (XS "y" 2) (BdMat (dmv [-1; -2]%Z)) (BdMat (dmv [8; 9]%Z)) (Some (BdMat (dmv [2; 3]%Z))).
Definition I3 : ineq Z pt := Ineq (XS "y" 1) (BdMat (dmv [-1]%Z)) (BdMat (dm_col [PInf])) None.
Lemma I1_made : Made I1.
Proof.
  exists (XS "x" 3), (vec [0; 1; 2]%Z), (vec [5; 6; 7]%Z), (vec [1; 1; 1]%Z). split; [apply dense_ok; reflexivity|]. repeat (split; [exact I|]). reflexivity.
Qed.
Lemma I2_made : Made I2.
Proof.
  exists (XS "y" 2), (vec [-1; -2]%Z), (vec [8; 9]%Z), (vec [2; 3]%Z). split; [apply dense_ok; reflexivity|]. repeat (split; [exact I|]). reflexivity.
Qed.
Lemma I3_made : Made I3.
Proof.
  exists (XS "y" 1), (vec [-1]%Z), ANone, ANone. split; [apply dense_ok; reflexivity|]. repeat (split; [exact I|]). reflexivity.
Qed.
Example joinable_ex : Joinable [I1; I2] 1.
Proof. intros i [<-|[<-|[]]]; (split; [first [exact I1_made|exact I2_made]|split; [reflexivity|discriminate]]). Qed.
Example vertcat_list_ex : exists r, vertcat_list I1 [I2] = Ok r /\ iq_numel r = 5 /\
  bd_mat (iq_lb r) = dmv [0; 1; 2; -1; -2]%Z /\ bd_mat (iq_ub r) = dmv [5; 6; 7; 8; 9]%Z /\
  option_map bd_mat (iq_nom r) = Some (dmv [1; 1; 1; 2; 3]%Z).
Proof. eexists. vm_compute. auto. Qed.
Example vertcat_dict_ex : exists r o ol, vertcat_dict 0%Z [("i1"%string, I1); ("i2"%string, I2)] = Ok r /\ iq_numel r = 5 /\
  iq_expr r = ExStr o /\ iq_lb r = BdStr ol /\
  so_cat ol = map Fin [0; 1; 2; -1; -2]%Z /\ so_get (Fin 0%Z) ol [PStr "i2"%string] = Ok (RMat (dmv [-1; -2]%Z)).
Proof.
  destruct (vertcat_dict 0%Z [("i1"%string, I1); ("i2"%string, I2)]) as [r|] eqn:E; [|vm_compute in E; discriminate]. vm_compute in E. injection E as <-.
  do 3 eexists. split; [reflexivity|]. split; [reflexivity|]. split; [reflexivity|]. split; [reflexivity|]. split; vm_compute; reflexivity.
Qed.
(** The conjunction is neither always true nor always false. *)
Definition x_good : pt := fun n p => if String.eqb n "x" then Z.of_nat (3 + fst p) else 0%Z.
Definition x_bad : pt := fun n p => if String.eqb n "x" then Z.of_nat (3 + fst p) else 20%Z.
Example sat_ex : Sat Z.le 0%Z I1 x_good /\ Sat Z.le 0%Z I2 x_good /\ Sat Z.le 0%Z I1 x_bad /\ ~ Sat Z.le 0%Z I2 x_bad.
Proof.
  assert (H1 : forall x, (forall p, x "x"%string p = Z.of_nat (3 + fst p)) -> Sat Z.le 0%Z I1 x).
  { intros x Hx. eexists. split; [reflexivity|]. intros r c Hr Hc. simpl in Hr, Hc. unfold dm_nr, dm_nc in Hr, Hc. simpl in Hr, Hc. assert (c = 0) by lia. subst c.
    destruct r as [|[|[|r]]]; [..|lia]; vm_compute elem; cbv [xle sym0]; rewrite Hx; simpl; lia. }
  split; [apply H1; reflexivity|]. split; [|split; [apply H1; reflexivity|]].
  - eexists. split; [reflexivity|]. intros r c Hr Hc. unfold dm_nr, dm_nc in Hr, Hc. simpl in Hr, Hc. assert (c = 0) by lia. subst c.
    destruct r as [|[|r]]; [..|lia]; vm_compute; split; discriminate.
  - intros (m & [= <-] & H). destruct (H 0 0) as [_ K]; [vm_compute; lia..|]. vm_compute in K. now apply K.
Qed.

(** C38: a constraint on a structural zero of an expression is lost in the dict form.
    Here [expr] is [x; 0] with an empty second row and the second row demands 1 <= 0. *)
Definition Isp : ineq Z pt := Ineq (ExMat (DM (Spy 2 1 [(0, 0)]) [sym0 "x"%string (0, 0)])) (BdMat (dmv [0; 1]%Z)) (BdMat (dmv [5; 5]%Z)) (Some (BdMat (dmv [1; 1]%Z))).
Lemma Isp_made : Made Isp.
Proof.
  exists (ExMat (DM (Spy 2 1 [(0, 0)]) [sym0 "x"%string (0, 0)])), (vec [0; 1]%Z), (vec [5; 5]%Z), (vec [1; 1]%Z). split; [dmok|]. repeat (split; [exact I|]). reflexivity.
Qed.
Theorem vertcat_dict_sparse_refuted :
  exists (d : list (string * ineq Z pt)) r x,
    NoDup (map fst d) /\ (forall k i, In (k, i) d -> Made i /\ iq_nom i <> None) /\
    vertcat_dict 0%Z d = Ok r /\ Sat Z.le 0%Z r x /\ exists k i, In (k, i) d /\ ~ Sat Z.le 0%Z i x.
Proof.
  exists [("a"%string, Isp)]. eexists. exists (fun _ _ => 3%Z). split; [repeat constructor; simpl; tauto|]. split.
  { intros k i [[= <- <-]|[]]. split; [exact Isp_made|discriminate]. }
  split; [vm_compute; reflexivity|]. split.
  - eexists. split; [vm_compute; reflexivity|]. intros r c Hr Hc. unfold dm_nr, dm_nc in Hr, Hc. simpl in Hr, Hc. assert (c = 0) by lia. assert (r = 0) by lia. subst.
    vm_compute. split; discriminate.
  - exists "a"%string, Isp. split; [now left|]. intros (m & [= <-] & H). destruct (H 1 0) as [K _]; [vm_compute; lia..|]. vm_compute in K. now apply K.
Qed.

(** C39: inequalities without nominal values are validly constructed but cannot be
    concatenated. *)
Theorem vertcat_no_nominal_refuted :
  exists i : ineq Z pt, Made i /\ vertcat_list i [] = Err ENotImpl /\ vertcat_dict 0%Z [("a"%string, i)] = Err EException.
Proof. exists I3. split; [exact I3_made|]. split; vm_compute; reflexivity. Qed.
