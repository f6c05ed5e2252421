(** Examples of blocks of symmetric entries (C87). *)
From Coq Require Import String ZArith.
From Verif Require Import PyBase IndexModel DMModel StructModel StructSpec PowerModel PowerSpec
  IndexProofs StructProofs LayoutProofs LayoutThms LayoutExamples DMProofs PowerProofs PowerThms PowerThms4 PowerThms5 PowerExamples SymmBlockThms.
Open Scope string_scope.
Open Scope list_scope.
Open Scope Z_scope.

Definition eQ : entry := mkEntry "Q" [] None (sp_upper 3) true (Some (sp_dense 3 3)) None.
Definition exQ : structure := mkStruct [mk "x" [] (sp_dense 1 1); eQ] [OName "x"; OName "Q"].
Definition exQ_c : cstruct := Eval vm_compute in built exQ.
Lemma exQ_Wf : Wf exQ.
Proof.
  constructor.
  - repeat constructor; simpl; intuition discriminate.
  - reflexivity.
  - intros e [<-|[<-|[]]]; simpl; [apply SpOk_dense|apply SpOk_upper].
  - intros e s' [<-|[<-|[]]] E; discriminate.
Qed.
Lemma exQ_Obj : Obj exQ exQ_c (numbered 7).
Proof. split; [exact exQ_Wf|vm_compute; reflexivity|reflexivity]. Qed.
Lemma eQ_At : At exQ [KS "Q"] eQ.
Proof. apply (At_here exQ eQ []); [right; left; reflexivity|constructor]. Qed.
Lemma eQ_Symm : SymmEntry eQ 3 (sp_dense 3 3).
Proof. constructor; try reflexivity. apply SpOk_dense. Qed.

(** [s['Q']] is [[101,102,104],[102,103,105],[104,105,106]]. *)
Definition sl (a b : option Z) : slc := Slc a b None.
Notation rows12 := (PSlc (sl (Some 1) None)).
Notation rows01 := (PSlc (sl None (Some 2))).

Lemma bp22 A B : length A = 2%nat -> length B = 2%nat -> (forall r, In r A -> (r < 3)%nat) -> (forall r, In r B -> (r < 3)%nat) ->
  BlockPattern (sp_dense 2 2) (sp_dense 3 3) A B.
Proof.
  intros HA HB KA KB. split; [now rewrite HA|]. split; [now rewrite HB|]. intros x y. simpl sp_pat. rewrite in_all_pos. simpl fst. simpl snd. split.
  - intros [Hx Hy]. destruct (nth_error A x) as [r|] eqn:EA; [|apply nth_error_None in EA; lia].
    destruct (nth_error B y) as [c|] eqn:EB; [|apply nth_error_None in EB; lia]. exists r, c. split; [reflexivity|]. split; [reflexivity|].
    change (In (r, c) (all_pos 3 3)). apply in_all_pos. simpl. split; [apply KA|apply KB]; eapply nth_error_In; eauto.
  - intros (r & c & H1 & H2 & _). rewrite <- HA at 1. rewrite <- HB. split; apply nth_error_Some; congruence.
Qed.

(** The hypotheses of the block theorems: rows 1, 2 and columns 0, 1. *)
Example C87_block_hyps : Obj exQ exQ_c (numbered 7) /\ At exQ [KS "Q"] eQ /\ SymmEntry eQ 3 (sp_dense 3 3) /\
  @sel_of Z rows12 = Some (SelSlice (sl (Some 1) None)) /\ sel_resolve (SelSlice (sl (Some 1) None)) 3 = Ok [1; 2]%nat /\
  @sel_of Z rows01 = Some (SelSlice (sl None (Some 2))) /\ sel_resolve (SelSlice (sl None (Some 2))) 3 = Ok [0; 1]%nat /\
  NoDup [1; 2]%nat /\ NoDup [0; 1]%nat /\ BlockPattern (sp_dense 2 2) (sp_dense 3 3) [1; 2]%nat [0; 1]%nat.
Proof.
  split; [exact exQ_Obj|]. split; [exact eQ_At|]. split; [exact eQ_Symm|].
  repeat (split; [vm_compute; reflexivity|]). split; [repeat constructor; simpl; intuition lia|]. split; [repeat constructor; simpl; intuition lia|].
  apply bp22; try reflexivity; simpl; intuition lia.
Qed.

(** Below the diagonal the transposed block is stored. *)
Example C87_block_example : exists st' r,
  set exQ exQ_c (pidx [KS "Q"] ++ [rows12; rows01]) (PayMat (DM (sp_dense 2 2) [1; 2; 3; 4])) (numbered 7) = (st', Ok r) /\
  get exQ exQ_c (pidx [KS "Q"]) (numbered 7) = Ok (RMat (DM (sp_dense 3 3) [101; 102; 104; 102; 103; 105; 104; 105; 106])) /\
  get exQ exQ_c (pidx [KS "Q"]) st' = Ok (RMat (DM (sp_dense 3 3) [101; 1; 2; 1; 3; 4; 2; 4; 106])).
Proof. eexists _, _. repeat (split; [vm_compute; reflexivity|]). vm_compute; reflexivity. Qed.
(** Where the block meets its own mirror image, its upper part wins. *)
Example C87_block_upper_wins : exists st' r,
  set exQ exQ_c (pidx [KS "Q"] ++ [rows01; rows01]) (PayMat (DM (sp_dense 2 2) [1; 2; 3; 4])) (numbered 7) = (st', Ok r) /\
  get exQ exQ_c (pidx [KS "Q"]) st' = Ok (RMat (DM (sp_dense 3 3) [1; 3; 104; 3; 4; 105; 104; 105; 106])).
Proof. eexists _, _. repeat (split; [vm_compute; reflexivity|]). vm_compute; reflexivity. Qed.
Example C87_block_fill_example : exists st' r,
  set exQ exQ_c (pidx [KS "Q"] ++ [rows12; PInt 0]) (PayNum 9) (numbered 7) = (st', Ok r) /\
  get exQ exQ_c (pidx [KS "Q"]) st' = Ok (RMat (DM (sp_dense 3 3) [101; 9; 9; 9; 103; 105; 9; 105; 106])).
Proof. eexists _, _. repeat (split; [vm_compute; reflexivity|]). vm_compute; reflexivity. Qed.
Example C87_block_mismatch_example :
  set exQ exQ_c (pidx [KS "Q"] ++ [rows12; rows01]) (PayMat (DM (sp_dense 2 1) [1; 2])) (numbered 7) = (numbered 7, Err EException).
Proof. vm_compute. reflexivity. Qed.
Example C87_block_read_example :
  get exQ exQ_c (pidx [KS "Q"] ++ [rows12; rows12]) (numbered 7) = Ok (RMat (DM (sp_dense 2 2) [103; 105; 105; 106])).
Proof. vm_compute. reflexivity. Qed.
Example C87_linear_example : exists st' r, sel_resolve (SelList [3; -1]) 9 = Ok [3; 8]%nat /\
  set exQ exQ_c (pidx [KS "Q"] ++ [PLst [KI 3; KI (-1)]]) (PayNum 9) (numbered 7) = (st', Ok r) /\
  get exQ exQ_c (pidx [KS "Q"]) st' = Ok (RMat (DM (sp_dense 3 3) [101; 9; 104; 9; 103; 105; 104; 105; 9])) /\
  get exQ exQ_c (pidx [KS "Q"] ++ [PInt 3]) (numbered 7) = Ok (RMat (DM (sp_dense 1 1) [102])).
Proof. eexists _, _. repeat (split; [vm_compute; reflexivity|]). vm_compute; reflexivity. Qed.

(** A block off the diagonal cannot be read. *)
Lemma symm_block_read_refuted : exists s c (st : pstate Z) ci e n orig R a b sa sb A B,
  Obj s c st /\ At s ci e /\ SymmEntry e n orig /\ sel_of a = Some sa /\ sel_of b = Some sb /\
  sel_resolve sa n = Ok A /\ sel_resolve sb n = Ok B /\ length A = length B /\
  get s c (pidx ci) st = Ok (RMat R) /\ get s c (pidx ci ++ [a; b]) st = Err EException.
Proof.
  exists exQ, exQ_c, (numbered 7), [KS "Q"], eQ, 3%nat, (sp_dense 3 3). eexists. exists rows01, rows12. eexists _, _, _, _.
  split; [exact exQ_Obj|]. split; [exact eQ_At|]. split; [exact eQ_Symm|].
  split; [reflexivity|]. split; [reflexivity|]. split; [vm_compute; reflexivity|]. split; [vm_compute; reflexivity|]. split; [reflexivity|].
  split; vm_compute; reflexivity.
Qed.

(** [s[ci, 1] = x] on a symmetric matrix is accepted and writes nothing: element 1 lies below
    the diagonal. *)
Lemma symm_linear_ignored_refuted : exists s c (st : pstate Z) ci e n orig R k x r,
  Obj s c st /\ At s ci e /\ SymmEntry e n orig /\
  get s c (pidx ci) st = Ok (RMat R) /\ norm_index (n * n) (Z.of_nat k) = Ok k /\
  dm_at R (k mod n, k / n)%nat <> None /\ dm_val 0 R (k mod n, k / n)%nat <> x /\
  set s c (pidx ci ++ [PInt (Z.of_nat k)]) (PayNum x) st = (st, Ok r).
Proof.
  exists exQ, exQ_c, (numbered 7), [KS "Q"], eQ, 3%nat, (sp_dense 3 3). eexists. exists 1%nat, 9, RNone.
  split; [exact exQ_Obj|]. split; [exact eQ_At|]. split; [exact eQ_Symm|].
  split; [vm_compute; reflexivity|]. split; [reflexivity|]. split; [vm_compute; discriminate|]. split; [vm_compute; discriminate|].
  vm_compute. reflexivity.
Qed.

(** Several elements cannot be assigned by number. *)
Example C87_linear_refused_example :
  set exQ exQ_c (pidx [KS "Q"] ++ [PLst [KI 0; KI 3]]) (PayMat (col [1; 2])) (numbered 7) = (numbered 7, Err EException) /\
  get exQ exQ_c (pidx [KS "Q"] ++ [PLst [KI 0; KI 3]]) (numbered 7) = Err EException.
Proof. split; vm_compute; reflexivity. Qed.
