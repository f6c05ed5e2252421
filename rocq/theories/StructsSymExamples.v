(** Construction from a dict with symmetric entries (C20). *)
From Verif Require Import PyBase IndexModel DMModel StructModel StructSpec PowerModel PowerSpec
  IndexProofs StructProofs LayoutProofs LayoutThms LayoutExamples DMProofs PowerProofs PowerThms SliceProofs PowerThms2 PowerThms3 PowerThms4
  PowerThms5 PowerExamples EntryModel EntrySpec EntryProofs StructsModel StructsSpec StructsThms1 StructsThms2 StructsThms3 StructsSymThms.
Open Scope Z_scope.

Definition exP_kv : list (string * pay Z) :=
  [("P"%string, PayMat (DM (sp_dense 2 2) [1; 2; 2; 3])); ("x"%string, PayNum 9)].
Example C20_symm_hyps : Wf exP /\ casadi_structure exP = Ok exP_c /\ (forall e, In e (s_entries exP) -> SymmOk e) /\
  NoDup (map fst exP_kv) /\ (forall k v, In (k, v) exP_kv -> PayOk v).
Proof.
  split; [exact exP_Wf|]. split; [vm_compute; reflexivity|].
  split. { intros e [<-|[<-|[]]]; intros Es; [discriminate|]. exists 2%nat, (sp_dense 2 2). exact eP_Symm. }
  split; [repeat constructor; simpl; intuition discriminate|].
  intros k v [[= <- <-]|[[= <- <-]|[]]]; simpl; auto. split; [apply SpOk_dense|reflexivity].
Qed.
Example C20_symm_example : exists o, call_struct 0 (-1) exP_c (CDict exP_kv) = Ok o /\
  so_get 0 o (pidx (top "P" [])) = Ok (RMat (DM (sp_dense 2 2) [1; 2; 2; 3])) /\
  so_get 0 o (pidx (top "x" [])) = Ok (RMat (col [9; 9])) /\ so_cat o = [9; 9; 1; 2; 3].
Proof. eexists. split; [vm_compute; reflexivity|]. vm_compute. repeat split; reflexivity. Qed.

(** A value that is not symmetric: its lower triangle is lost. *)
Theorem dict_symm_refuted : exists s c (o : sobj Z) v w,
  Wf s /\ casadi_structure s = Ok c /\ call_struct 0 (-1) c (CDict [("P"%string, PayMat v); ("x"%string, PayNum 9)]) = Ok o /\
  so_get 0 o [PStr "P"] = Ok (RMat w) /\ dm_sp v = dm_sp w /\ v <> w.
Proof.
  exists exP, exP_c. eexists _, (DM (sp_dense 2 2) [1; 2; 7; 3]), _. split; [exact exP_Wf|].
  split; [vm_compute; reflexivity|]. split; [vm_compute; reflexivity|]. split; [vm_compute; reflexivity|]. split; [reflexivity|]. discriminate.
Qed.

(** entry('P', struct=[x, y], type='symm'): accepted, filled, but not readable. *)
Definition exS_sub : structure := mkStruct [mk "x" [] (sp_dense 1 1); mk "y" [] (sp_dense 1 1)] [OName "x"; OName "y"].
Definition exS_kw : kwargs Z := [("struct"%string, VStructure exS_sub); ("type"%string, VStr "symm")].
Definition exS_e : entry := mkEntry "P" [] (Some exS_sub) (sp_dense 1 1) true (Some (sp_dense 1 1)) None.
Definition exS : structure := mkStruct [exS_e] [OName "P"].
Definition exS_c : cstruct := Eval vm_compute in built exS.
Lemma exS_Wf : Wf exS.
Proof.
  constructor.
  - repeat constructor; simpl; intuition discriminate.
  - reflexivity.
  - intros e [<-|[]]; solve_spok2.
  - intros e s' [<-|[]] [= <-]. constructor.
    + repeat constructor; simpl; intuition discriminate.
    + reflexivity.
    + intros e [<-|[<-|[]]]; solve_spok2.
    + intros e s' [<-|[<-|[]]] E; discriminate.
Qed.
Theorem dict_symm_struct_refuted : exists (kw : kwargs Z) e c (o : sobj Z),
  entry_init "P" kw = Ok (CEntry e None None) /\ Wf (mkStruct [e] [OName "P"%string]) /\ casadi_structure (mkStruct [e] [OName "P"%string]) = Ok c /\
  call_struct 0 (-1) c (CDict [("P"%string, PayNum 3)]) = Ok o /\ so_cat o = [3; 3] /\ so_get 0 o [PStr "P"] = Err EException.
Proof.
  exists exS_kw, exS_e, exS_c. eexists. split; [vm_compute; reflexivity|]. split; [exact exS_Wf|].
  split; [vm_compute; reflexivity|]. split; [vm_compute; reflexivity|]. split; vm_compute; reflexivity.
Qed.
Example C20_struct_hyps : exists n, At exS [KS "P"] exS_e /\ e_symm exS_e = true /\ e_struct exS_e = Some exS_sub /\ SizeOf exS_sub n /\ n <> 1%nat.
Proof.
  exists 2%nat. split; [apply (At_here exS exS_e []); [left; reflexivity|constructor]|]. split; [reflexivity|]. split; [reflexivity|].
  split; [eexists; split; [vm_compute; reflexivity|reflexivity]|discriminate].
Qed.
Example C20_entry_symm_hyps : exists ce : centry Z, entry_init "P" [("shape"%string, VTuple [VInt 2; VInt 2]); ("type"%string, VStr "symm")] = Ok ce /\
  e_struct (ce_entry ce) = None /\ e_symm (ce_entry ce) = true.
Proof. eexists. split; [vm_compute; reflexivity|]. split; reflexivity. Qed.
