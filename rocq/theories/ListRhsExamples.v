(** Concrete instances for C89 and C90. *)
From Verif Require Import PyBase IndexModel DMModel StructModel StructSpec PowerModel PowerSpec
  IndexProofs StructProofs LayoutProofs LayoutThms LayoutExamples DMProofs PowerProofs PowerThms PowerExamples EntryModel EntrySpec StructsModel SymModel ListRhsThms.
Open Scope Z_scope.
Open Scope list_scope.

Definition eY : entry := mk "y" [] (sp_dense 2 2).
Definition mY : dm nat := DM (sp_dense 2 2) [3; 4; 5; 6]%nat.
Example rows_hyps : Obj ex3 ex3_c (numbered 7) /\ At ex3 [KS "y"] eY /\ e_symm eY = false /\ idx ex3 (pidx [KS "y"]) = Ok (RIdx mY) /\
  (forall r, In r [[1; 2]; [3; 4]] -> length r = dm_nc mY) /\ length [[1; 2]; [3; 4]] = dm_nr mY.
Proof.
  split; [exact ex3_Obj|]. split; [exact (At_here ex3 eY [] (or_intror (or_introl eq_refl)) (Forall2_nil _))|]. split; [reflexivity|]. split; [vm_compute; reflexivity|].
  split; [|reflexivity]. intros r [<-|[<-|[]]]; reflexivity.
Qed.
Example rows_example : exists st' r, set ex3 ex3_c [PStr "y"] (rows_of [[1; 2]; [3; 4]]) (numbered 7) = (st', Ok r) /\
  get ex3 ex3_c [PStr "y"] st' = Ok (RMat (DM (sp_dense 2 2) [1; 3; 2; 4])).
Proof. eexists. eexists. split; vm_compute; reflexivity. Qed.
Example rows_ragged : set ex3 ex3_c [PStr "y"] (rows_of [[1; 2]; [3]]) (numbered 7) = (numbered 7, Err EException). Proof. vm_compute. reflexivity. Qed.
Example nums_misfit : set ex3 ex3_c [PStr "y"] (nums [1; 2; 3; 4]) (numbered 7) = (numbered 7, Err EException). Proof. vm_compute. reflexivity. Qed.
Example nums_one : exists st' r, set ex3 ex3_c [PStr "y"] (nums [9]) (numbered 7) = (st', Ok r) /\ get ex3 ex3_c [PStr "y"] st' = Ok (RMat (DM (sp_dense 2 2) [9; 9; 9; 9])).
Proof. eexists. eexists. split; vm_compute; reflexivity. Qed.

Definition argX (kw : list (string * kval Z)) : list (item_arg Z) :=
  match entry_init "x" kw with Ok e => [IOne (AEntry e); IOne (AName "y")] | Err _ => [] end.
Example ctor_struct : exists r, struct_ (argX [("expr", VMat (col [1; 2]))]) None = Ok r. Proof. vm_compute. eexists. reflexivity. Qed.
Example ctor_refusals : struct_SX 0 (-1) (argX [("expr", VMat (col [1; 2]))]) = Err EException /\ struct_MX 0 (argX [("expr", VMat (col [1; 2]))]) None = Err EException /\
  struct_symMX [] (argX [("expr", VMat (col [1; 2]))]) None = Err EException /\ struct_ (argX [("shape", VInt 2)]) (Some [OName "x"; OName "z"]) = Err EException.
Proof. repeat (split; [vm_compute; reflexivity|]). vm_compute; reflexivity. Qed.
