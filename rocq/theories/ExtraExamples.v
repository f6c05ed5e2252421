(** Examples of blocks of ordinary entries (C28). *)
From Coq Require Import String ZArith.
From Verif Require Import PyBase IndexModel DMModel StructModel StructSpec PowerModel PowerSpec
  IndexProofs StructProofs LayoutProofs LayoutThms LayoutExamples DMProofs PowerProofs PowerThms PowerThms4 PowerThms5 PowerExamples ExtraThms.
Open Scope string_scope.
Open Scope list_scope.
Open Scope Z_scope.

Definition eW : entry := mk "W" [] (sp_dense 3 4).
Definition eR : entry := mk "r" [] (sp_dense 1 3).
Definition exW : structure := mkStruct [mk "x" [] (sp_dense 1 1); eW; eR] [OName "x"; OName "W"; OName "r"].
Definition exW_c : cstruct := Eval vm_compute in built exW.
Lemma exW_Wf : Wf exW.
Proof.
  constructor.
  - repeat constructor; simpl; intuition discriminate.
  - reflexivity.
  - intros e [<-|[<-|[<-|[]]]]; apply SpOk_dense.
  - intros e s' [<-|[<-|[<-|[]]]] E; discriminate.
Qed.
Lemma exW_Obj : Obj exW exW_c (numbered 16).
Proof. split; [exact exW_Wf|vm_compute; reflexivity|reflexivity]. Qed.
Lemma eW_At : At exW [KS "W"] eW.
Proof. apply (At_here exW eW []); [right; left; reflexivity|constructor]. Qed.
Lemma eR_At : At exW [KS "r"] eR.
Proof. apply (At_here exW eR []); [right; right; left; reflexivity|constructor]. Qed.

(** Rows 2, 0 ([::-2]) and columns 1, 2 ([-3:3]) of a 3x4 matrix; elements 5, 0 of it. *)
Definition rows : slc := Slc None None (Some (-2)).
Definition cols : slc := Slc (Some (-3)) (Some 3) None.
Example C28_selects : Selects (T := Z) 3 (PSlc rows) [2; 0]%nat /\ Selects (T := Z) 4 (PSlc cols) [1; 2]%nat /\
  Selects (T := Z) 3 (PInt (-1)) [2]%nat /\ Selects (T := Z) 12 (PLst (map KI [5; -12])) [5; 0]%nat /\
  Selects (T := Z) 3 (PLst (map KI [0; -1])) [0; 2]%nat /\
  Rejects (T := Z) 3 (PInt 3) /\ Rejects (T := Z) 3 (PLst (map KI [0; -4])) /\ Rejects (T := Z) 3 (PSlc (Slc None (Some 4) None)).
Proof.
  split. { change [2; 0]%nat with (map Z.to_nat (py_slice_positions (Z.of_nat 3) rows)). constructor. unfold SliceIn, rows, cols; cbn; lia. }
  split. { change [1; 2]%nat with (map Z.to_nat (py_slice_positions (Z.of_nat 4) cols)). constructor. unfold SliceIn, rows, cols; cbn; lia. }
  split. { constructor. unfold PosIs. lia. }
  split. { constructor. repeat constructor; unfold PosIs; lia. }
  split. { constructor. repeat constructor; unfold PosIs; lia. }
  split. { constructor. unfold PosIs. intros (k & H). lia. }
  split. { apply (Rejects_list 3 [0; -4] (-4)); [right; left; reflexivity|]. unfold PosIs. intros (k & H). lia. }
  constructor. right. right. exists 4. split; [reflexivity|lia].
Qed.

Definition W0 : dm Z := DM (sp_dense 3 4) [101; 102; 103; 104; 105; 106; 107; 108; 109; 110; 111; 112].
Example C28_block_example : exists st1 st2 r1 r2,
  get exW exW_c (pidx [KS "W"]) (numbered 16) = Ok (RMat W0) /\
  get exW exW_c (pidx [KS "W"] ++ [PSlc rows; PSlc cols]) (numbered 16) = Ok (RMat (DM (sp_dense 2 2) [106; 104; 109; 107])) /\
  set exW exW_c (pidx [KS "W"] ++ [PSlc rows; PSlc cols]) (PayMat (DM (sp_dense 2 2) [1; 2; 3; 4])) (numbered 16) = (st1, Ok r1) /\
  get exW exW_c (pidx [KS "W"]) st1 = Ok (RMat (DM (sp_dense 3 4) [101; 102; 103; 2; 105; 1; 4; 108; 3; 110; 111; 112])) /\
  set exW exW_c (pidx [KS "W"] ++ [PSlc rows; PSlc cols]) (PayNum 7) (numbered 16) = (st2, Ok r2) /\
  get exW exW_c (pidx [KS "W"]) st2 = Ok (RMat (DM (sp_dense 3 4) [101; 102; 103; 7; 105; 7; 7; 108; 7; 110; 111; 112])) /\
  set exW exW_c (pidx [KS "W"] ++ [PSlc rows; PSlc cols]) (PayMat (col [1; 2])) (numbered 16) = (numbered 16, Err EException) /\
  get exW exW_c (pidx [KS "W"] ++ [PInt 3; PSlc cols]) (numbered 16) = Err EException.
Proof. eexists _, _, _, _. repeat (split; [vm_compute; reflexivity|]). vm_compute; reflexivity. Qed.
Example C28_linear_example : exists st1 st2 r1 r2,
  get exW exW_c (pidx [KS "W"] ++ [PLst (map KI [5; -12])]) (numbered 16) = Ok (RMat (col [106; 101])) /\
  get exW exW_c (pidx [KS "r"] ++ [PLst (map KI [-1; 0])]) (numbered 16) = Ok (RMat (DM (sp_dense 1 2) [115; 113])) /\
  set exW exW_c (pidx [KS "W"] ++ [PLst (map KI [5; -12])]) (PayMat (DM (sp_dense 1 2) [1; 2])) (numbered 16) = (st1, Ok r1) /\
  get exW exW_c (pidx [KS "W"]) st1 = Ok (RMat (DM (sp_dense 3 4) [2; 102; 103; 104; 105; 1; 107; 108; 109; 110; 111; 112])) /\
  set exW exW_c (pidx [KS "W"] ++ [PLst (map KI [5; -12])]) (PayNum 7) (numbered 16) = (st2, Ok r2) /\
  get exW exW_c (pidx [KS "W"]) st2 = Ok (RMat (DM (sp_dense 3 4) [7; 102; 103; 104; 105; 7; 107; 108; 109; 110; 111; 112])) /\
  get exW exW_c (pidx [KS "W"] ++ [PInt 12]) (numbered 16) = Err EException.
Proof. eexists _, _, _, _. repeat (split; [vm_compute; reflexivity|]). vm_compute; reflexivity. Qed.
