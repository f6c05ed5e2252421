(** Examples of selecting parts of an entry by name (C111). *)
From Coq Require Import String ZArith.
From Verif Require Import PyBase IndexModel DMModel StructModel StructSpec PowerModel PowerSpec
  IndexProofs StructProofs LayoutProofs LayoutThms LayoutExamples DMProofs PowerProofs PowerThms PowerThms4 PowerThms5 PowerExamples StructsThms7 ExtraThms NameSelThms.
Open Scope string_scope.
Open Scope list_scope.
Open Scope Z_scope.

(** [struct([entry('p'), entry('q', shape=2)])], [struct([entry('u', shape=(1, 2)), entry('v')])] *)
Definition nsA : structure := mkStruct [mk "p" [] (sp_dense 1 1); mk "q" [] (sp_dense 2 1)] [OName "p"; OName "q"].
Definition nsB : structure := mkStruct [mk "u" [] (sp_dense 1 2); mk "v" [] (sp_dense 1 1)] [OName "u"; OName "v"].
(** [entry('W', shapestruct=(A, B))], [entry('M', shapestruct=(B, 2))] *)
Definition neW : entry := mkEntry "W" [] None (sp_dense 3 3) false None (Some [SDS nsA; SDS nsB]).
Definition neM : entry := mkEntry "M" [] None (sp_dense 3 2) false None (Some [SDS nsB; SDI 2]).
Definition neX : entry := mk "x" [] (sp_dense 2 1).
Definition nsX : structure := mkStruct [neX; neW; neM] [OName "x"; OName "W"; OName "M"].
Definition nsX_c : cstruct := Eval vm_compute in built nsX.
Lemma nsX_Wf : Wf nsX.
Proof.
  constructor.
  - repeat constructor; simpl; intuition discriminate.
  - reflexivity.
  - intros e [<-|[<-|[<-|[]]]]; apply SpOk_dense.
  - intros e s' [<-|[<-|[<-|[]]]] E; discriminate.
Qed.
Lemma nsX_Obj : Obj nsX nsX_c (numbered 17).
Proof. split; [exact nsX_Wf|vm_compute; reflexivity|reflexivity]. Qed.
Lemma neX_At : At nsX [KS "x"] neX.
Proof. apply (At_here nsX neX []); [left; reflexivity|constructor]. Qed.
Lemma neW_At : At nsX [KS "W"] neW.
Proof. apply (At_here nsX neW []); [right; left; reflexivity|constructor]. Qed.
Lemma neM_At : At nsX [KS "M"] neM.
Proof. apply (At_here nsX neM []); [right; right; left; reflexivity|constructor]. Qed.

Lemma W_q : ByName 0 neW 0 (PStr "q") [1; 2]%nat.
Proof. exists [SDS nsA; SDS nsB], nsA. split; [reflexivity|]. split; [reflexivity|]. constructor. vm_compute. reflexivity. Qed.
Lemma W_vu : ByName 0 neW 1 (PLst [KS "v"; KS "u"]) [2; 0; 1]%nat.
Proof.
  exists [SDS nsA; SDS nsB], nsB. split; [reflexivity|]. split; [reflexivity|]. apply RowSel_names; [repeat constructor; eexists; reflexivity|discriminate|]. vm_compute. reflexivity.
Qed.
Lemma M_u : RowIndex 0 neM (PDel false [PStr "u"]) [0; 1]%nat.
Proof.
  exists [SDS nsB; SDI 2], nsB, [PStr "u"], (DM (sp_dense 1 2) [0; 1]%nat). split; [reflexivity|]. split; [reflexivity|]. split; [reflexivity|]. split; [vm_compute; reflexivity|].
  split; [reflexivity|]. split; [reflexivity|]. split; [discriminate|reflexivity].
Qed.
Example names_means : Means 0 neW 0 (PStr "q") (byNumber [1; 2]%nat) /\ Means 0 neW 1 (PLst [KS "v"; KS "u"]) (byNumber [2; 0; 1]%nat) /\ Means 0 neW 1 (PInt (-1)) (PInt (-1)).
Proof. split; [constructor; exact W_q|]. split; [constructor; exact W_vu|]. now apply (Means_ord 0 neW 1 (PInt (-1)) (SelInt (-1))). Qed.
(** [s['W', 'q', ['v', 'u']]], writing it, [s['M', index['u']]] and [s['M', 'u', 1]] *)
Example names_ex : exists st1 r1 st2 r2,
  get nsX nsX_c (pidx [KS "W"]) (numbered 17) = Ok (RMat (DM (sp_dense 3 3) [102; 103; 104; 105; 106; 107; 108; 109; 110])) /\
  get nsX nsX_c (pidx [KS "W"] ++ [PStr "q"; PLst [KS "v"; KS "u"]]) (numbered 17) = Ok (RMat (DM (sp_dense 2 3) [109; 110; 103; 104; 106; 107])) /\
  set nsX nsX_c (pidx [KS "W"] ++ [PStr "q"; PLst [KS "v"; KS "u"]]) (PayMat (DM (sp_dense 2 3) [1; 2; 3; 4; 5; 6])) (numbered 17) = (st1, Ok r1) /\
  get nsX nsX_c (pidx [KS "W"]) st1 = Ok (RMat (DM (sp_dense 3 3) [102; 3; 4; 105; 5; 6; 108; 1; 2])) /\
  get nsX nsX_c (pidx [KS "M"] ++ [PDel false [PStr "u"]]) (numbered 17) = Ok (RMat (DM (sp_dense 1 2) [111; 112])) /\
  get nsX nsX_c (pidx [KS "M"] ++ [PStr "u"]) (numbered 17) = Ok (RMat (col [111; 112])) /\
  get nsX nsX_c (pidx [KS "M"] ++ [PStr "u"; PInt 1]) (numbered 17) = Ok (RMat (col [114; 115])) /\
  set nsX nsX_c (pidx [KS "M"] ++ [PDel false [PStr "u"]]) (PayMat (col [7; 8])) (numbered 17) = (st2, Ok r2) /\
  get nsX nsX_c (pidx [KS "M"]) st2 = Ok (RMat (DM (sp_dense 3 2) [7; 8; 113; 114; 115; 116])).
Proof. eexists _, _, _, _. repeat (split; [vm_compute; reflexivity|]). vm_compute. reflexivity. Qed.
(** An unknown name, a name for a dimension given by a number, for an entry without [shapestruct], names and numbers mixed *)
Example names_bad : BadName 0 neW 0 (PStr "zz") /\ BadName 0 neM 1 (PStr "v") /\ BadName 0 neX 0 (PStr "p") /\ BadName 0 neW 0 (PLst [KS "p"; KI 1]) /\
  get nsX nsX_c (pidx [KS "W"] ++ [PLst [KS "p"; KI 1]; PInt 0]) (numbered 17) = Err EException /\ get nsX nsX_c (pidx [KS "M"] ++ [PStr "u"; PStr "v"]) (numbered 17) = Err EException.
Proof.
  split. { right. left. eexists _, _, _. split; [reflexivity|]. split; [reflexivity|]. vm_compute. reflexivity. }
  split. { left. split; [constructor|exact I]. }
  split. { left. split; [constructor|exact I]. }
  split. { right. right. exists [KS "p"; KI 1], "p", 1. split; [reflexivity|]. simpl. tauto. }
  split; vm_compute; reflexivity.
Qed.
(** An [index[...]] that is a column is not a [RowIndex] *)
Example names_flat : ByName 0 neW 0 (PDel false [PStr "q"]) [1; 2]%nat /\ ~ RowIndex 0 neW (PDel false [PStr "q"]) [1; 2]%nat.
Proof.
  split.
  - exists [SDS nsA; SDS nsB], nsA. split; [reflexivity|]. split; [reflexivity|].
    apply (RowSel_index 0 nsA [PStr "q"] (DM (sp_dense 2 1) [1; 2]%nat)); [vm_compute; reflexivity|reflexivity|now left].
  - intros (sh & s' & arg & m & E1 & E2 & E3 & Hi & _ & _ & Hc & _). injection E1 as <-. injection E2 as <-. injection E3 as <-.
    assert (E : i_get 0 nsA [PStr "q"] = Ok (RIdx (DM (sp_dense 2 1) [1; 2]%nat))) by (vm_compute; reflexivity). rewrite E in Hi. injection Hi as <-. now apply Hc.
Qed.
