(** Examples of lists of names (C16, C88) and of assignments to restored objects (C33). *)
From Coq Require Import String ZArith.
From Verif Require Import PyBase IndexModel DMModel StructModel StructSpec PowerModel PowerSpec
  IndexProofs StructProofs LayoutProofs LayoutThms LayoutExamples DMProofs PowerProofs PowerThms PowerThms4 PowerThms5 PowerExamples
  EntryModel EntrySpec StructsModel StructsSpec StructsThms5 SliceWriteThms NamesThms PickleWriteThms.
Open Scope string_scope.
Open Scope list_scope.
Open Scope Z_scope.

(** A vector, a sub-structure, a repeated entry and a symmetric entry. *)
Definition eN : entry := mkEntry "P" [] None (sp_upper 2) true (Some (sp_dense 2 2)) None.
Definition exN : structure :=
  mkStruct [mk "x" [] (sp_dense 2 1); mks "g" [] ex_sub; mk "r" [3] (sp_dense 1 1); eN] [OName "x"; OName "g"; OName "r"; OName "P"].
Definition exN_c : cstruct := Eval vm_compute in built exN.
Lemma exN_Wf : Wf exN.
Proof.
  constructor.
  - repeat constructor; simpl; intuition discriminate.
  - reflexivity.
  - intros e [<-|[<-|[<-|[<-|[]]]]]; solve_spok2.
  - intros e s' [<-|[<-|[<-|[<-|[]]]]] E; try discriminate. injection E as <-. constructor.
    + repeat constructor; simpl; intuition discriminate.
    + reflexivity.
    + intros e [<-|[<-|[]]]; solve_spok2.
    + intros e s' [<-|[<-|[]]] E; discriminate.
Qed.
Lemma exN_Obj : Obj exN exN_c (numbered 12).
Proof. split; [exact exN_Wf|vm_compute; reflexivity|reflexivity]. Qed.
Lemma eN_Symm : SymmEntry eN 2 (sp_dense 2 2).
Proof. split; try reflexivity. solve_spok2. Qed.

(** [s[["x", "g", "P"]]] gives the vector, the block of the sub-structure and the upper triangle of "P";
    [s[["x", "r"]]] and [s[["x", "nope"]]] raise. *)
Example names_read_example :
  get exN exN_c [PLst (map KS ["x"; "g"; "P"])] (numbered 12) =
    Ok (RList (map (@RMat Z) [col [100; 101]; col [102; 103; 104; 105]; DM (sp_upper 2) [109; 110; 111]])) /\
  get exN exN_c [PStr "P"] (numbered 12) = Ok (RMat (DM (sp_dense 2 2) [109; 110; 110; 111])) /\
  get exN exN_c [PLst (map KS ["x"; "r"])] (numbered 12) = Err EException /\
  get exN exN_c [PLst (map KS ["x"; "nope"])] (numbered 12) = Err EException /\
  i_get 0 exN [PStr "r"] = Ok (RList [@RIdx Z (dm_col [6%nat]); RIdx (dm_col [7%nat]); RIdx (dm_col [8%nat])]) /\
  i_get 0 exN [PStr "g"] = Ok (@RIdx Z (dm_col [2; 3; 4; 5]%nat)).
Proof. repeat (split; [vm_compute; reflexivity|]). vm_compute; reflexivity. Qed.

(** [s[["g", "x", "r"]] = [1, [2, 3], 4]] stores the first two and raises. *)
Example names_write_example : exists st' r1 st1,
  Forall (fun n => (exists m, i_get 0 exN [PStr n] = Ok (@RIdx Z m)) /\ exists e, In e (s_entries exN) /\ e_name e = n /\ e_symm e = false) ["g"; "x"] /\
  (forall m, i_get 0 exN [PStr "r"] <> Ok (@RIdx Z m)) /\
  set exN exN_c [PLst (map KS ["g"; "x"; "r"])] (PayList [PayNum 1; PayMat (col [2; 3]); PayNum 4]) (numbered 12) = (st', Err EException) /\
  ps_master st' = [2; 3; 1; 1; 1; 1; 106; 107; 108; 109; 110; 111] /\
  set exN exN_c [PLst (map KS ["g"; "x"])] (PayList [PayNum 1; PayMat (col [2; 3])]) (numbered 12) = (st1, Ok r1) /\ st1 = st'.
Proof.
  eexists _, _, _. split.
  { constructor; [|constructor; [|constructor]]; (split; [eexists; vm_compute; reflexivity|]).
    - eexists. split; [right; left; reflexivity|]. split; reflexivity.
    - eexists. split; [left; reflexivity|]. split; reflexivity. }
  split; [intros m; vm_compute; discriminate|].
  repeat (split; [vm_compute; reflexivity|]). vm_compute; reflexivity.
Qed.

(** ** Findings (C88) *)
(** A matrix of another sparsity is refused by [s["P"] = M] and accepted by [s[["P"]] = [M]]. *)
Theorem names_write_symm_refuted : exists s c (st st' : pstate Z) n M r,
  Obj s c st /\ In n (map e_name (s_entries s)) /\
  set s c [PStr n] (PayMat M) st = (st, Err EException) /\ set s c [PLst [KS n]] (PayList [PayMat M]) st = (st', Ok r) /\ st' <> st.
Proof.
  exists exN, exN_c, (numbered 12). eexists. exists "P", (DM (sp_upper 2) [1; 2; 3]). eexists. split; [exact exN_Obj|].
  split; [right; right; right; left; reflexivity|]. split; [vm_compute; reflexivity|]. split; [vm_compute; reflexivity|]. discriminate.
Qed.
(** [s["r", 0]] and [s["g", "p"]] work, [s[["r"], 0]] and [s[["g"], "p"]] raise. *)
Theorem names_rest_refuted : exists s c (st : pstate Z) n k R n' R',
  Obj s c st /\ get s c [PStr n; PInt k] st = Ok R /\ get s c [PLst [KS n]; PInt k] st = Err EException /\
  get s c [PStr n'; PStr "p"] st = Ok R' /\ get s c [PLst [KS n']; PStr "p"] st = Err EException.
Proof.
  exists exN, exN_c, (numbered 12), "r", 0. eexists. exists "g". eexists. split; [exact exN_Obj|].
  repeat (split; [vm_compute; reflexivity|]). vm_compute; reflexivity.
Qed.
Example names_write_symm_hyps : In eN (s_entries exN) /\ e_dims eN = [] /\ SymmEntry eN 2 (sp_dense 2 2) /\
  item (PayList [PayMat (DM (sp_dense 2 2) [1; 2; 3; 4])]) 0 = Some (PayMat (DM (sp_dense 2 2) [1; 2; 3; 4])) /\
  fits (DM (sp_dense 2 2) [1; 2; 3; 4]) (e_sp eN) /\ exists st' r,
  set exN exN_c [PLst (map KS ["P"])] (PayList [PayMat (DM (sp_dense 2 2) [1; 2; 3; 4])]) (numbered 12) = (st', Ok r) /\
  get exN exN_c [PStr "P"] st' = Ok (RMat (DM (sp_dense 2 2) [1; 3; 3; 4])).
Proof.
  split; [right; right; right; left; reflexivity|]. split; [reflexivity|]. split; [exact eN_Symm|]. split; [reflexivity|].
  split; [right; left; reflexivity|]. eexists _, _. split; vm_compute; reflexivity.
Qed.

(** ** C33: after a round trip [s["P", 0, 1] = 7] works as before, [s["P", 0, :] = DM([[1, 2]])] raises. *)
Definition vN : list Z := ps_master (numbered 12).
Example restored_example : exists o', unpickle_obj (plain_obj exN_c vN) = Ok o' /\
  At exN [KS "P"] eN /\ length vN = cs_size exN_c /\
  so_cat (fst (so_set 0 o' (pidx [KS "P"] ++ [PInt 0; PInt 1]) (PayNum 7))) = [100; 101; 102; 103; 104; 105; 106; 107; 108; 109; 7; 111] /\
  snd (so_set 0 o' (pidx [KS "P"] ++ [PInt 0; PInt 1]) (PayNum 7)) = Ok RNone /\
  snd (so_set 0 (plain_obj exN_c vN) (pidx [KS "P"] ++ [PInt 0; PSlc slice_all]) (PayMat (DM (sp_dense 1 2) [1; 2]))) = Ok RNone /\
  snd (so_set 0 o' (pidx [KS "P"] ++ [PInt 0; PSlc slice_all]) (PayMat (DM (sp_dense 1 2) [1; 2]))) = Err EException /\
  snd (so_set 0 o' [PLst (map KS ["x"; "P"])] (PayList [PayNum 1; PayMat (DM (sp_dense 2 2) [1; 2; 3; 4])])) = Ok (RList [RNone; RNone]).
Proof.
  eexists. split; [vm_compute; reflexivity|]. split. { apply (At_here exN eN []); [right; right; right; left; reflexivity|constructor]. }
  repeat (split; [vm_compute; reflexivity|]). vm_compute; reflexivity.
Qed.
