(** Concrete objects for prefix views, repeated and pickling (C31-C33). *)
From Verif Require Import PyBase IndexModel DMModel StructModel StructSpec PowerModel PowerSpec
  IndexProofs StructProofs LayoutProofs LayoutThms LayoutExamples DMProofs PowerProofs PowerThms SliceProofs PowerThms2 PowerThms3 PowerThms4
  PowerThms5 PowerExamples EntryModel EntrySpec EntryProofs StructsModel StructsSpec StructsThms1 StructsThms2 StructsThms3
  StructsThms4 StructsThms5 StructsThms6 StructsThms7 StructsThms8 StructsThms9 StructsThms10 StructsExamples StructsExamples2.
Open Scope Z_scope.

(** ** C31: ex4.repeated(A) with three columns *)
Definition ex_R : dm Z := DM (sp_dense 6 3) [0; 1; 2; 3; 4; 5; 10; 11; 12; 13; 14; 15; 20; 21; 22; 23; 24; 25].
Example C31_hyps : Wf ex4 /\ casadi_structure ex4 = Ok ex4_c /\ DmOk ex_R /\ dm_nr ex_R = cs_size ex4_c /\ sp_is_dense (dm_sp ex_R) = true /\
  no_fun (T := Z) [PSet ["x"%string; "y"%string]] /\ PayFull (PayMat (col [7; 8])).
Proof.
  split; [exact ex4_Wf|]. split; [reflexivity|]. split; [split; [solve_spok2|reflexivity]|]. split; [reflexivity|]. split; [reflexivity|].
  split; [repeat constructor; simpl; intuition discriminate|]. simpl. discriminate.
Qed.
Example C31_example : exists vw vw', repeated_ ex4 ex4_c ex_R = Ok vw /\
  view_get 0 vw [PInt (-1); PStr "x"] = Ok (RMat (col [20; 21])) /\
  view_set 0 vw [PInt 1; PStr "x"] (PayMat (col [7; 8])) = (vw', Ok RNone) /\
  view_matrix vw' = [0; 1; 2; 3; 4; 5; 7; 8; 12; 13; 14; 15; 20; 21; 22; 23; 24; 25] /\ so_cat (vw_obj vw') = view_matrix vw'.
Proof. eexists. eexists. split; [vm_compute; reflexivity|]. vm_compute. repeat split; reflexivity. Qed.
Example C31_example_bad : repeated_ ex4 ex4_c (DM (sp_dense 2 1) [1; 2]) = Err EException.
Proof. reflexivity. Qed.

(** ** C32: prefix of the last copy of a repeated sub-structure *)
Definition ex7 : structure := mkStruct [mk "h" [] (sp_dense 1 1); mkEntry "b" [2] (Some ex4) (sp_dense 1 1) false None None] [OName "h"; OName "b"].
Definition ex7_c : cstruct := Eval vm_compute in built ex7.
Lemma ex7_Wf : Wf ex7.
Proof.
  constructor.
  - repeat constructor; simpl; intuition discriminate.
  - reflexivity.
  - intros e [<-|[<-|[]]]; solve_spok2.
  - intros e s' [<-|[<-|[]]] E; [discriminate|]. injection E as <-. exact ex4_Wf.
Qed.
Example C32_hyps : exists e, Addr ex7 [KS "b"; KI (-1)] [KS "b"; KI 1] e /\ e_struct e = Some ex4 /\ Block ex7 [KS "b"; KI 1] ex4 /\
  casadi_structure ex7 = Ok ex7_c /\ casadi_structure ex4 = Ok ex4_c.
Proof.
  eexists. split; [apply (Addr_here ex7 (mkEntry "b" [2] (Some ex4) (sp_dense 1 1) false None None) [-1]); [right; left; reflexivity|reflexivity]|].
  split; [reflexivity|]. split; [apply (Block_here ex7 (mkEntry "b" [2] (Some ex4) (sp_dense 1 1) false None None) [1]); [right; left; reflexivity|reflexivity|repeat constructor; lia]|].
  split; reflexivity.
Qed.
Example C32_example :
  let o := plain_obj ex7_c [0; 1; 2; 3; 4; 5; 6; 11; 12; 13; 14; 15; 16] in
  prefix_get 0 (prefix_ o [PStr "b"; PInt (-1)]) [PStr "x"] = Ok (RMat (col [11; 12])) /\
  exists o', prefix_set 0 (prefix_ o [PStr "b"; PInt (-1)]) [PStr "x"] (PayMat (col [7; 8])) = (prefix_ o' [PStr "b"; PInt (-1)], Ok RNone) /\
    so_cat o' = [0; 1; 2; 3; 4; 5; 6; 7; 8; 13; 14; 15; 16].
Proof. split; [vm_compute; reflexivity|]. eexists. split; [vm_compute; reflexivity|vm_compute; reflexivity]. Qed.

(** ** C33 *)
Example C33_hyps : Wf ex7 /\ NoSymm ex7 /\ length [0; 1; 2; 3; 4; 5; 6; 11; 12; 13; 14; 15; 16] = cs_size ex7_c.
Proof.
  split; [exact ex7_Wf|]. split; [|reflexivity].
  assert (H : NoSymm ex4) by (constructor; [intros e [<-|[<-|[]]]; reflexivity|intros e s' [<-|[<-|[]]] E; discriminate]).
  constructor; [intros e [<-|[<-|[]]]; reflexivity|]. intros e s' [<-|[<-|[]]] E; [discriminate|]. injection E as <-. exact H.
Qed.
Example C33_example : exists o', unpickle_obj (plain_obj ex7_c [0; 1; 2; 3; 4; 5; 6; 11; 12; 13; 14; 15; 16]) = Ok o' /\
  so_get 0 o' [PStr "b"; PInt 0; PStr "x"] = Ok (RMat (col [1; 2])).
Proof. eexists. split; vm_compute; reflexivity. Qed.
(** A symmetric entry can no longer be assigned as a whole after a round trip. *)
Theorem pickle_symm_refuted : exists s c (v : list Z) o' M o1,
  Wf s /\ casadi_structure s = Ok c /\ length v = cs_size c /\ unpickle_obj (plain_obj c v) = Ok o' /\
  so_set 0 (plain_obj c v) [PStr "P"] (PayMat M) = (o1, Ok RNone) /\ so_cat o1 <> v /\
  so_set 0 o' [PStr "P"] (PayMat M) = (o', Err EException).
Proof.
  exists exP, exP_c, [0; 1; 2; 3; 4]. eexists. exists (DM (sp_dense 2 2) [1; 9; 9; 3]). eexists.
  split; [exact exP_Wf|]. split; [vm_compute; reflexivity|]. split; [reflexivity|]. split; [vm_compute; reflexivity|].
  split; [vm_compute; reflexivity|]. split; [vm_compute; discriminate|vm_compute; reflexivity].
Qed.
