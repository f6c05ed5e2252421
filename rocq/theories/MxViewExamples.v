(** Concrete views of MX matrices (C84). *)
From Verif Require Import PyBase IndexModel DMModel StructModel StructSpec PowerModel PowerSpec
  IndexProofs StructProofs LayoutProofs LayoutThms LayoutExamples DMProofs PowerProofs PowerThms SliceProofs PowerThms2 PowerThms3 PowerThms4 PowerThms5
  PowerExamples EntryModel EntrySpec EntryProofs StructsModel StructsSpec StructsThms9 StructsExamples StructsExamples2 SqRepThms SqRepExamples MxViewModel MxViewThms.
Open Scope Z_scope.

Definition exm_M : dm Z := DM (sp_dense 3 3) [0; 1; 2; 10; 11; 12; 20; 21; 22].
Definition exm_C : dm Z := DM (sp_dense 3 1) [5; 6; 7].
Definition exm_C2 : dm Z := DM (sp_dense 3 2) [5; 6; 7; 8; 9; 10].

Example C84_hyps : Wf ex5 /\ casadi_structure ex5 = Ok ex5_c /\ cs_size ex5_c = 3%nat /\ DmOk exm_M /\ DmOk exm_C /\ DmOk exm_C2 /\
  dm_sp exm_M = sp_dense (cs_size ex5_c) (cs_size ex5_c) /\ dm_nr exm_C2 = cs_size ex5_c /\ sp_is_dense (dm_sp exm_C2) = true.
Proof.
  split; [exact ex5_Wf|]. split; [reflexivity|]. split; [reflexivity|].
  do 3 (split; [split; [solve_spok2|reflexivity]|]). split; [|split]; reflexivity.
Qed.
Example C84_squared_example : exists vw vw', squared_mx 0 ex5 ex5_c exm_M = Ok vw /\
  view_get 0 vw [PStr "q"; PDel true [PStr "p"]] = Ok (RMat (DM (sp_dense 2 1) [1; 2])) /\
  view_set 0 vw [PStr "p"; PStr "q"] (PayMat (DM (sp_dense 1 2) [7; 8])) = (vw', Ok RNone) /\
  view_matrix vw' = [0; 1; 2; 7; 11; 12; 8; 21; 22] /\ view_get 0 vw' [] = Ok (RMat exm_M).
Proof. eexists. eexists. repeat (split; [vm_compute; reflexivity|]). vm_compute; reflexivity. Qed.
Example C84_repeated_example : exists vw, repeated_mx 0 ex5 ex5_c exm_C = Ok vw /\
  view_get 0 vw [PInt 0; PStr "q"] = Ok (RMat (DM (sp_dense 2 1) [6; 7])).
Proof. eexists. split; [vm_compute; reflexivity|]. vm_compute. reflexivity. Qed.

(** Two columns: works with numbers, raises with MX. *)
Theorem mx_repeated_refuted : exists s c (a : dm Z) vw, Wf s /\ casadi_structure s = Ok c /\ DmOk a /\
  repeated_ s c a = Ok vw /\ repeated_mx 0 s c a = Err EException.
Proof.
  exists ex5, ex5_c, exm_C2. eexists. destruct C84_hyps as (A & B & _ & _ & _ & C & _).
  split; [exact A|]. split; [exact B|]. split; [exact C|]. split; vm_compute; reflexivity.
Qed.
Theorem mx_stack_refuted : exists s c (a : dm Z) vw, Wf s /\ casadi_structure s = Ok c /\ DmOk a /\
  squared_repeated_ s c a = Ok vw /\ squared_repeated_mx 0 s c a = Err EException.
Proof.
  exists ex5, ex5_c, exq_A. eexists. destruct C81_hyps as (A & B & C & _).
  split; [exact A|]. split; [exact B|]. split; [exact C|]. split; vm_compute; reflexivity.
Qed.
(** After an assignment the whole matrix is still the old one. *)
Theorem mx_view_stale_refuted : exists s c (a B : dm Z) vw vd vw' vd', squared_mx 0 s c a = Ok vw /\ squared_ s c a = Ok vd /\
  view_set 0 vw [PInt 0; PInt 0] (PayMat B) = (vw', Ok RNone) /\ view_set 0 vd [PInt 0; PInt 0] (PayMat B) = (vd', Ok RNone) /\
  view_get 0 vd' [PInt 0; PInt 0] = Ok (RMat B) /\ view_get 0 vw' [PInt 0; PInt 0] = Ok (RMat B) /\
  view_get 0 vd' [] = Ok (RMat (DM (dm_sp a) (99 :: tl (dm_nz a)))) /\ view_get 0 vw' [] = Ok (RMat a) /\ hd 0 (dm_nz a) <> 99.
Proof.
  exists ex5, ex5_c, exm_M, (dm_scalar 99). do 4 eexists.
  split; [vm_compute; reflexivity|]. split; [vm_compute; reflexivity|]. split; [vm_compute; reflexivity|]. split; [vm_compute; reflexivity|].
  split; [vm_compute; reflexivity|]. split; [vm_compute; reflexivity|]. split; [vm_compute; reflexivity|]. split; [vm_compute; reflexivity|]. discriminate.
Qed.
