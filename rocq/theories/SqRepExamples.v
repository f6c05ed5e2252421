(** A concrete stack of square matrices (C81). *)
From Verif Require Import PyBase IndexModel DMModel StructModel StructSpec PowerModel PowerSpec
  IndexProofs StructProofs LayoutProofs LayoutThms LayoutExamples DMProofs PowerProofs PowerThms SliceProofs PowerThms2 PowerThms3 PowerThms4 PowerThms5
  PowerExamples EntryModel EntrySpec EntryProofs StructsModel StructsSpec StructsThms9 StructsExamples StructsExamples2 SqRepThms.
Open Scope Z_scope.

Definition exq_A : dm Z := DM (sp_dense 3 6) [0; 1; 2; 10; 11; 12; 20; 21; 22; 100; 101; 102; 110; 111; 112; 120; 121; 122].
Example C81_hyps : Wf ex5 /\ casadi_structure ex5 = Ok ex5_c /\ DmOk exq_A /\ cs_size ex5_c <> 0%nat /\
  dm_shape exq_A = (cs_size ex5_c, (2 * cs_size ex5_c)%nat) /\ sp_is_dense (dm_sp exq_A) = true.
Proof. split; [exact ex5_Wf|]. split; [reflexivity|]. split; [split; [solve_spok2|reflexivity]|]. split; [discriminate|]. split; reflexivity. Qed.
Example C81_example : exists vw vw', squared_repeated_ ex5 ex5_c exq_A = Ok vw /\
  view_get 0 vw [PInt (-1); PStr "q"; PDel true [PStr "p"]] = Ok (RMat (DM (sp_dense 2 1) [101; 102])) /\
  view_get 0 vw [PInt 0] = Ok (RMat (DM (sp_dense 3 3) [0; 1; 2; 10; 11; 12; 20; 21; 22])) /\
  view_set 0 vw [PInt 1; PStr "p"; PStr "q"] (PayMat (DM (sp_dense 1 2) [7; 8])) = (vw', Ok RNone) /\
  view_matrix vw' = [0; 1; 2; 10; 11; 12; 20; 21; 22; 100; 101; 102; 7; 111; 112; 8; 121; 122].
Proof. eexists. eexists. split; [vm_compute; reflexivity|]. vm_compute. repeat split; reflexivity. Qed.
Example C81_bad : squared_repeated_ ex5 ex5_c (DM (sp_dense 3 4) (repeat 0 12)) = Err EException /\
  squared_repeated_ ex5 ex5_c (dm_scalar 0) = Err EException.
Proof. split; vm_compute; reflexivity. Qed.
