(** A concrete prefixed structure and a concrete view (C82). *)
From Verif Require Import PyBase IndexModel DMModel StructModel StructSpec PowerModel PowerSpec
  IndexProofs StructProofs LayoutProofs LayoutThms LayoutExamples DMProofs PowerProofs PowerThms
  PowerExamples EntryModel EntrySpec EntryProofs StructsModel StructsSpec StructsThms5 StructsThms7 StructsExamples StructsExamples2 StructsExamples3 PrefixAttrModel PrefixAttrThms.
Open Scope Z_scope.

Definition pa_A : dm Z := DM (sp_dense 3 3) [0; 1; 2; 10; 11; 12; 20; 21; 22].
Example C82_hyps : Wf ex5 /\ casadi_structure ex5 = Ok ex5_c /\ DmOk pa_A /\ dm_shape pa_A = (cs_size ex5_c, cs_size ex5_c).
Proof. split; [exact ex5_Wf|]. split; [reflexivity|]. split; [split; [solve_spok2|reflexivity]|reflexivity]. Qed.
Example C82_view_example : exists vw vw', squared_ ex5 ex5_c pa_A = Ok vw /\ view_set 0 vw [PStr "p"; PStr "q"] (PayMat (DM (sp_dense 1 2) [7; 8])) = (vw', Ok RNone) /\
  view_getattr (@dm_shape Z) 3 3 vw' = (3, 3)%nat /\ view_call 0 vw' = Ok (RMat (DM (sp_dense 3 3) [0; 1; 2; 7; 11; 12; 8; 21; 22])).
Proof. eexists. eexists. split; [vm_compute; reflexivity|]. split; [vm_compute; reflexivity|]. split; [reflexivity|]. vm_compute. reflexivity. Qed.
(** The attributes are not those of the block: the number of rows of [V.prefix["b", 0]] is
    that of [V.cat], while [V.prefix["b", 0]()] has 6 rows. *)
Theorem prefix_attr_refuted : exists s c (v : list Z) ci e M, Wf s /\ casadi_structure s = Ok c /\ length v = cs_size c /\ At s ci e /\ e_symm e = false /\
  prefix_call 0 (prefix_ (plain_obj c v) (pidx ci)) = Ok (RMat M) /\ dm_shape M = (6, 1)%nat /\
  prefix_getattr (@dm_shape Z) (prefix_ (plain_obj c v) (pidx ci)) = (13, 1)%nat.
Proof.
  exists ex7, ex7_c, [0; 1; 2; 3; 4; 5; 6; 11; 12; 13; 14; 15; 16], [KS "b"; KI 0],
    (mkEntry "b" [2] (Some ex4) (sp_dense 1 1) false None None), (DM (sp_dense 6 1) [1; 2; 3; 4; 5; 6]).
  split; [exact ex7_Wf|]. split; [vm_compute; reflexivity|]. split; [reflexivity|]. split; [|split; [reflexivity|split; [vm_compute; reflexivity|split; vm_compute; reflexivity]]].
  apply (At_here ex7 (mkEntry "b" [2] (Some ex4) (sp_dense 1 1) false None None) [0]); [right; left; reflexivity|]. repeat constructor; discriminate.
Qed.
