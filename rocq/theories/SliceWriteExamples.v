(** Examples of assignments through slices and lists of integers (C17, C19), of indices with
    too few integers (C12) and of assignments to structures with symmetric entries (C11). *)
From Coq Require Import String ZArith.
From Verif Require Import PyBase IndexModel DMModel StructModel StructSpec PowerModel PowerSpec
  IndexProofs StructProofs LayoutProofs LayoutThms LayoutExamples DMProofs PowerProofs PowerThms PowerThms4 PowerExamples
  SliceWriteThms PrefixThms SymFrameThms.
Open Scope string_scope.
Open Scope list_scope.
Open Scope Z_scope.

Definition eM : entry := mk "m" [2; 3] (sp_dense 2 1).
Definition exM : structure := mkStruct [mk "y" [] (sp_dense 1 1); eM] [OName "y"; OName "m"].
Definition exM_c : cstruct := Eval vm_compute in built exM.
Lemma exM_Wf : Wf exM.
Proof.
  constructor.
  - repeat constructor; simpl; intuition discriminate.
  - reflexivity.
  - intros e [<-|[<-|[]]]; apply SpOk_dense.
  - intros e s' [<-|[<-|[]]] E; discriminate.
Qed.
Lemma exM_Obj : Obj exM exM_c (numbered 13).
Proof. split; [exact exM_Wf|vm_compute; reflexivity|reflexivity]. Qed.

(** The hypotheses of the theorems: [s["m", 1, sl] = v] on the second repeat dimension. *)
Example slice_hyps : In eM (s_entries exM) /\ e_symm eM = false /\ e_struct eM = None /\ e_dims eM = [2] ++ [3] /\ InDims [1] [2] /\
  0 <= 3 /\ sl_step (Slc None None (Some (-2))) <> Some 0 /\ py_slice_positions 3 (Slc None None (Some (-2))) = [2; 0] /\
  (forall i q, item_at (PayList [PayNum 1; PayNum 2; PayMat (col [3; 4])]) i = Some q -> pay_ok q).
Proof.
  split; [right; left; reflexivity|]. split; [reflexivity|]. split; [reflexivity|]. split; [reflexivity|].
  split. { constructor; [lia|constructor]. } split; [lia|]. split; [discriminate|]. split; [reflexivity|].
  intros i q H. assert (Hq : In q [PayNum 1; PayNum 2; PayMat (col [3; 4])]).
  { cbn [item_at] in H. destruct (i <? 0); [destruct (_ <? 0); [discriminate|]|]; exact (nth_error_In _ _ H). }
  destruct Hq as [<-|[<-|[<-|[]]]]; cbn; auto. split; [apply SpOk_dense|reflexivity].
Qed.

(** [s["m", 1, ::-2] = [1, 2, DM([3, 4])]]: the elements 2 and 0 get the items 2 and 0 of the list; item 1 is not used.
    A list of two items is too short (the element 2 comes first: nothing is stored), a list whose
    item 0 does not fit is rejected after the element 2 has been stored. *)
Example slice_write_example : exists st1 r1 st3,
  set exM exM_c [PStr "m"; PInt 1; PSlc (Slc None None (Some (-2)))] (PayList [PayNum 1; PayNum 2; PayMat (col [3; 4])]) (numbered 13) = (st1, Ok r1) /\
  ps_master st1 = [100; 101; 102; 103; 104; 105; 106; 1; 1; 109; 110; 3; 4] /\
  set exM exM_c [PStr "m"; PInt 1; PSlc (Slc None None (Some (-2)))] (PayList [PayNum 1; PayNum 2]) (numbered 13) = (numbered 13, Err EException) /\
  set exM exM_c [PStr "m"; PInt 1; PSlc (Slc None None (Some (-2)))] (PayList [PayMat (col [1; 2; 3]); PayNum 2; PayMat (col [3; 4])]) (numbered 13) = (st3, Err EException) /\
  ps_master st3 = [100; 101; 102; 103; 104; 105; 106; 107; 108; 109; 110; 3; 4] /\
  set exM exM_c [PStr "m"; PInt 1; PSlc (Slc None None (Some 0))] (PayNum 5) (numbered 13) = (numbered 13, Err EException).
Proof. eexists _, _, _. repeat (split; [vm_compute; reflexivity|]). vm_compute; reflexivity. Qed.

(** [s["m", 1, [2, 1]] = [1, 2, 3]] stores 3 and 2. *)
Example ints_write_example : exists st1 r1, NoDup [2; 1] /\
  set exM exM_c [PStr "m"; PInt 1; PLst (map KI [2; 1])] (PayList [PayNum 1; PayNum 2; PayNum 3]) (numbered 13) = (st1, Ok r1) /\
  ps_master st1 = [100; 101; 102; 103; 104; 105; 106; 107; 108; 2; 2; 3; 3].
Proof. eexists _, _. split; [repeat constructor; simpl; intuition lia|]. repeat (split; [vm_compute; reflexivity|]). vm_compute; reflexivity. Qed.

(** [s["m", 1, sl] = s["m", 1, sl]]: the identity for [:2], a reversal for [::-1], rejected for
    [1:] after the element 1 has been overwritten by the element 2. *)
Example slice_back_example : exists R1 R2 R3 r1 r2 st2 st3,
  py_slice_positions 3 (Slc None (Some 2) None) = pyrange 2 /\
  py_slice_positions 3 (Slc None None (Some (-1))) = rev (pyrange 3) /\
  py_slice_positions 3 (Slc (Some 1) None None) = [1; 2] /\
  get exM exM_c [PStr "m"; PInt 1; PSlc (Slc None (Some 2) None)] (numbered 13) = Ok R1 /\
  set exM exM_c [PStr "m"; PInt 1; PSlc (Slc None (Some 2) None)] (pay_of R1) (numbered 13) = (numbered 13, Ok r1) /\
  get exM exM_c [PStr "m"; PInt 1; PSlc (Slc None None (Some (-1)))] (numbered 13) = Ok R2 /\
  set exM exM_c [PStr "m"; PInt 1; PSlc (Slc None None (Some (-1)))] (pay_of R2) (numbered 13) = (st2, Ok r2) /\
  ps_master st2 = [100; 101; 102; 103; 104; 105; 106; 111; 112; 109; 110; 107; 108] /\
  get exM exM_c [PStr "m"; PInt 1; PSlc (Slc (Some 1) None None)] (numbered 13) = Ok R3 /\
  set exM exM_c [PStr "m"; PInt 1; PSlc (Slc (Some 1) None None)] (pay_of R3) (numbered 13) = (st3, Err EException) /\
  ps_master st3 = [100; 101; 102; 103; 104; 105; 106; 107; 108; 111; 112; 111; 112].
Proof. eexists _, _, _, _, _, _, _. repeat (split; [vm_compute; reflexivity|]). vm_compute; reflexivity. Qed.

(** [s["m", 2]] and [s["m", -3]] raise; [s["z", 7]] does not when the second dimension of "z" is 0. *)
Example prefix_example :
  ~ Forall2 (fun i d => - d <= i < d) [2] [2] /\ Forall (fun d => 0 < d) [3] /\
  get exM exM_c [PStr "m"; PInt 2] (numbered 13) = Err EException /\
  get exM exM_c [PStr "m"; PInt (-3)] (numbered 13) = Err EException /\
  set exM exM_c [PStr "m"; PInt 2] (PayNum 5) (numbered 13) = (numbered 13, Err EException) /\
  get exM exM_c [PStr "m"; PInt (-2)] (numbered 13) = Ok (RList [RMat (col [101; 102]); RMat (col [103; 104]); RMat (col [105; 106])]) /\
  get ex0 (built ex0) [PStr "z"; PInt 7] (numbered 1) = Ok (RList []).
Proof.
  split. { intros H. inversion H; subst. lia. } split; [repeat constructor; lia|].
  repeat (split; [vm_compute; reflexivity|]). vm_compute; reflexivity.
Qed.

(** [s["P"] = M] on a symmetric "P" of a structure whose "x" takes the first two elements:
    [s.i["P"]] lists the elements 2, 3 and 4; "x" is not changed. *)
Example frame_symm_example : exists st' r,
  @no_fun Z [PStr "P"] /\ @names_end Z [PStr "P"] /\
  i_get 0 exP [PStr "P"] = Ok (RIdx (DM (sp_upper 2) [2; 3; 4]%nat)) /\
  set exP exP_c [PStr "P"] (PayMat (DM (sp_dense 2 2) [1; 2; 2; 3])) (numbered 5) = (st', Ok r) /\
  ps_master st' = [100; 101; 1; 2; 3] /\ InSymm exP exP_c 3 /\ ~ InSymm exP exP_c 1.
Proof.
  eexists _, _. split; [repeat constructor|]. split; [repeat constructor|]. repeat (split; [vm_compute; reflexivity|]).
  split.
  - exists [KS "P"], eP. eexists. split; [exact eP_At|]. split; [reflexivity|]. split; [vm_compute; reflexivity|]. right; left; reflexivity.
  - intros (ci & e & m & Ha & Hs & Hm & Hk). inversion Ha as [s0 e0 idx He Hd E1|s0 e0 idx s' ci1 e1 He Es Hd Ha1 E1]; subst.
    + destruct He as [<-|[<-|[]]]; [discriminate|]. inversion Hd; subst. vm_compute in Hm. injection Hm as <-. cbn in Hk. lia.
    + destruct He as [<-|[<-|[]]]; discriminate.
Qed.
