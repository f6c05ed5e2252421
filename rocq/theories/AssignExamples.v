(** Concrete objects meeting the hypotheses of C101, and the witness of the refuted statement. *)
From Coq Require Import Permutation.
From Verif Require Import PyBase IndexModel DMModel StructModel StructSpec PowerModel PowerSpec
  IndexProofs StructProofs LayoutProofs LayoutThms LayoutExamples DMProofs PowerProofs PowerThms PowerExamples ReadSpec AssignSpec AssignThms.
Open Scope list_scope. Open Scope Z_scope.

Lemma ex3_NoSymm : NoSymm ex3.
Proof. constructor; [intros e [<-|[<-|[]]]; reflexivity|intros e s' [<-|[<-|[]]] E; discriminate]. Qed.

(** [s[{}] = {'y': 7, 'x': [1, 2, 3]}] on [x] repeated three times and [y] of shape 2 x 2. *)
Definition a_pay : pay Z := PayDict [("y", PayNum 7); ("x", PayList [PayNum 1; PayNum 2; PayNum 3])].
Definition a_pos : rval Z := Eval vm_compute in match idx ex3 [PDict] with Ok r => r | Err _ => RNone end.
Definition one (x : Z) : rval Z := RMat (DM (sp_dense 1 1) [x]).
Definition a_read : rval Z := RDict [("x", RList [one 1; one 2; one 3]); ("y", RMat (DM (sp_dense 2 2) [7; 7; 7; 7]))].

Lemma a_receives v : Receives 0 v a_pos a_pay a_read.
Proof.
  apply Rc_dict; [repeat constructor; simpl; intuition discriminate|simpl; tauto|].
  constructor; [split; [reflexivity|]; left; eexists; split; [reflexivity|]|].
  - apply Rc_list. repeat constructor; eexists; (split; [reflexivity|]); cbn [fst snd];
      match goal with |- AssignSpec.Receives _ _ (RIdx ?m) (PayNum ?x) _ => exact (Rc_mat 0 v m (PayNum x) (dm_scalar x) I eq_refl (or_introl eq_refl)) end.
  - constructor; [|constructor]. split; [reflexivity|]. left. eexists. split; [reflexivity|]. cbn [fst snd].
    match goal with |- AssignSpec.Receives _ _ (RIdx ?m) (PayNum ?x) _ => exact (Rc_mat 0 v m (PayNum x) (dm_scalar x) I eq_refl (or_introl eq_refl)) end.
Qed.

Example C101_example : Obj ex3 ex3_c (numbered 7) /\ NoSymm ex3 /\ @initial Z [PDict] /\ @no_set Z [PDict] /\
  i_get 0 ex3 [PDict] = Ok a_pos /\ NoDup (positions a_pos) /\ PayOk a_pay /\ Receives 0 (ps_master (numbered 7)) a_pos a_pay a_read /\
  snd (set ex3 ex3_c [PDict] a_pay (numbered 7)) <> Err EException /\
  get ex3 ex3_c [PDict] (fst (set ex3 ex3_c [PDict] a_pay (numbered 7))) = Ok a_read /\
  ps_master (fst (set ex3 ex3_c [PDict] a_pay (numbered 7))) = [1; 2; 3; 7; 7; 7; 7].
Proof.
  split; [exact ex3_Obj|]. split; [exact ex3_NoSymm|]. split; [repeat constructor|]. split; [repeat constructor|].
  split; [vm_compute; reflexivity|]. split; [vm_compute; repeat constructor; simpl; intuition discriminate|].
  split; [repeat constructor; simpl; intuition discriminate|]. split; [apply a_receives|].
  split; [vm_compute; discriminate|]. split; vm_compute; reflexivity.
Qed.

(** Part of the entries: the others keep their values. *)
Example C101_partial_dict : get ex3 ex3_c [PDict] (fst (set ex3 ex3_c [PDict] (PayDict [("x", PayNum 9)]) (numbered 7))) =
  Ok (RDict [("x", RList [one 9; one 9; one 9]); ("y", RMat (DM (sp_dense 2 2) [103; 104; 105; 106]))]).
Proof. vm_compute. reflexivity. Qed.

(** A list that is too short suits nothing and raises. *)
Example C101_too_short : Forall (fun r => r = Err EException) [snd (set ex3 ex3_c [PStr "x"] (PayList [PayNum 1; PayNum 2]) (numbered 7))] /\
  forall v R, ~ Receives 0 v (RList [RIdx (DM (sp_dense 1 1) [0%nat]); RIdx (DM (sp_dense 1 1) [1%nat]); RIdx (DM (sp_dense 1 1) [2%nat])]) (PayList [PayNum 1; PayNum 2]) R.
Proof.
  split; [constructor; [vm_compute; reflexivity|constructor]|]. intros v R H. inversion H as [|l p L F| |]; subst. simpl in F.
  inversion F as [|? ? ? ? _ F1]; subst. inversion F1 as [|? ? ? ? _ F2]; subst. inversion F2 as [|? ? ? ? F3 _]; subst. destruct F3 as (q & E & _). discriminate.
Qed.

(** Copying through nesteddict, on a nested structure of 23 elements. *)
Definition zeros (n : nat) : pstate Z := PState (repeat 0 n) [] [].
Example C101_nest_example : Obj ex ex_c ex_st /\ Obj ex ex_c (zeros 23) /\ NoSymm ex /\
  exists R st' x, get ex ex_c [PNest] ex_st = Ok R /\ set ex ex_c [PNest] (pay_of R) (zeros 23) = (st', Ok x) /\ ps_master st' = ps_master ex_st.
Proof.
  split; [exact ex_Obj|]. split; [split; [exact ex_Wf|vm_compute; reflexivity|reflexivity]|]. split; [exact ex_NoSymm|].
  eexists _, _, _. split; [vm_compute; reflexivity|]. split; vm_compute; reflexivity.
Qed.

(** A set of names ignores the keys of the right-hand side that it does not contain. *)
Lemma set_keys_refuted : exists s c (st st' : pstate Z) pi r p x,
  Obj s c st /\ NoSymm s /\ initial pi /\ i_get 0 s pi = Ok r /\ NoDup (positions r) /\ PayOk p /\
  setitem 0 s (num_env c) pi p st = (st', Ok x) /\ ~ exists R, Receives 0 (ps_master st) r p R.
Proof.
  exists ex3, ex3_c, (numbered 7). eexists. exists [PSet ["x"]]. eexists. exists (PayDict [("x", PayNum 1); ("z", PayNum 2)]). eexists.
  split; [exact ex3_Obj|]. split; [exact ex3_NoSymm|]. split; [repeat constructor; simpl; tauto|]. split; [vm_compute; reflexivity|].
  split; [vm_compute; repeat constructor; simpl; intuition discriminate|]. split; [repeat constructor; simpl; intuition discriminate|].
  split; [vm_compute; reflexivity|]. intros (R & H). inversion H as [| |l kv L H1 H2 H3|l p L H1 H2]; subst; [|contradiction].
  destruct (H2 "z"%string) as [E|[]]; [simpl; auto|]. discriminate.
Qed.
