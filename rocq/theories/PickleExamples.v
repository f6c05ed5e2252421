(** Concrete objects pickled together, and witnesses of what goes wrong (C80). *)
From Verif Require Import PyBase IndexModel DMModel StructModel StructSpec PowerModel PowerSpec EntryModel EntrySpec StructsModel PickleModel
  StructProofs LayoutProofs LayoutExamples PowerExamples StructsThms5 StructsExamples StructsExamples3 PickleSpec PickleThms.
Open Scope Z_scope.

(** The structure [ex7] has [ex4] as a sub-structure. *)
Definition pk_heap : heap Z := fun i => match i with
  | O => SDict ex4 [] false None
  | 1%nat => SDict ex7 [0%nat] false None
  | _ => SDict ex3 [] false None
  end.
Definition pk_v4 := [1; 2; 3; 4; 5; 6].
Definition pk_v7 := [0; 1; 2; 3; 4; 5; 6; 11; 12; 13; 14; 15; 16].
Lemma pk_closed : Closed pk_heap.
Proof. intros [|[|i]] j k; cbn; try tauto. intros [<-|[]]; cbn; tauto. Qed.
Lemma pk_fresh : Fresh pk_heap.
Proof. intros [|[|i]]; split; reflexivity. Qed.
Lemma pk_good0 k v : length v = 6%nat -> GoodObj pk_heap (PObj k 0 v).
Proof. intros H. exists ex4_c. split; [exact ex4_Wf|]. split; [vm_compute; reflexivity|]. intros _. exact H. Qed.
Lemma pk_good1 k v : length v = 13%nat -> GoodObj pk_heap (PObj k 1 v).
Proof. intros H. exists ex7_c. split; [exact ex7_Wf|]. split; [vm_compute; reflexivity|]. intros _. exact H. Qed.
Example C80_hyps : let os := [PObj ONum 0 pk_v4; PObj ONum 1 pk_v7; PObj OStruct 2 []] in
  Closed pk_heap /\ Separate pk_heap os /\ (forall o, In o os -> GoodObj pk_heap o /\ po_kind o <> OMut).
Proof.
  split; [exact pk_closed|]. split.
  - intros pre o post o' E Hin. destruct pre as [|a [|b [|c pre]]]; cbn in E; [destruct Hin| | |].
    + injection E as E1 E2 E3. subst. destruct Hin as [<-|[]]. unfold Reaches. cbn. intuition discriminate.
    + injection E as E1 E2 E3 E4. subst. destruct Hin as [<-|[<-|[]]]; unfold Reaches; cbn; intuition discriminate.
    + injection E as E1 E2 E3 E4. destruct pre; discriminate E4.
  - intros o [<-|[<-|[<-|[]]]]; (split; [|discriminate]).
    + now apply pk_good0.
    + now apply pk_good1.
    + exists ex3_c. split; [exact ex3_Wf|]. split; [vm_compute; reflexivity|discriminate].
Qed.
Example C80_example : exists o1 o2 c3, roundtrip pk_heap [PObj ONum 0 pk_v4; PObj ONum 1 pk_v7; PObj OStruct 2 []] = Ok [LNum o1; LNum o2; LStruct OStruct c3] /\
  so_cat o1 = pk_v4 /\ so_cat o2 = pk_v7 /\ so_get 0 o2 [PStr "b"; PInt 0; PStr "x"] = Ok (RMat (col [1; 2])).
Proof. eexists. eexists. eexists. split; [vm_compute; reflexivity|]. vm_compute. repeat split. Qed.
Example C80_same_hyps : GoodObj pk_heap (PObj ONum 0 pk_v4) /\ po_sid (PObj ONum 0 (repeat 0 6)) = po_sid (PObj ONum 0 pk_v4).
Proof. split; [now apply pk_good0|reflexivity]. Qed.

(** Two numeric structures of one structure: the second is restored with the values of the
    first. *)
Theorem pickle_same_structure_refuted : exists (h : heap Z) a b o1 o2,
  Closed h /\ Fresh h /\ GoodObj h a /\ GoodObj h b /\ po_kind a = ONum /\ po_kind b = ONum /\ po_data a <> po_data b /\
  roundtrip h [a; b] = Ok [LNum o1; LNum o2] /\ so_cat o2 = po_data a.
Proof.
  exists pk_heap, (PObj ONum 0 pk_v4), (PObj ONum 0 (repeat 0 6)). eexists. eexists.
  split; [exact pk_closed|]. split; [exact pk_fresh|]. split; [now apply pk_good0|]. split; [now apply pk_good0|].
  split; [reflexivity|]. split; [reflexivity|]. split; [vm_compute; discriminate|]. split; vm_compute; reflexivity.
Qed.
(** A structure (or a numeric structure) after one that has it as a sub-structure, or a
    numeric structure after its own structure: KeyError. *)
Theorem pickle_sub_structure_refuted : exists (h : heap Z) V a s b,
  Closed h /\ Fresh h /\ (forall o, In o [V; a; s; b] -> GoodObj h o) /\ po_kind V = ONum /\ po_kind a = ONum /\
  po_kind s = OStruct /\ po_kind b = ONum /\ po_sid b = po_sid s /\ po_sid a <> po_sid V /\
  roundtrip h [V; a] = Err EKey /\ roundtrip h [s; b] = Err EKey /\ roundtrip h [b; s] = Err EKey.
Proof.
  exists pk_heap, (PObj ONum 1 pk_v7), (PObj ONum 0 pk_v4), (PObj OStruct 0 []), (PObj ONum 0 (repeat 0 6)).
  split; [exact pk_closed|]. split; [exact pk_fresh|]. split.
  - intros o [<-|[<-|[<-|[<-|[]]]]]; [now apply pk_good1|now apply pk_good0| |now apply pk_good0].
    exists ex4_c. split; [exact ex4_Wf|]. split; [vm_compute; reflexivity|discriminate].
  - repeat split; try discriminate; vm_compute; reflexivity.
Qed.
(** What an earlier dump left behind is restored silently: here [a] was pickled alone, and
    then its structure together with [b]. *)
Theorem pickle_stale_refuted : exists (h : heap Z) a s b o1 l,
  Closed h /\ Fresh h /\ GoodObj h a /\ GoodObj h b /\ po_kind a = ONum /\ po_kind b = ONum /\ po_kind s = OStruct /\ po_data a <> po_data b /\
  roundtrip h [s; b] = Err EKey /\
  roundtrip (fst (dump h [a])) [s; b] = Ok [l; LNum o1] /\ so_cat o1 = po_data a.
Proof.
  exists pk_heap, (PObj ONum 0 pk_v4), (PObj OStruct 0 []), (PObj ONum 0 (repeat 0 6)). eexists. eexists.
  split; [exact pk_closed|]. split; [exact pk_fresh|]. split; [now apply pk_good0|]. split; [now apply pk_good0|].
  repeat split; try discriminate; vm_compute; reflexivity.
Qed.
(** struct_SX and struct_MX_mutable can be pickled but not restored. *)
Example C80_mutable_example : roundtrip pk_heap [PObj OMut 0 []] = Err EType.
Proof. vm_compute. reflexivity. Qed.
