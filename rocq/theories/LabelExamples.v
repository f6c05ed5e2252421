(** Concrete structures for the theorems about labels and canonical indices. *)
From Verif Require Import PyBase IndexModel DMModel StructModel StructSpec PowerModel PowerSpec LabelModel LabelSpec
  IndexProofs StructProofs LayoutProofs LayoutThms LayoutExamples DMProofs PowerProofs PowerThms SliceProofs PowerThms2 PowerThms3 PowerThms4 PowerThms5
  PowerExamples LabelThms.
Open Scope Z_scope.

(** The 23-element structure [ex]: its labels, and their being distinct. *)
Lemma ex_CommaFree : CommaFree ex.
Proof.
  constructor.
  - intros e [<-|[<-|[<-|[<-|[]]]]]; cbn; repeat split; discriminate.
  - intros e s' [<-|[<-|[<-|[<-|[]]]]] E; try discriminate. injection E as <-. constructor.
    + intros e [<-|[<-|[]]]; cbn; repeat split; discriminate.
    + intros e s' [<-|[<-|[]]] E; discriminate.
Qed.
Example C73_example :
  getLabel ex_c 5 1 = Ok "[b,0,q,1,0]"%string /\ getLabel ex_c 17 2 = Ok "[c,1,0]"%string /\
  getLabel ex_c 17 0 = Ok "[c]"%string /\ getLabel ex_c 23 1 = Err EException.
Proof. vm_compute. auto. Qed.
Example C73_example_distinct : exists l, labels ex_c 1 = Ok l /\ length l = 23%nat /\ NoDup l.
Proof.
  destruct (labels_distinct ex ex_c 1 ex_Wf ex_CommaFree eq_refl ltac:(discriminate)) as (l & H1 & H2 & H3 & _). eauto.
Qed.

(** An entry 'a' repeated twice beside an entry named 'a,0'. *)
Definition exC : structure :=
  mkStruct [mk "a" [2] (sp_dense 1 1); mk "a,0" [] (sp_dense 1 1)] [OName "a"; OName "a,0"].
Definition exC_c : cstruct := Eval vm_compute in built exC.
Lemma exC_Wf : Wf exC.
Proof.
  constructor.
  - repeat constructor; simpl; intuition discriminate.
  - reflexivity.
  - intros e [<-|[<-|[]]]; solve_spok2.
  - intros e s' [<-|[<-|[]]] E; discriminate.
Qed.
Lemma labels_comma_refuted : exists s c i j l, Wf s /\ casadi_structure s = Ok c /\ i <> j /\
  getLabel c i 1 = Ok l /\ getLabel c j 1 = Ok l.
Proof.
  exists exC, exC_c, 0, 2, "[a,0,0]"%string. split; [exact exC_Wf|]. split; [reflexivity|]. split; [discriminate|]. split; vm_compute; reflexivity.
Qed.
(** Without extra indices the labels of one leaf are all the same. *)
Lemma labels_mode0_refuted : exists s c i j l, Wf s /\ CommaFree s /\ casadi_structure s = Ok c /\ i <> j /\
  getLabel c i 0 = Ok l /\ getLabel c j 0 = Ok l.
Proof.
  exists ex, ex_c, 0, 1, "[a,0]"%string. split; [exact ex_Wf|]. split; [exact ex_CommaFree|]. split; [reflexivity|]. split; [discriminate|]. split; vm_compute; reflexivity.
Qed.

Example C72_example :
  getCanonicalIndex ex_c 5 0 = Ok [KS "b"; KI 0; KS "q"; KI 1] /\ getCanonicalIndex ex_c 5 1 = Ok [KS "b"; KI 0; KS "q"; KI 1; KI 0] /\
  get ex ex_c (pidx [KS "b"; KI 0; KS "q"; KI 1; KI 0]) ex_st = Ok (RMat (dm_scalar 105)) /\
  Leaf ex [KS "b"; KI 0; KS "q"; KI 1] (mk "q" [2] (sp_dense 1 1)) /\
  getCanonicalIndex ex_c 17 2 = Ok [KS "c"; KI 1; KI 0] /\
  get ex ex_c (pidx [KS "c"; KI 0; KI 1]) ex_st = Ok (RMat (dm_scalar 117)) /\
  getCanonicalIndex ex_c 18 2 = Ok [KS "c"; KI 1; KI 1] /\
  get ex ex_c (pidx [KS "c"; KI 1; KI 1]) ex_st = Ok (RMat (dm_scalar 118)).
Proof.
  repeat match goal with |- _ /\ _ => split end; try (vm_compute; reflexivity).
  apply (Leaf_sub ex (mks "b" [3] ex_sub) [0] ex_sub [KS "q"; KI 1] _); [right; left; reflexivity|reflexivity|repeat constructor; lia|].
  apply (Leaf_prim ex_sub (mk "q" [2] (sp_dense 1 1)) [1]); [right; left; reflexivity|reflexivity|repeat constructor; lia].
Qed.

(** Mode 1 on a sparse leaf: the extra index counts nonzeros, the power index counts
    elements.  Component 17 of [ex] is the element (0, 1) of the upper-triangular entry
    'c', its index ('c', 1) reads the structurally empty element (1, 0); component 18 is
    read as 117. *)
Lemma index1_sparse_refuted : exists s c (st : pstate Z) i t x y,
  Obj s c st /\ getCanonicalIndex c i 1 = Ok t /\ nth_error (ps_master st) (Z.to_nat i) = Some x /\
  get s c (pidx t) st = Ok (RMat (dm_scalar y)) /\ x <> y.
Proof.
  exists ex, ex_c, ex_st, 18, [KS "c"; KI 2], 118, 117. split; [exact ex_Obj|].
  repeat match goal with |- _ /\ _ => split end; try (vm_compute; reflexivity). discriminate.
Qed.
(** Mode 2 returns (column, row): the second element of a column vector cannot be read. *)
Lemma index2_refuted : exists s c (st : pstate Z) i t,
  Obj s c st /\ getCanonicalIndex c i 2 = Ok t /\ get s c (pidx t) st = Err EException.
Proof.
  exists ex, ex_c, ex_st, 1, [KS "a"; KI 0; KI 0; KI 1]. split; [exact ex_Obj|]. split; vm_compute; reflexivity.
Qed.
(** ... and in a square entry another component is read. *)
Lemma index2_transposed_refuted : exists s c (st : pstate Z) i t x y,
  Obj s c st /\ getCanonicalIndex c i 2 = Ok t /\ nth_error (ps_master st) (Z.to_nat i) = Some x /\
  get s c (pidx t) st = Ok (RMat (dm_scalar y)) /\ x <> y.
Proof.
  exists ex3, ex3_c, (numbered 7), 4, [KS "y"; KI 0; KI 1], 104, 105. split; [exact ex3_Obj|].
  repeat match goal with |- _ /\ _ => split end; try (vm_compute; reflexivity). discriminate.
Qed.
