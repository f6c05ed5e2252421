(** Concrete structures for the theorems about printed forms. *)
From Coq Require Import Ascii.
From Verif Require Import PyBase IndexModel DMModel StructModel StructSpec PowerModel EntryModel LabelModel LabelSpec StrModel StrSpec
  IndexProofs StructProofs LayoutProofs LayoutThms LayoutExamples DMProofs PowerProofs PowerThms PowerExamples LabelThms StrThms.
Open Scope Z_scope.

(** [sub = struct([entry('p', shape=(2,1)), entry('q')])] and
    [struct([entry('x', shape=(2,3), repeat=2), (entry('s', struct=sub, repeat=[2,3]), entry('P', shape=(3,3), type='symm'))])] *)
Definition pl_sub : structure := mkStruct [mk "p" [] (sp_dense 2 1); mk "q" [] (sp_dense 1 1)] [OName "p"; OName "q"].
Definition pl : structure :=
  mkStruct [mk "x" [2] (sp_dense 2 3); mkEntry "s" [2; 3] (Some pl_sub) (sp_dense 1 1) false None None;
            mkEntry "P" [] None (sp_upper 3) true (Some (sp_dense 3 3)) None]
           [OName "x"; OGroup ["s"; "P"]].
Lemma pl_sub_Plain : Plain pl_sub.
Proof.
  constructor.
  - repeat constructor; simpl; intuition discriminate.
  - intros e [<-|[<-|[]]]; (split; [repeat split|split; [reflexivity|]]; cbn; split; [eexists; eexists; reflexivity|reflexivity]).
  - intros e s [<-|[<-|[]]] E; discriminate.
  - intros n [<-|[<-|[]]]; repeat split.
Qed.
Lemma pl_Plain : Plain pl.
Proof.
  constructor.
  - repeat constructor; simpl; intuition discriminate.
  - intros e [<-|[<-|[<-|[]]]]; (split; [repeat split|split; [reflexivity|]]; cbn).
    + split; [eexists; eexists; reflexivity|reflexivity].
    + auto.
    + exists 3%nat. auto.
  - intros e s [<-|[<-|[<-|[]]]] E; try discriminate. injection E as <-. split; [exact pl_sub_Plain|reflexivity].
  - intros n [<-|[<-|[<-|[]]]]; repeat split.
Qed.
Example C86_example : exists c, casadi_structure pl = Ok c /\
  str_casadi c = ("Structure with total size 36." ++ nl ++ "Structure holding 3 entries." ++ nl ++ "  Order: ['x', ('s', 'P')]" ++ nl ++
    "  x = repeated([2]): 2x3" ++ nl ++ "  s = repeated([2, 3]): {p: 2x1,q: 1x1}" ++ nl ++ "  P = symm(3x3)" ++ nl)%string.
Proof. eexists. split; [vm_compute; reflexivity|vm_compute; reflexivity]. Qed.
Example C86_example_compact : str_structured "symbolic SX" (built pl) true = "symbolic SX ({x: repeated([2]): 2x3,s: repeated([2, 3]): {p: 2x1,q: 1x1},P: symm(3x3)})"%string.
Proof. vm_compute. reflexivity. Qed.
Example C86_example_entry : exists e : centry Z,
  entry_init "x" [("repeat"%string, VList [VInt 2]); ("shape"%string, VTuple [VInt 2; VInt 3])] = Ok e /\ ce_entry e = mk "x" [2] (sp_dense 2 3).
Proof. eexists. split; vm_compute; reflexivity. Qed.
Example C86_example_symm : exists e : centry Z,
  entry_init "P" [("shape"%string, VTuple [VInt 3; VInt 3]); ("type"%string, VStr "symm")] = Ok e /\ ce_entry e = mkEntry "P" [] None (sp_upper 3) true (Some (sp_dense 3 3)) None.
Proof. eexists. split; vm_compute; reflexivity. Qed.

(** Sub-structures with another order print in the same way, but are laid out differently. *)
Definition pl_sub' : structure := mkStruct [mk "p" [] (sp_dense 2 1); mk "q" [] (sp_dense 1 1)] [OName "q"; OName "p"].
Definition outer (s : structure) : structure := mkStruct [mkEntry "s" [] (Some s) (sp_dense 1 1) false None None] [OName "s"].
Lemma outer_Wf s : Wf s -> Wf (outer s).
Proof.
  intros H. constructor.
  - repeat constructor; simpl; intuition discriminate.
  - reflexivity.
  - intros e [<-|[]]; solve_spok2.
  - intros e s' [<-|[]] E. injection E as <-. exact H.
Qed.
Lemma sub_Wf : Wf pl_sub /\ Wf pl_sub'.
Proof.
  split; (constructor; [repeat constructor; simpl; intuition discriminate| |intros e [<-|[<-|[]]]; solve_spok2|intros e s' [<-|[<-|[]]] E; discriminate]).
  - reflexivity.
  - apply Permutation.perm_swap.
Qed.
Theorem print_order_refuted : exists s s' c c' ci, Wf s /\ Wf s' /\ casadi_structure s = Ok c /\ casadi_structure s' = Ok c' /\
  str_casadi c = str_casadi c' /\ cmap_get ci (cs_map c) = Some (DM (sp_dense 2 1) [0%nat; 1%nat]) /\ cmap_get ci (cs_map c') = Some (DM (sp_dense 2 1) [1%nat; 2%nat]).
Proof.
  exists (outer pl_sub), (outer pl_sub'), (built (outer pl_sub)), (built (outer pl_sub')), [KS "s"; KS "p"].
  split; [apply outer_Wf, sub_Wf|]. split; [apply outer_Wf, sub_Wf|]. repeat (split; [vm_compute; reflexivity|]). vm_compute. reflexivity.
Qed.

(** Patterns are not printed: an upper and a lower triangle, and with [repr] even structures of
    different sizes. *)
Definition low2 : spy := Spy 2 2 [(0%nat, 0%nat); (1%nat, 0%nat); (1%nat, 1%nat)].
Definition one (sp : spy) : structure := mkStruct [mk "x" [] sp] [OName "x"].
Lemma one_Wf sp : SpOk sp -> Wf (one sp).
Proof.
  intros H. constructor.
  - repeat constructor; simpl; intuition discriminate.
  - reflexivity.
  - intros e [<-|[]]. exact H.
  - intros e s' [<-|[]] E. discriminate.
Qed.
Theorem print_pattern_refuted : exists s s' c c', Wf s /\ Wf s' /\ casadi_structure s = Ok c /\ casadi_structure s' = Ok c' /\
  str_casadi c = str_casadi c' /\ getCanonicalIndex c 1 2 = Ok [KS "x"; KI 1; KI 0] /\ getCanonicalIndex c' 1 2 = Ok [KS "x"; KI 0; KI 1].
Proof.
  exists (one (sp_upper 2)), (one low2), (built (one (sp_upper 2))), (built (one low2)).
  split; [apply one_Wf; solve_spok2|]. split; [apply one_Wf; solve_spok2|]. repeat (split; [vm_compute; reflexivity|]). vm_compute. reflexivity.
Qed.
Theorem repr_size_refuted : exists s s' c c', Wf s /\ Wf s' /\ casadi_structure s = Ok c /\ casadi_structure s' = Ok c' /\
  repr_casadi c = repr_casadi c' /\ cs_size c = 3%nat /\ cs_size c' = 4%nat.
Proof.
  exists (one (sp_upper 2)), (one (sp_dense 2 2)), (built (one (sp_upper 2))), (built (one (sp_dense 2 2))).
  split; [apply one_Wf; solve_spok2|]. split; [apply one_Wf; solve_spok2|]. repeat (split; [vm_compute; reflexivity|]). vm_compute. reflexivity.
Qed.
