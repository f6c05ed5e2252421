(** Concrete objects for the theorems about [s.f], reads, [getStruct] and symbolic structures
    (C76-C79). *)
From Coq Require Import Permutation.
From Verif Require Import PyBase IndexModel DMModel StructModel StructSpec PowerModel PowerSpec ReadSpec
  IndexProofs StructProofs LayoutProofs LayoutThms LayoutExamples DMProofs PowerProofs PowerThms SliceProofs PowerThms2 PowerThms3 PowerThms4 PowerThms5
  PowerExamples EntryModel EntrySpec EntryProofs StructsModel StructsSpec LabelModel SymModel SymSpec SimThms ReadThms SymThms.
Open Scope list_scope.
Open Scope Z_scope.

(** ** C76: s.f["b", :2, "q"] of the 23-element structure [ex] *)
Definition b_q : list (pel Z) := [PStr "b"; PSlc (Slc None (Some 2) None); PStr "q"].
Example C76_example : casadi_structure ex = Ok ex_c /\ no_fun b_q /\
  (exists r, i_get 0 ex b_q = Ok r /\ Listy r /\ AllDense r /\ positions r = [4; 5; 10; 11]%nat) /\ f_get 0 ex b_q = Ok (RFlat [4; 5; 10; 11]%nat).
Proof.
  split; [vm_compute; reflexivity|]. split; [repeat constructor|].
  assert (F : f_get 0 ex b_q = Ok (RFlat [4; 5; 10; 11]%nat)) by (vm_compute; reflexivity). split; [|exact F].
  assert (Hf : no_fun b_q) by repeat constructor.
  destruct (proj1 (f_lists_positions 0 ex ex_c b_q _ eq_refl Hf) F) as (r & H1 & H2 & H3 & H4). exists r. auto.
Qed.
(** s.f["c"] raises, because the entry 'c' is upper triangular; s.i["c"] is fine. *)
Theorem f_sparse_refuted : exists s c pi r, Wf s /\ casadi_structure s = Ok c /\ no_fun pi /\ i_get 0 s pi = Ok r /\ Listy r /\
  forall l, f_get 0 s pi <> Ok (@RFlat Z l).
Proof.
  exists ex, ex_c, [PStr "c"]. eexists. split; [exact ex_Wf|]. split; [reflexivity|]. split; [repeat constructor|]. split; [vm_compute; reflexivity|].
  split; [constructor|]. intros l. vm_compute. discriminate.
Qed.

(** ** C77: reading s["b", :2] *)
Example C77_example : Obj ex ex_c ex_st /\ NoSymm ex /\
  @no_fun Z [PStr "b"; PSlc (Slc None (Some 2) None); PDict] /\
  exists r R, i_get 0 ex [PStr "b"; PSlc (Slc None (Some 2) None); PDict] = Ok r /\
    get ex ex_c [PStr "b"; PSlc (Slc None (Some 2) None); PDict] ex_st = Ok R /\ Values (ps_master ex_st) r R /\ length (positions r) = 8%nat.
Proof.
  split; [exact ex_Obj|]. split; [exact ex_NoSymm|].
  assert (Hf : @no_fun Z [PStr "b"; PSlc (Slc None (Some 2) None); PDict]) by repeat constructor. split; [exact Hf|].
  destruct (i_get 0 ex [PStr "b"; PSlc (Slc None (Some 2) None); PDict]) as [r|] eqn:E; [|exfalso; vm_compute in E; discriminate].
  destruct (getitem_defined 0 ex ex_c ex_st _ r ex_Obj ex_NoSymm Hf E) as (R & H1 & H2). exists r, R. split; [reflexivity|]. split; [exact H1|]. split; [exact H2|].
  vm_compute in E. injection E as <-. reflexivity.
Qed.

(** ** C78 *)
Example C78_example : NoDup (map e_name (s_entries ex)) /\ getStruct ex "b" = Ok ex_sub /\ getStruct ex "a" = Err EException /\ getStruct ex "nope" = Err EAttr.
Proof. split; [apply Wf_NoDup, ex_Wf|]. vm_compute. auto. Qed.
Theorem getStruct_message_refuted : exists s name, Wf s /\ ~ In name (map e_name (s_entries s)) /\ getStruct s name <> Err EException.
Proof. exists ex, "nope"%string. split; [exact ex_Wf|]. split; [simpl; intuition discriminate|]. vm_compute. discriminate. Qed.

(** ** C79: symbols are numbered in order of creation and carry a name. *)
Definition sx := (nat * string)%type.
Definition sx0 : sx := (0%nat, ""%string).
Definition new (k : nat) (n : string) : sx := (k, n).
Definition user (k : nat) : sx := (1000 + k, "u")%nat.
(** entry("x", repeat=2), entry("y", shape=2), entry("z", sym=Z) with Z of shape 1 x 2 *)
Definition sym_Z : dm sx := DM (sp_dense 1 2) [user 0; user 1].
Definition sym_items : list (item_arg sx) :=
  [IOne (AEntry (CEntry (mkEntry "x" [2] None (sp_dense 1 1) false None None) None None));
   IOne (AEntry (CEntry (mkEntry "z" [] None (sp_dense 1 2) false None None) (Some sym_Z) None));
   IOne (AEntry (CEntry (mkEntry "y" [] None (sp_dense 2 1) false None None) None None))].
Example C79_items_ok : items_ok sym_items.
Proof.
  intros it [<-|[<-|[<-|[]]]]; simpl; (split; [|discriminate]); apply SpOk_dense.
Qed.
Example C79_fits : forall ce m, In ce (arg_entries sym_items) -> ce_sym ce = Some m -> sym_fits ce m.
Proof.
  intros ce m [<-|[<-|[<-|[]]]] E; try discriminate. injection E as <-. split; [reflexivity|]. split; [reflexivity|]. split; [apply SpOk_dense|]. split; [reflexivity|]. left. auto.
Qed.
Example C79_example : exists o, struct_symSX sx0 new sym_items None = Ok o /\
  so_cat o = [new 0 "x_0"; new 1 "x_1"; user 0; user 1; new 4 "y_0"; new 5 "y_1"] /\
  so_get sx0 o [PStr "z"] = Ok (RMat sym_Z) /\
  so_get sx0 o [PStr "x"] = Ok (RList [RMat (DM (sp_dense 1 1) [new 0 "x_0"]); RMat (DM (sp_dense 1 1) [new 1 "x_1"])]).
Proof. eexists. split; [vm_compute; reflexivity|]. vm_compute. auto. Qed.
Example C79_order : OrderOk sym_items (Some [OName "y"; OGroup ["z"; "x"]]) /\ ~ grouped sym_items /\
  exists o, struct_symSX sx0 new sym_items (Some [OName "y"; OGroup ["z"; "x"]]) = Ok o /\
  so_cat o = [new 0 "y_0"; new 1 "y_1"; user 0; user 1; new 4 "x_0"; new 5 "x_1"].
Proof.
  split. { intros o [= <-]. apply NoDup_Permutation; [repeat constructor; simpl; intuition discriminate..|]. simpl. tauto. }
  split. { intros [g [E|[E|[E|[]]]]]; discriminate. }
  eexists. split; vm_compute; reflexivity.
Qed.
Example C79_entry : entry_init "z" [("sym"%string, VSX true sym_Z)] = Ok (CEntry (mkEntry "z" [] None (sp_dense 1 2) false None None) (Some sym_Z) None).
Proof. reflexivity. Qed.

(** entry("P", sym=P, type="symm"): the symbols below the diagonal are dropped. *)
Definition sym_P : dm sx := DM (sp_dense 2 2) [user 0; user 1; user 2; user 3].
Theorem symSX_symm_refuted : exists name (m : dm sx) ce o, DmOk m /\ entry_init name [("sym"%string, VSX true m); ("type"%string, VStr "symm")] = Ok ce /\
  struct_symSX sx0 new [IOne (AEntry ce)] None = Ok o /\ so_get sx0 o [PStr name] <> Ok (RMat m).
Proof.
  exists "P"%string, sym_P. eexists. eexists. split; [split; [apply SpOk_dense|reflexivity]|]. split; [reflexivity|]. split; [vm_compute; reflexivity|].
  vm_compute. discriminate.
Qed.
(** entry("x", struct=S, sym=a) with a structure of three elements and one symbol: all
    elements are that symbol. *)
Definition three : structure := mkStruct [mk "p" [] (sp_dense 2 1); mk "q" [] (sp_dense 1 1)] [OName "p"; OName "q"].
Theorem symSX_broadcast_refuted : exists name s' (m : dm sx) ce o, Wf s' /\ DmOk m /\
  entry_init name [("struct"%string, VStructure s'); ("sym"%string, VSX true m)] = Ok ce /\
  struct_symSX sx0 new [IOne (AEntry ce)] None = Ok o /\ so_get sx0 o [PStr name] <> Ok (RMat m) /\ ~ NoDup (so_cat o).
Proof.
  exists "x"%string, three, (DM (sp_dense 1 1) [user 0]). eexists. eexists.
  split.
  { constructor.
    - repeat constructor; simpl; intuition discriminate.
    - reflexivity.
    - intros e [<-|[<-|[]]]; solve_spok2.
    - intros e s' [<-|[<-|[]]] E; discriminate. }
  split; [split; [apply SpOk_dense|reflexivity]|]. split; [reflexivity|]. split; [vm_compute; reflexivity|]. split; [vm_compute; discriminate|].
  vm_compute. intros H. inversion H as [|? ? H1 H2]. apply H1. now left.
Qed.
