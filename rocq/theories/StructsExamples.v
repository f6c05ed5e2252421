(** Concrete objects meeting the hypotheses of the theorems about structure objects, and
    witnesses of the refuted statements (C20-C22, C35). *)
From Verif Require Import PyBase IndexModel DMModel StructModel StructSpec PowerModel PowerSpec
  IndexProofs StructProofs LayoutProofs LayoutThms LayoutExamples DMProofs PowerProofs PowerThms SliceProofs PowerThms2 PowerThms3 PowerThms4
  PowerThms5 PowerExamples EntryModel EntrySpec EntryProofs StructsModel StructsSpec StructsThms1 StructsThms2 StructsThms3.
Open Scope Z_scope.

(** ** C20: every entry of [ex] given, with a list, a scalar, a matrix and a nested list *)
Definition ex_kv : list (string * pay Z) :=
  [("c"%string, PayNum 7); ("a"%string, PayList [PayMat (col [1; 2]); PayMat (col [3; 4])]);
   ("b"%string, PayList [PayMat (col [11; 12; 13; 14]); PayNum 5; PayMat (col [31; 32; 33; 34])]);
   ("d"%string, PayList [PayList [PayNum 41; PayNum 42]; PayNum 43])].
Example C20_hyps : Wf ex /\ casadi_structure ex = Ok ex_c /\ (forall e, In e (s_entries ex) -> e_symm e = false) /\
  NoDup (map fst ex_kv) /\ (forall k v, In (k, v) ex_kv -> PayOk v).
Proof.
  split; [exact ex_Wf|]. split; [vm_compute; reflexivity|].
  split; [intros e [<-|[<-|[<-|[<-|[]]]]]; reflexivity|].
  split; [repeat constructor; simpl; intuition discriminate|].
  assert (H : forall l, DmOk (col l)) by (intros l; apply dm_col_ok).
  intros k v [[= <- <-]|[[= <- <-]|[[= <- <-]|[[= <- <-]|[]]]]]; simpl; auto 10.
Qed.
Example C20_example : exists o, call_struct 0 (-1) ex_c (CDict ex_kv) = Ok o /\
  so_get 0 o (pidx (top "b" [1])) = Ok (RMat (col [5; 5; 5; 5])) /\
  so_get 0 o (pidx (top "a" [0])) = Ok (RMat (col [1; 2])) /\
  so_get 0 o (pidx (top "d" [0; 1])) = Ok (RMat (col [42])) /\
  so_get 0 o (pidx (top "d" [1; 1])) = Ok (RMat (col [43])) /\
  so_cat o = [1; 2; 11; 12; 13; 14; 3; 4; 5; 5; 5; 5; 31; 32; 33; 34; 7; 7; 7; 41; 42; 43; 43].
Proof. eexists. split; [vm_compute; reflexivity|]. vm_compute. repeat split; reflexivity. Qed.
Example C20_missing : call_struct 0 (-1) ex_c (CDict (tl ex_kv)) = Err EException /\
  ~ (forall k, In k (map fst (tl ex_kv)) <-> In k (map e_name (s_entries ex))).
Proof.
  split; [vm_compute; reflexivity|]. intros H. specialize (proj2 (H "c"%string)). simpl. intros H'.
  destruct H' as [E|[E|[E|[]]]]; [auto|discriminate..].
Qed.
Example C20_extra : call_struct 0 (-1) ex_c (CDict (("zz"%string, PayNum 1) :: ex_kv)) = Err EException.
Proof. vm_compute. reflexivity. Qed.

(** ** C21 *)
Example C21_example : exists o, call_struct 0 (-1) ex3_c (CMat (col [1; 2; 3; 4; 5; 6; 7])) = Ok o /\
  so_cat o = [1; 2; 3; 4; 5; 6; 7] /\ so_get 0 o (pidx [KS "y"]) = Ok (RMat (DM (sp_dense 2 2) [4; 5; 6; 7])).
Proof. eexists. split; [vm_compute; reflexivity|]. vm_compute. split; reflexivity. Qed.
Example C21_example_scalar : exists o, call_struct 0 (-1) ex3_c (CMat (dm_scalar 9)) = Ok o /\ so_cat o = [9; 9; 9; 9; 9; 9; 9].
Proof. eexists. split; vm_compute; reflexivity. Qed.
(** A structure whose only entry has no elements *)
Definition ex0_s : structure := mkStruct [mk "n" [] (sp_dense 0 1)] [OName "n"].
Definition ex0_c : cstruct := Eval vm_compute in built ex0_s.
Example C21_example_empty : cs_size ex0_c = 0%nat /\ (exists o, call_struct 0 (-1) ex0_c (CMat (DM (sp_dense 0 3) [])) = Ok o /\ so_cat o = []) /\
  call_struct 0 (-1) ex0_c (CMat (col [1; 2])) = Err EException.
Proof. split; [reflexivity|]. split; [eexists; split; vm_compute; reflexivity|vm_compute; reflexivity]. Qed.
Example C21_example_bad : call_struct 0 (-1) ex3_c (CMat (col [1; 2])) = Err EException /\
  call_struct 0 (-1) ex3_c (CMat (DM (sp_dense 1 7) [1; 2; 3; 4; 5; 6; 7])) = Err EException.
Proof. split; vm_compute; reflexivity. Qed.

(** ** C22 *)
Definition ex4 : structure := mkStruct [mk "x" [] (sp_dense 2 1); mk "y" [] (sp_dense 2 2)] [OName "x"; OName "y"].
Definition ex4_c : cstruct := Eval vm_compute in built ex4.
Lemma ex4_Wf : Wf ex4.
Proof.
  constructor.
  - repeat constructor; simpl; intuition discriminate.
  - reflexivity.
  - intros e [<-|[<-|[]]]; solve_spok2.
  - intros e s' [<-|[<-|[]]] E; discriminate.
Qed.
Example C22_hyps : Wf ex4 /\ casadi_structure ex4 = Ok ex4_c /\ (0 < 3)%nat /\
  (forall e, In e (s_entries ex4) -> e_dims e = [] /\ e_symm e = false /\ exists m, i_get 0 ex4 [PStr (e_name e)] = Ok (@RIdx Z m)).
Proof.
  split; [exact ex4_Wf|]. split; [vm_compute; reflexivity|]. split; [lia|].
  intros e [<-|[<-|[]]]; (split; [reflexivity|]; split; [reflexivity|]; eexists; vm_compute; reflexivity).
Qed.
Definition ex4_data (i j : nat) : Z := Z.of_nat (10 * j + i).
Example C22_example : parse_matrix 0 (-1) ex4_c (A2 6 3 ex4_data) =
  Ok [("x"%string, DM (sp_dense 2 3) [0; 1; 10; 11; 20; 21]);
      ("y"%string, DM (sp_dense 2 6) [2; 3; 4; 5; 12; 13; 14; 15; 22; 23; 24; 25])].
Proof. vm_compute. reflexivity. Qed.
Example C22_example_bad : parse_matrix 0 (-1) ex4_c (A2 5 3 ex4_data) = Err EException.
Proof. vm_compute. reflexivity. Qed.

(** Data with a single row, and one-dimensional data, are not rejected although the
    structure has six elements: every element is broadcast over a whole column. *)
Theorem parse_one_row_refuted : exists s c nc (f : nat -> nat -> Z) r,
  Wf s /\ casadi_structure s = Ok c /\ cs_size c <> 1%nat /\ parse_matrix 0 (-1) c (A2 1 nc f) = Ok r /\
  r = [("x"%string, DM (sp_dense 2 2) [f 0%nat 0%nat; f 0%nat 0%nat; f 0%nat 1%nat; f 0%nat 1%nat]);
       ("y"%string, DM (sp_dense 2 4) (repeat (f 0%nat 0%nat) 4 ++ repeat (f 0%nat 1%nat) 4))].
Proof.
  exists ex4, ex4_c, 2%nat, ex4_data. eexists. split; [exact ex4_Wf|].
  split; [vm_compute; reflexivity|]. split; [vm_compute; discriminate|]. split; vm_compute; reflexivity.
Qed.
(** A one-dimensional array of exactly [size] elements is taken as [size] columns. *)
Theorem parse_1d_refuted : exists s c (l : list Z) r,
  Wf s /\ casadi_structure s = Ok c /\ length l = cs_size c /\ parse_matrix 0 (-1) c (A1 l) = Ok r /\
  ~ exists k M, In (k, M) r /\ dm_nc M = 1%nat.
Proof.
  exists ex4, ex4_c, [1; 2; 3; 4; 5; 6]. eexists. split; [exact ex4_Wf|].
  split; [vm_compute; reflexivity|]. split; [reflexivity|]. split; [vm_compute; reflexivity|].
  intros (k & M & Hin & Hc). destruct Hin as [E|[E|[]]]; injection E as <- <-; discriminate Hc.
Qed.

(** ** C35: struct_SX([entry("u", expr=[[e, e], [e, e], [e, e]]), entry("w", expr=e)]) *)
Definition vmat (l : list Z) : kval Z := VMat (col l).
Definition ex_u : centry Z := Eval vm_compute in
  match entry_init "u" [("expr"%string, VList [VList [vmat [1; 2]; vmat [3; 4]]; VList [vmat [5; 6]; vmat [7; 8]]; VList [vmat [9; 10]; vmat [11; 12]]])] with
  | Ok ce => ce | Err _ => CEntry (mk "u" [] (sp_dense 1 1)) None None end.
Definition ex_w : centry Z := Eval vm_compute in
  match entry_init "w" [("expr"%string, VMat (DM (sp_upper 2) [21; 22; 23]))] with
  | Ok ce => ce | Err _ => CEntry (mk "w" [] (sp_dense 1 1)) None None end.
Definition ex_sx : list (item_arg Z) := [IOne (AEntry ex_u); IOne (AEntry ex_w)].
Example C35_hyps : items_ok ex_sx /\
  (forall ce, In ce (arg_entries ex_sx) -> e_symm (ce_entry ce) = false) /\
  (forall ce v, In ce (arg_entries ex_sx) -> ce_expr ce = Some v -> PayOk (pay_of_val v) /\ Regular v (e_dims (ce_entry ce))).
Proof.
  assert (H : forall l, DmOk (col l)) by (intros l; apply dm_col_ok).
  split.
  { intros it [<-|[<-|[]]]; simpl.
    - split; [apply (SpOk_dense 2 1)|discriminate].
    - split; [solve_spok2|discriminate]. }
  split; [intros ce [<-|[<-|[]]]; reflexivity|].
  intros ce v [<-|[<-|[]]] [= <-].
  - split; [unfold ex_u; simpl; repeat match goal with |- DmOk _ /\ _ => split; [exact (H [_; _])|] | |- (_ /\ _) /\ _ => split end; exact I|].
    unfold ex_u. cbn [ce_entry e_dims].
    change [3; 2] with ([Z.of_nat 3; Z.of_nat 2]). apply (Regular_list [_; _; _]).
    intros v [<-|[<-|[<-|[]]]]; apply (Regular_list [_; _]); (intros v [<-|[<-|[]]]; eapply Regular_leaf; constructor).
  - split; [split; [solve_spok2|reflexivity]|]. eapply Regular_leaf. constructor.
Qed.
Example C35_example : exists o, struct_SX 0 (-1) ex_sx = Ok o /\
  so_get 0 o (pidx (top "u" [1; 0])) = Ok (RMat (col [5; 6])) /\ so_get 0 o (pidx (top "w" [])) = Ok (RMat (DM (sp_upper 2) [21; 22; 23])) /\
  so_cat o = [1; 2; 3; 4; 5; 6; 7; 8; 9; 10; 11; 12; 21; 22; 23].
Proof. eexists. split; [vm_compute; reflexivity|]. vm_compute. repeat split; reflexivity. Qed.

(** A ragged list is accepted and an expression of it is lost; so is an element of a
    matrix whose pattern is wider than that of the first one. *)
Theorem expr_ragged_refuted : exists v x ce o,
  entry_init "u" [("expr"%string, v)] = Ok ce /\ Reach v [1; 1] (VMat (T := Z) x) /\
  struct_SX 0 (-1) [IOne (AEntry ce)] = Ok o /\
  (exists y, In y (dm_nz x) /\ ~ In y (so_cat o)) /\
  so_get 0 o (pidx (top "u" [1; 1])) = Err EException.
Proof.
  exists (VList [VList [vmat [1; 2]]; VList [vmat [3; 4]; vmat [5; 6]]]), (col [5; 6]). eexists. eexists.
  split; [vm_compute; reflexivity|].
  split; [eapply (Reach_in _ 1%nat _ [1]); [reflexivity|]; eapply (Reach_in _ 1%nat _ []); [reflexivity|constructor]|].
  split; [vm_compute; reflexivity|].
  split; [exists 5; split; [left; reflexivity|vm_compute; intuition discriminate]|vm_compute; reflexivity].
Qed.
Theorem expr_pattern_refuted : exists v x ce o R,
  entry_init "u" [("expr"%string, v)] = Ok ce /\ Regular v [2] /\ Reach v [1] (VMat (T := Z) x) /\
  struct_SX 0 (-1) [IOne (AEntry ce)] = Ok o /\
  so_get 0 o (pidx (top "u" [1])) = Ok (RMat R) /\ dm_shape R = dm_shape x /\
  dm_val 0 x (1, 0)%nat <> dm_val 0 R (1, 0)%nat.
Proof.
  exists (VList [VMat (DM (sp_upper 2) [1; 2; 3]); VMat (DM (sp_dense 2 2) [4; 5; 6; 7])]), (DM (sp_dense 2 2) [4; 5; 6; 7]).
  eexists. eexists. eexists. split; [vm_compute; reflexivity|].
  split; [apply (Regular_list [_; _]); intros v [<-|[<-|[]]]; eapply Regular_leaf; constructor|].
  split; [eapply (Reach_in _ 1%nat _ []); [reflexivity|constructor]|].
  split; [vm_compute; reflexivity|]. split; [vm_compute; reflexivity|]. split; [reflexivity|vm_compute; discriminate].
Qed.
