(** Concrete instances for the theorems about [entry(...)] and [struct([...])]. *)
From Verif Require Import PyBase IndexModel DMModel StructModel StructSpec StructProofs DMProofs PowerModel EntryModel EntrySpec EntryProofs.
Open Scope nat_scope.
Open Scope string_scope.

Section Ex.
Notation V := (kval Z).

(** entry("P", shape=(2,2), repeat=[3], type="symm") *)
Definition ex_kw : kwargs Z :=
  [("shape", VTuple [VInt 2; VInt 2]); ("repeat", VList [VInt 3]); ("type", VStr "symm")].
Example ex_kw_nodup : NoDup (map fst ex_kw).
Proof. repeat constructor; simpl; intuition congruence. Qed.
Example ex_kw_entry : entry_init "P" ex_kw =
  Ok (CEntry (mkEntry "P" [3%Z] None (Spy 2 2 [(0,0);(0,1);(1,1)]) true (Some (sp_dense 2 2)) None) None None).
Proof. vm_compute. reflexivity. Qed.
Example ex_kw_valid : Valid ex_kw.
Proof. apply (entry_accepts_iff "P"); [exact ex_kw_nodup|]. rewrite ex_kw_entry. eauto. Qed.

(** entry("x", shape=3, struct=s): conflicting; entry("x", bad=1): unknown;
    entry("x", repeat="a"): bad repeat *)
Definition ex_sub : structure := mkStruct [mkEntry "a" [] None (sp_dense 2 1) false None None] [OName "a"].
Example ex_conflict : let kw := [("shape", VInt 3); ("struct", VStructure ex_sub)] : kwargs Z in
  In ("shape", "struct") doc_conflicts /\ given kw "shape" (VInt 3) /\ given kw "struct" (VStructure ex_sub) /\
  entry_init "x" kw = Err EException.
Proof. unfold given. repeat split; simpl; auto. Qed.
Example ex_unknown : let kw := [("bad", VInt 1)] : kwargs Z in
  given kw "bad" (VInt 1) /\ ~ In "bad" doc_keywords /\ entry_init "x" kw = Err EException.
Proof. unfold given. repeat split; simpl; auto. intuition congruence. Qed.
Example ex_bad_repeat : let kw := [("repeat", VStr "a")] : kwargs Z in
  NoDup (map fst kw) /\ given kw "repeat" (VStr "a") /\ (forall zs, ~ RepeatArg (T := Z) (VStr "a") zs) /\
  entry_init "x" kw = Err EException.
Proof.
  split; [repeat constructor; simpl; tauto|]. split; [left; reflexivity|]. split; [intros zs H; inversion H|].
  vm_compute. reflexivity.
Qed.

(** An expression given as a nested list: the dimensions are read off the list. *)
Definition ex_e (a b : Z) : V := VMat (DM (sp_dense 2 1) [a; b]).
Example ex_expr : entry_init "x" [("expr", VList [VList [ex_e 1 2; ex_e 3 4]; VList [ex_e 5 6; ex_e 7 8]; VList [ex_e 9 10; ex_e 11 12]])] =
  Ok (CEntry (mkEntry "x" [3; 2]%Z None (sp_dense 2 1) false None None) None
        (Some (VList [VList [ex_e 1 2; ex_e 3 4]; VList [ex_e 5 6; ex_e 7 8]; VList [ex_e 9 10; ex_e 11 12]]))).
Proof. vm_compute. reflexivity. Qed.

(** C08: a list mixing names, entries and a group. *)
Definition ex_ce : centry Z := CEntry (mkEntry "X" [2%Z] None (sp_dense 3 1) false None None) None None.
Definition ex_cu : centry Z := CEntry (mkEntry "U" [2%Z] None (sp_dense 1 1) false None None) None None.
Definition ex_list : list (item_arg Z) := [IOne (AName "p"); ITup [AEntry ex_ce; AEntry ex_cu]].
Example ex_list_ok : items_ok ex_list.
Proof.
  assert (H : forall n, SpOk (sp_dense n 1)).
  { intros n. apply SpOk_dense. }
  intros it [<-|[<-|[]]]; simpl; [exact I|].
  intros a [<-|[<-|[]]]; (split; [apply H|discriminate]).
Qed.
Example ex_list_names : NoDup (arg_names ex_list).
Proof. repeat constructor; simpl; intuition congruence. Qed.
Example ex_list_struct : exists el c, struct_ ex_list None = Ok (el, c) /\ cs_size c = 9 /\
  s_order (cs_struct c) = [OName "p"; OGroup ["X"; "U"]].
Proof. vm_compute. eexists. eexists. repeat split. Qed.
Example ex_dup : struct_ [IOne (AName "x"); IOne (AName (T := Z) "x")] None = Err EException.
Proof. vm_compute. reflexivity. Qed.
Example ex_group_order : entry_list ex_list (Some [OName "p"; OName "X"; OName "U"]) = Err EException.
Proof. vm_compute. reflexivity. Qed.

(** The keyword 'struct' with something that is not a structure is not rejected: the
    entry becomes a scalar. *)
Theorem bad_struct_refuted : exists (kw : kwargs Z) v ce,
  given kw "struct" v /\ (forall s, ~ struct_value v s) /\ entry_init "x" kw = Ok ce /\
  e_struct (ce_entry ce) = None /\ e_sp (ce_entry ce) = sp_dense 1 1.
Proof.
  exists [("struct", VInt 5)], (VInt 5). eexists.
  split; [left; reflexivity|]. split; [intros s [H|[m H]]; discriminate|].
  split; [vm_compute; reflexivity|]. split; reflexivity.
Qed.
(** An explicit [expr=None] turns the entry into an empty one that is repeated 0 times. *)
Example ex_expr_none : entry_init (T := Z) "x" [("expr", VNone)] =
  Ok (CEntry (mkEntry "x" [0%Z] None (sp_dense 0 0) false None None) None None).
Proof. vm_compute. reflexivity. Qed.
End Ex.
