(** C90: which exception the constructors raise for argument lists they reject. *)
From Verif Require Import PyBase IndexModel DMModel StructModel StructSpec PowerModel PowerSpec EntryModel EntrySpec EntryProofs StructsModel SymModel.
Open Scope list_scope.
Open Scope nat_scope.

Section CtorErr.
Context {T : Type} (zero : T) (newsym : nat -> string -> T).

Theorem entry_one_argument (args : list (earg T)) kw : length args <> 1 -> entry_ args kw = Err EException.
Proof. destruct args as [|a [|b args]]; [reflexivity|intros H; now elim H|]. destruct a; reflexivity. Qed.

Theorem list_error (l : list (item_arg T)) order x : entry_list l order = Err x -> x = EException.
Proof.
  unfold entry_list. rewrite elist_items_ok. cbn [rbind]. destruct order as [o|].
  - destruct (existsb is_group _); cbn [rbind]; [now intros [= <-]|]. destruct (dup_free _); [discriminate|now intros [= <-]].
  - cbn [rbind]. destruct (dup_free _); [discriminate|now intros [= <-]].
Qed.

(** Duplicate names, a tuple together with [order=], a name in [order] that is not declared. *)
Theorem struct_rejects (l : list (item_arg T)) order :
  ~ NoDup (arg_names l) \/ (order <> None /\ grouped l) \/ (exists o n, order = Some o /\ In n (flat_map oelem_names o) /\ ~ In n (arg_names l)) ->
  struct_ l order = Err EException.
Proof.
  intros H. unfold struct_. destruct (entry_list l order) as [el|x] eqn:E; [|now rewrite (list_error _ _ _ E)].
  destruct (proj1 (entry_list_iff l order) (ex_intro _ el E)) as [Hn Hg]. destruct (entry_list_result l order el E) as (_ & En & Eo).
  destruct H as [H|[[H1 H2]|(o & n & -> & Hi & Hni)]]; [contradiction|destruct Hg; contradiction|].
  cbn [rbind]. unfold structure_init. rewrite Eo.
  destruct (forallb _ (flat_map oelem_names o)) eqn:Ef; [|reflexivity]. exfalso. apply Hni. rewrite forallb_forall in Ef. specialize (Ef n Hi).
  unfold str_mem in Ef. apply existsb_exists in Ef as (k & Hk & He). apply String.eqb_eq in He as ->. rewrite <- En.
  rewrite map_map in Hk. exact Hk.
Qed.

(** What has to be given or must not be given with every entry. *)
Theorem expr_needed (nan : T) (l : list (item_arg T)) order r ce :
  struct_ l order = Ok r -> In ce (arg_entries l) -> ce_expr ce = None ->
  struct_MX zero l order = Err EException /\ (order = None -> struct_SX zero nan l = Err EException /\ struct_MX_mutable zero nan l = Err EException).
Proof.
  intros E Hin He. destruct r as [el c]. assert (Hl : el_entries el = arg_entries l).
  { unfold struct_ in E. destruct (entry_list l order) as [el'|] eqn:El; [|discriminate]. cbn [rbind] in E. destruct (structure_init _ _); [|discriminate]. cbn [rbind] in E. destruct (casadi_structure _); [|discriminate].
    injection E as -> _. exact (proj1 (entry_list_result l order el El)). }
  assert (Hf : forallb has_expr (el_entries el) = false).
  { apply not_true_iff_false. intros H. rewrite forallb_forall in H. rewrite <- Hl in Hin. specialize (H ce Hin). unfold has_expr in H. now rewrite He in H. }
  split; [unfold struct_MX; rewrite E; cbn [rbind]; now rewrite Hf|]. intros ->.
  assert (G : struct_SX zero nan l = Err EException) by (unfold struct_SX; rewrite E; cbn [rbind]; now rewrite Hf).
  split; [exact G|]. unfold struct_MX_mutable. now rewrite G.
Qed.
Theorem expr_refused (V : list T) (l : list (item_arg T)) order r ce :
  struct_ l order = Ok r -> In ce (arg_entries l) ->
  (ce_expr ce <> None -> struct_symSX zero newsym l order = Err EException /\ struct_symMX V l order = Err EException) /\
  (ce_sym ce <> None -> struct_symMX V l order = Err EException).
Proof.
  intros E Hin. destruct r as [el c]. assert (Hl : el_entries el = arg_entries l).
  { unfold struct_ in E. destruct (entry_list l order) as [el'|] eqn:El; [|discriminate]. cbn [rbind] in E. destruct (structure_init _ _); [|discriminate]. cbn [rbind] in E. destruct (casadi_structure _); [|discriminate].
    injection E as -> _. exact (proj1 (entry_list_result l order el El)). }
  rewrite <- Hl in Hin. split; intros He.
  - assert (Hf : existsb has_expr (el_entries el) = true).
    { apply existsb_exists. exists ce. split; [exact Hin|]. unfold has_expr. destruct (ce_expr ce); [reflexivity|contradiction]. }
    unfold struct_symSX, struct_symMX. rewrite E. cbn [rbind]. now rewrite Hf.
  - assert (Hf : existsb has_sym (el_entries el) = true).
    { apply existsb_exists. exists ce. split; [exact Hin|]. unfold has_sym. destruct (ce_sym ce); [reflexivity|contradiction]. }
    unfold struct_symMX. rewrite E. cbn [rbind]. rewrite Hf. now destruct (existsb has_expr _).
Qed.
End CtorErr.
