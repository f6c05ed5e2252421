(** Property theorems about CollocationSimulator.simulate (C85) and the printed forms of
    structures (C86). *)
From Coq Require Import Reals.
From Verif Require Import PyBase IndexModel DMModel StructModel StructSpec PowerModel EntryModel NumModel NumInst PdqModel SchemeModel SimulateModel SimulateThms
  LabelModel StrModel StrSpec StrThms StrExamples.
Open Scope list_scope.
Open Scope nat_scope.

Section P.
Context {O : Type} (rest : O -> res (traj R)) (s : simulator R O) (x0 : mat R) (input : R -> res (mat R)).

Theorem C85_simulate_needs_param : 0 < sm_np s -> simulate rest s x0 input None = ([], Err EValue).
Proof. exact (@simulate_needs_param O rest s x0 input). Qed.

Theorem C85_simulate_asks_partial : forall param,
  (param = None -> sm_np s = 0) ->
  forall log r, Calls input (pq_pts (sm_pdq s)) log r ->
  fst (simulate rest s x0 input param) = log /\ forall k, r = Err k -> snd (simulate rest s x0 input param) = Err k.
Proof. exact (@simulate_asks O rest s x0 input). Qed.

Theorem C85_simulate_type_error : forall param cols u o,
  (param = None -> sm_np s = 0) ->
  Forall2 (fun t c => input t = Ok c) (pq_pts (sm_pdq s)) cols -> hstack cols = Ok u ->
  sm_call s x0 (Mat (sm_nz s) 1 (fun _ _ => 0%R)) u param = Ok o ->
  simulate rest s x0 input param = (pq_pts (sm_pdq s), Err EType).
Proof. exact (@simulate_type_error O rest s x0 input). Qed.

Theorem C85_simulate_refuted : forall param tr,
  snd (simulate rest s x0 input param) <> Ok tr.
Proof. exact (@simulate_refuted O rest s x0 input). Qed.

End P.

Open Scope string_scope.
Open Scope list_scope.
Theorem C86_str_identifies_partial : forall s s' c c',
  Plain s -> Plain s' -> casadi_structure s = Ok c -> casadi_structure s' = Ok c' ->
  str_casadi c = str_casadi c' <-> c = c'.
Proof. exact (@str_identifies). Qed.

Theorem C86_repr_identifies_partial : forall s s',
  Plain s -> Plain s' -> str_full s = str_full s' -> s = s'.
Proof. exact (@repr_identifies). Qed.

Theorem C86_compact_identifies : forall s s',
  Plain s -> Plain s' -> (str_s s = str_s s' <-> s_entries s = s_entries s').
Proof. exact (@compact_identifies). Qed.

Theorem C86_entry_plain : forall {T} name (kw : kwargs T) (e : centry T),
  entry_init name kw = Ok e ->
  (forall k v, In (k, v) kw -> In k ["shape"; "repeat"; "struct"; "type"]%string) ->
  (forall sp, ~ In ("shape"%string, VSp sp) kw) ->
  (forall v, In ("struct"%string, v) kw -> forall w, ~ In ("type"%string, w) kw) ->
  e_name (ce_entry e) = name /\ PlainLeaf (ce_entry e).
Proof. exact (@entry_plain). Qed.

Open Scope Z_scope.
Theorem C86_print_order_refuted : exists s s' c c' ci, Wf s /\ Wf s' /\ casadi_structure s = Ok c /\ casadi_structure s' = Ok c' /\
  str_casadi c = str_casadi c' /\ cmap_get ci (cs_map c) = Some (DM (sp_dense 2 1) [0%nat; 1%nat]) /\ cmap_get ci (cs_map c') = Some (DM (sp_dense 2 1) [1%nat; 2%nat]).
Proof. exact (@print_order_refuted). Qed.

Theorem C86_print_pattern_refuted : exists s s' c c', Wf s /\ Wf s' /\ casadi_structure s = Ok c /\ casadi_structure s' = Ok c' /\
  str_casadi c = str_casadi c' /\ getCanonicalIndex c 1 2 = Ok [KS "x"; KI 1; KI 0] /\ getCanonicalIndex c' 1 2 = Ok [KS "x"; KI 0; KI 1].
Proof. exact (@print_pattern_refuted). Qed.

Theorem C86_repr_size_refuted : exists s s' c c', Wf s /\ Wf s' /\ casadi_structure s = Ok c /\ casadi_structure s' = Ok c' /\
  repr_casadi c = repr_casadi c' /\ cs_size c = 3%nat /\ cs_size c' = 4%nat.
Proof. exact (@repr_size_refuted). Qed.

Print Assumptions C85_simulate_needs_param.
Print Assumptions C85_simulate_asks_partial.
Print Assumptions C85_simulate_type_error.
Print Assumptions C85_simulate_refuted.
Print Assumptions C86_str_identifies_partial.
Print Assumptions C86_repr_identifies_partial.
Print Assumptions C86_compact_identifies.
Print Assumptions C86_entry_plain.
Print Assumptions C86_print_order_refuted.
Print Assumptions C86_print_pattern_refuted.
Print Assumptions C86_repr_size_refuted.
