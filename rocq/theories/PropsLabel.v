(** Property theorems about labels and canonical indices (C72, C73). *)
From Verif Require Import PyBase IndexModel DMModel StructModel StructSpec PowerModel PowerSpec LabelModel LabelSpec
  IndexProofs StructProofs LayoutProofs LayoutThms LayoutExamples DMProofs PowerProofs PowerThms SliceProofs PowerThms2 PowerThms3 PowerThms4 PowerThms5
  PowerExamples LabelThms LabelExamples.
Open Scope nat_scope.

Section P.
Context {T : Type} (zero : T).
Notation pstate := (pstate T).

Theorem C72_index0_reads_partial : forall s c (st : pstate) i ci e,
  Obj s c st -> getCanonicalIndex c i 0 = Ok ci -> Leaf s ci e -> e_symm e = false ->
  exists x R, nth_error (ps_master st) (Z.to_nat i) = Some x /\
    getitem zero s (num_env c) (pidx ci) st = Ok (RMat R) /\ dm_sp R = e_sp e /\ In x (dm_nz R).
Proof. exact (index0_reads zero). Qed.

Theorem C72_index1_reads_partial : forall s c (st : pstate) i ci e t,
  Obj s c st -> getCanonicalIndex c i 0 = Ok ci -> Leaf s ci e ->
  sp_pat (e_sp e) = all_pos (sp_nr (e_sp e)) (sp_nc (e_sp e)) ->
  getCanonicalIndex c i 1 = Ok t ->
  exists x, nth_error (ps_master st) (Z.to_nat i) = Some x /\
    getitem zero s (num_env c) (pidx t) st = Ok (RMat (dm_scalar x)).
Proof. exact (index1_reads zero). Qed.

Theorem C72_index2_swapped_reads : forall s c (st : pstate) i can a b,
  Obj s c st -> getCanonicalIndex c i 2 = Ok (can ++ [a; b]) ->
  exists x, nth_error (ps_master st) (Z.to_nat i) = Some x /\
    getitem zero s (num_env c) (pidx (can ++ [b; a])) st = Ok (RMat (dm_scalar x)).
Proof. exact (index2_swapped_reads zero). Qed.

Theorem C72_index2_diagonal_reads_partial : forall s c (st : pstate) i can a,
  Obj s c st -> getCanonicalIndex c i 2 = Ok (can ++ [a; a]) ->
  exists x, nth_error (ps_master st) (Z.to_nat i) = Some x /\
    getitem zero s (num_env c) (pidx (can ++ [a; a])) st = Ok (RMat (dm_scalar x)).
Proof. exact (index2_diagonal_reads zero). Qed.

Theorem C72_index2_off_diagonal : forall s c i can a b r,
  Wf s -> casadi_structure s = Ok c -> getCanonicalIndex c i 2 = Ok (can ++ [a; b]) -> a <> b ->
  i_get zero s (pidx (can ++ [a; b])) = Ok r -> ~ In (Z.to_nat i) (positions r).
Proof. exact (index2_off_diagonal zero). Qed.

End P.

Theorem C73_labels_distinct_partial : forall s c mode,
  Wf s -> CommaFree s -> casadi_structure s = Ok c -> mode <> 0%Z ->
  exists l, labels c mode = Ok l /\ length l = cs_size c /\ NoDup l /\
    forall k, k < cs_size c -> exists x, nth_error l k = Some x /\ getLabel c (Z.of_nat k) mode = Ok x.
Proof. exact labels_distinct. Qed.

Theorem C73_labels_size : forall s c mode,
  Wf s -> casadi_structure s = Ok c ->
  exists l, labels c mode = Ok l /\ length l = cs_size c.
Proof. exact labels_size. Qed.

Open Scope Z_scope.
Theorem C72_index1_sparse_refuted : exists s c (st : pstate Z) i t x y,
  Obj s c st /\ getCanonicalIndex c i 1 = Ok t /\ nth_error (ps_master st) (Z.to_nat i) = Some x /\
  get s c (pidx t) st = Ok (RMat (dm_scalar y)) /\ x <> y.
Proof. exact index1_sparse_refuted. Qed.

Theorem C72_index2_refuted : exists s c (st : pstate Z) i t,
  Obj s c st /\ getCanonicalIndex c i 2 = Ok t /\ get s c (pidx t) st = Err EException.
Proof. exact index2_refuted. Qed.

Theorem C72_index2_transposed_refuted : exists s c (st : pstate Z) i t x y,
  Obj s c st /\ getCanonicalIndex c i 2 = Ok t /\ nth_error (ps_master st) (Z.to_nat i) = Some x /\
  get s c (pidx t) st = Ok (RMat (dm_scalar y)) /\ x <> y.
Proof. exact index2_transposed_refuted. Qed.

Theorem C73_labels_comma_refuted : exists s c i j l, Wf s /\ casadi_structure s = Ok c /\ i <> j /\
  getLabel c i 1 = Ok l /\ getLabel c j 1 = Ok l.
Proof. exact labels_comma_refuted. Qed.

Theorem C73_labels_mode0_refuted : exists s c i j l, Wf s /\ CommaFree s /\ casadi_structure s = Ok c /\ i <> j /\
  getLabel c i 0 = Ok l /\ getLabel c j 0 = Ok l.
Proof. exact labels_mode0_refuted. Qed.

Print Assumptions C72_index0_reads_partial.
Print Assumptions C72_index1_reads_partial.
Print Assumptions C72_index2_swapped_reads.
Print Assumptions C72_index2_diagonal_reads_partial.
Print Assumptions C72_index2_off_diagonal.
Print Assumptions C73_labels_distinct_partial.
Print Assumptions C73_labels_size.
Print Assumptions C72_index1_sparse_refuted.
Print Assumptions C72_index2_refuted.
Print Assumptions C72_index2_transposed_refuted.
Print Assumptions C73_labels_comma_refuted.
Print Assumptions C73_labels_mode0_refuted.
