(** Property theorems about the layout of structures (C01-C07, C09). *)
From Coq Require Import Permutation.
From Verif Require Import PyBase IndexModel DMModel StructModel StructSpec IndexProofs StructProofs LayoutProofs
  LayoutThms LayoutExamples.

(** C01 *)
Theorem C01_flat_partition : forall s c,
  Wf s -> casadi_structure s = Ok c ->
  flat_map (fun ci => match cmap_get ci (cs_map c) with Some m => dm_nz m | None => [] end)
           (traverseCanonicalIndex s) = seq 0 (cs_size c).
Proof. exact flat_partition. Qed.
Print Assumptions C01_flat_partition.

Theorem C01_build_succeeds : forall s, Wf s -> exists c, casadi_structure s = Ok c.
Proof. exact build_succeeds. Qed.
Print Assumptions C01_build_succeeds.

(** C02 *)
Theorem C02_canonical_leaves : forall s, Wf s ->
  NoDup (traverseCanonicalIndex s) /\
  forall ci, In ci (traverseCanonicalIndex s) <-> exists e, Leaf s ci e.
Proof. exact canonical_leaves. Qed.
Print Assumptions C02_canonical_leaves.

Theorem C02_canonicalIndices_leaves : forall s c, Wf s -> casadi_structure s = Ok c ->
  exists l, canonicalIndices c 0 = Ok l /\ length l = cs_size c /\
    forall ci, In ci l <-> exists e, Leaf s ci e /\ 0 < sp_nnz (e_sp e).
Proof. exact canonicalIndices_leaves. Qed.
Print Assumptions C02_canonicalIndices_leaves.

(** C03 *)
Theorem C03_getCanonicalIndex_inverse : forall s c i mode,
  Wf s -> casadi_structure s = Ok c -> (0 <= i < Z.of_nat (cs_size c))%Z ->
  exists can k row col m e,
    Leaf s can e /\ cmap_get can (cs_map c) = Some m /\ dm_sp m = e_sp e /\
    nth_error (dm_nz m) k = Some (Z.to_nat i) /\
    nth_error (sp_pat (dm_sp m)) k = Some (row, col) /\
    getCanonicalIndex c i mode =
      Ok (if (mode =? 0)%Z then can
          else if (mode =? 1)%Z then can ++ [KI (Z.of_nat k)]
          else can ++ [KI (Z.of_nat col); KI (Z.of_nat row)]).
Proof. exact getCanonicalIndex_spec. Qed.
Print Assumptions C03_getCanonicalIndex_inverse.

Theorem C03_getCanonicalIndex_rejects : forall c i mode,
  ~ (0 <= i < Z.of_nat (cs_size c))%Z -> getCanonicalIndex c i mode = Err EException.
Proof. exact getCanonicalIndex_err. Qed.
Print Assumptions C03_getCanonicalIndex_rejects.

Theorem C03_getCanonicalIndex_injective : forall s c i j mode r,
  Wf s -> casadi_structure s = Ok c -> mode <> 0%Z ->
  getCanonicalIndex c i mode = Ok r -> getCanonicalIndex c j mode = Ok r -> i = j.
Proof. exact getCanonicalIndex_inj. Qed.
Print Assumptions C03_getCanonicalIndex_injective.

(** C04 *)
Theorem C04_size_formula : forall s c, Wf s -> casadi_structure s = Ok c -> cs_size c = s_size s.
Proof. exact size_formula. Qed.
Print Assumptions C04_size_formula.

(** C05 *)
Theorem C05_grouping_permutes : forall s s', Wf s -> Regroup s s' ->
  Permutation (traverseCanonicalIndex s) (traverseCanonicalIndex s') /\
  (forall c c', casadi_structure s = Ok c -> casadi_structure s' = Ok c' -> cs_size c = cs_size c').
Proof. exact grouping_perm. Qed.
Print Assumptions C05_grouping_permutes.

Theorem C05_round_robin_in_group : forall s ns j j' e e' ci ci' k k',
  Wf s -> In (OGroup ns) (s_order s) ->
  In e (s_entries s) -> In e' (s_entries s) ->
  nth_error ns j = Some (e_name e) -> nth_error ns j' = Some (e_name e') ->
  In ci (traverseCanonicalIndex s) -> In ci' (traverseCanonicalIndex s) ->
  first_repeat e ci k -> first_repeat e' ci' k' ->
  ((k < k')%Z \/ (k = k' /\ j < j')) ->
  precedes (traverseCanonicalIndex s) ci ci'.
Proof. exact group_order. Qed.
Print Assumptions C05_round_robin_in_group.

Theorem C05_order_respected : forall s o o' e e' ci ci',
  Wf s -> precedes (s_order s) o o' ->
  In e (s_entries s) -> In e' (s_entries s) ->
  In (e_name e) (oelem_names o) -> In (e_name e') (oelem_names o') ->
  In ci (traverseCanonicalIndex s) -> In ci' (traverseCanonicalIndex s) ->
  (exists c, ci = KS (e_name e) :: c) -> (exists c, ci' = KS (e_name e') :: c) ->
  precedes (traverseCanonicalIndex s) ci ci'.
Proof. exact order_order. Qed.
Print Assumptions C05_order_respected.

(** C06 *)
Theorem C06_intersperse_terminates : forall (A : Type) (ls : list (list A)),
  exists r, intersperse_opt ls = Some r /\ r = round_robin ls /\ Permutation r (concat ls).
Proof. exact intersperse_terminates. Qed.
Print Assumptions C06_intersperse_terminates.

Theorem C06_more_fuel_same_result : forall (A : Type) (ls : list (list A)) n,
  intersperse_loop (intersperse_fuel ls + n) ls (map (fun _ => true) ls) 0 = Some (round_robin ls).
Proof. exact intersperse_more_fuel. Qed.
Print Assumptions C06_more_fuel_same_result.

(** C07: the full statement is violated by the code. *)
Theorem C07_order_loses_entries_refuted : exists es order s c e,
  NoDup (map e_name es) /\ structure_init es (Some order) = Ok s /\ casadi_structure s = Ok c /\
  In e es /\ 0 < e_size e /\
  cmap_get [KS (e_name e)] (cs_map c) = None /\ cs_size c < list_sum (map e_size es).
Proof. exact order_loses_entries. Qed.
Print Assumptions C07_order_loses_entries_refuted.

Theorem C07_order_duplicates_entries_refuted : exists es order s c,
  NoDup (map e_name es) /\ structure_init es (Some order) = Ok s /\ casadi_structure s = Ok c /\
  list_sum (map e_size es) < cs_size c /\
  exists i, i < cs_size c /\ forall a m, cmap_get a (cs_map c) = Some m -> ~ In i (dm_nz m).
Proof. exact order_duplicates_entries. Qed.
Print Assumptions C07_order_duplicates_entries_refuted.

(** What holds: orders that mention every name exactly once. *)
Theorem C07_order_partial : forall es order s,
  structure_init es order = Ok s ->
  NoDup (map e_name es) -> (forall e, In e es -> SpOk (e_sp e)) ->
  (forall e s', In e es -> e_struct e = Some s' -> Wf s') ->
  (forall o, order = Some o -> NoDup (flat_map oelem_names o) /\ incl (map e_name es) (flat_map oelem_names o)) ->
  Wf s /\ exists c, casadi_structure s = Ok c /\ cs_size c = list_sum (map e_size es) /\
    forall e idx, In e es -> e_struct e = None -> InDims idx (e_dims e) ->
      exists m, cmap_get (KS (e_name e) :: map KI idx) (cs_map c) = Some m /\ dm_sp m = e_sp e.
Proof. exact order_ok. Qed.
Print Assumptions C07_order_partial.

(** C09 *)
Theorem C09_blocks_contiguous : forall s c p s',
  Wf s -> casadi_structure s = Ok c -> Block s p s' -> (exists ci e, Leaf s' ci e) ->
  exists start, cmap_get p (cs_map c) = Some (dm_col (seq start (s_size s'))) /\
    start + s_size s' <= cs_size c.
Proof. exact block_contiguous. Qed.
Print Assumptions C09_blocks_contiguous.

Theorem C09_blocks_complete : forall s c p s' m,
  Wf s -> casadi_structure s = Ok c -> Block s p s' -> cmap_get p (cs_map c) = Some m ->
  dm_nz m = flat_map (fun ci => match cmap_get (p ++ ci) (cs_map c) with Some x => dm_nz x | None => [] end)
                     (traverseCanonicalIndex s').
Proof. exact block_complete. Qed.
Print Assumptions C09_blocks_complete.

(** The index map has exactly the leaves and the (non-empty) sub-structure copies as keys. *)
Theorem C09_map_keys : forall s c a v,
  Wf s -> casadi_structure s = Ok c -> cmap_get a (cs_map c) = Some v ->
  (exists e, Leaf s a e) \/ (exists s', Block s a s' /\ exists ci e, Leaf s' ci e).
Proof. exact map_keys'. Qed.
Print Assumptions C09_map_keys.
