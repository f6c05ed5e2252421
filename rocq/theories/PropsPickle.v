(** Property theorems about pickling several objects together, stacks of square matrices,
    attributes of prefixed structures and the length of a [Pdq] (C80-C83). *)
From Coq Require Import Reals.
From Verif Require Import PyBase IndexModel DMModel StructModel StructSpec PowerModel PowerSpec EntryModel EntrySpec StructsModel StructsSpec
  IndexProofs StructProofs LayoutProofs LayoutThms DMProofs PowerProofs PowerThms SliceProofs EntryProofs StructsThms5 StructsThms6 StructsThms7 StructsThms8 StructsThms9 SqRepThms SqRepExamples PickleModel PickleSpec PickleThms PickleExamples PrefixAttrModel PrefixAttrThms PrefixAttrExamples.
From Verif Require Import NumModel NumInst NumSpec PolynomialModel PiecewiseModel PdqModel PolySpec PdqSpec PdqAttrThms.
Open Scope list_scope.
Open Scope nat_scope.

Section P.
Context {T : Type} (zero : T).
Notation heap := (heap T).
Notation pobj := (pobj T).

Theorem C80_separate_restored_partial : forall (h : heap) (os : list pobj),
  Closed h -> Separate h os -> (forall o, In o os -> GoodObj h o /\ po_kind o <> OMut) ->
  exists ls, roundtrip h os = Ok ls /\ Forall2 (Restored zero h) os ls.
Proof. exact (separate_restored zero). Qed.

Theorem C80_together_exact : forall (h : heap) (os : list pobj),
  Closed h -> Fresh h -> (forall o, In o os -> GoodObj h o) ->
  ((forall o o1, In o os -> FirstOn h os (po_sid o) o1 -> Provides o1 o) ->
     exists ls, roundtrip h os = Ok ls /\
       Forall2 (fun o l => exists o1, FirstOn h os (po_sid o) o1 /\ RestoredWith zero h o (po_data o1) l) os ls) /\
  (forall o o1, In o os -> FirstOn h os (po_sid o) o1 -> ~ Provides o1 o -> exists e, roundtrip h os = Err e).
Proof. exact (together_exact zero). Qed.

Theorem C80_same_structure_first : forall (h : heap) o1 (os : list pobj),
  Closed h -> GoodObj h o1 -> po_kind o1 = ONum ->
  (forall o, In o os -> po_kind o = ONum /\ po_sid o = po_sid o1) ->
  exists l, roundtrip h (o1 :: os) = Ok (repeat l (S (length os))) /\ RestoredWith zero h o1 (po_data o1) l.
Proof. exact (same_structure_first zero). Qed.

Theorem C80_mutable_never : forall (h : heap) (os : list pobj) (o : pobj),
  Closed h -> In o os -> po_kind o = OMut -> exists e, roundtrip h os = Err e.
Proof. exact mutable_never. Qed.

Theorem C80_mutable_alone : forall (h : heap) (o : pobj),
  Closed h -> GoodObj h o -> po_kind o = OMut -> roundtrip h [o] = Err EType.
Proof. exact (mutable_alone zero). Qed.

Theorem C81_squared_repeated_blocks : forall s c (a : dm T) N,
  Wf s -> casadi_structure s = Ok c -> DmOk a -> cs_size c <> 0 ->
  dm_shape a = (cs_size c, N * cs_size c) -> sp_is_dense (dm_sp a) = true ->
  let n := cs_size c in
  exists vw0, squared_repeated_ s c a = Ok vw0 /\ view_matrix vw0 = dm_nz a /\
  forall vw, QWrites zero N vw0 vw ->
    so_cat (vw_obj vw) = view_matrix vw /\ length (view_matrix vw) = N * (n * n) /\
    forall z q, (- Z.of_nat N <= z < Z.of_nat N)%Z -> no_fun q ->
      let j := Z.to_nat (from_end (Z.of_nat N) z) in
      exists sq, squared_ s c (DM (sp_dense n n) (column (n * n) j (view_matrix vw))) = Ok sq /\
        view_get zero vw (PInt z :: q) = view_get zero sq q /\
        forall p vw' r, view_set zero vw (PInt z :: q) p = (vw', r) ->
          exists sq', view_set zero sq q p = (sq', r) /\ length (view_matrix sq') = n * n /\
            view_matrix vw' = put_column (n * n) j (view_matrix vw) (view_matrix sq') /\ so_cat (vw_obj vw') = view_matrix vw'.
Proof. exact (squared_repeated_blocks zero). Qed.

Theorem C81_block_element : forall (a : dm T) n N k i j,
  DmOk a -> dm_sp a = sp_dense n (N * n) -> k < N -> i < n -> j < n ->
  dm_at (DM (sp_dense n n) (column (n * n) k (dm_nz a))) (i, j) = dm_at a (i, k * n + j).
Proof. exact block_element. Qed.

Theorem C81_squared_repeated_bad : forall s c (a : dm T),
  dm_nr a <> cs_size c \/ (cs_size c <> 0 /\ ~ Nat.divide (cs_size c) (dm_nc a)) ->
  squared_repeated_ s c a = Err EException.
Proof. exact squared_repeated_bad. Qed.

Theorem C81_squared_repeated_default : forall s c (x : T),
  cs_size c <> 1 -> squared_repeated_ s c (dm_scalar x) = Err EException.
Proof. exact squared_repeated_default. Qed.

Theorem C82_prefix_attr_exact_partial : forall s c (v : list T) ci e M,
  Wf s -> casadi_structure s = Ok c -> length v = cs_size c ->
  At s ci e -> e_symm e = false ->
  let x := prefix_ (plain_obj c v) (pidx ci) in
  prefix_call zero x = Ok (RMat M) ->
  ((forall (A : Type) (att : dm T -> A), prefix_getattr att x = att M) <-> dm_sp M = sp_dense (cs_size c) 1).
Proof. exact (prefix_attr_exact zero). Qed.

Theorem C82_view_attr : forall s c s2 c2 (a : dm T) vw0 vw,
  Wf s -> Wf s2 -> casadi_structure s = Ok c -> casadi_structure s2 = Ok c2 -> DmOk a ->
  dm_shape a = (cs_size c, cs_size c2) -> product_ s c s2 c2 a = Ok vw0 -> Writes zero s s2 (cs_size c) (cs_size c2) vw0 vw ->
  view_call zero vw0 = Ok (RMat a) /\
  exists M, view_call zero vw = Ok (RMat M) /\ dm_sp M = dm_sp a /\
    forall (A : Type) (att : dm T -> A), view_getattr att (dm_nr a) (dm_nc a) vw = att M.
Proof. exact (view_attr zero). Qed.

End P.

Open Scope Z_scope.
Theorem C80_pickle_same_structure_refuted : exists (h : heap Z) a b o1 o2,
  Closed h /\ Fresh h /\ GoodObj h a /\ GoodObj h b /\ po_kind a = ONum /\ po_kind b = ONum /\ po_data a <> po_data b /\
  roundtrip h [a; b] = Ok [LNum o1; LNum o2] /\ so_cat o2 = po_data a.
Proof. exact pickle_same_structure_refuted. Qed.

Theorem C80_pickle_sub_structure_refuted : exists (h : heap Z) V a s b,
  Closed h /\ Fresh h /\ (forall o, In o [V; a; s; b] -> GoodObj h o) /\ po_kind V = ONum /\ po_kind a = ONum /\
  po_kind s = OStruct /\ po_kind b = ONum /\ po_sid b = po_sid s /\ po_sid a <> po_sid V /\
  roundtrip h [V; a] = Err EKey /\ roundtrip h [s; b] = Err EKey /\ roundtrip h [b; s] = Err EKey.
Proof. exact pickle_sub_structure_refuted. Qed.

Theorem C80_pickle_stale_refuted : exists (h : heap Z) a s b o1 l,
  Closed h /\ Fresh h /\ GoodObj h a /\ GoodObj h b /\ po_kind a = ONum /\ po_kind b = ONum /\ po_kind s = OStruct /\ po_data a <> po_data b /\
  roundtrip h [s; b] = Err EKey /\
  roundtrip (fst (dump h [a])) [s; b] = Ok [l; LNum o1] /\ so_cat o1 = po_data a.
Proof. exact pickle_stale_refuted. Qed.

Theorem C82_prefix_attr_refuted : exists s c (v : list Z) ci e M, Wf s /\ casadi_structure s = Ok c /\ length v = cs_size c /\ At s ci e /\ e_symm e = false /\
  prefix_call 0 (prefix_ (plain_obj c v) (pidx ci)) = Ok (RMat M) /\ dm_shape M = (6, 1)%nat /\
  prefix_getattr (@dm_shape Z) (prefix_ (plain_obj c v) (pidx ci)) = (13, 1)%nat.
Proof. exact prefix_attr_refuted. Qed.

Open Scope R_scope.
Theorem C83_pdq_length_points : forall colpts t order ptype tau p,
  Bounds t -> (1 <= order)%nat -> colpts order ptype = Ok tau -> Nodes order tau ->
  pdq_ colpts t order ptype = Ok p ->
  pq_num p = ivals t /\ pq_order p = order /\ 0 < pq_length p /\
  (exists x y, In x (pq_pts p) /\ In y (pq_pts p) /\ pq_length p = y - x) /\
  forall x y, In x (pq_pts p) -> In y (pq_pts p) -> y - x <= pq_length p.
Proof. exact pdq_length_points. Qed.

Theorem C83_pdq_length_bounds : forall colpts t order ptype tau p,
  Bounds t -> (1 <= order)%nat -> colpts order ptype = Ok tau -> Nodes order tau ->
  pdq_ colpts t order ptype = Ok p ->
  pq_length p = node t (ivals t) - node t 0 - (1 - node tau order) * step t (ivals t - 1) /\
  (pq_length p = node t (ivals t) - node t 0 <-> node tau order = 1).
Proof. exact pdq_length_bounds. Qed.

Print Assumptions C80_separate_restored_partial.
Print Assumptions C80_together_exact.
Print Assumptions C80_same_structure_first.
Print Assumptions C80_mutable_never.
Print Assumptions C80_mutable_alone.
Print Assumptions C81_squared_repeated_blocks.
Print Assumptions C81_block_element.
Print Assumptions C81_squared_repeated_bad.
Print Assumptions C81_squared_repeated_default.
Print Assumptions C82_prefix_attr_exact_partial.
Print Assumptions C82_view_attr.
Print Assumptions C80_pickle_same_structure_refuted.
Print Assumptions C80_pickle_sub_structure_refuted.
Print Assumptions C80_pickle_stale_refuted.
Print Assumptions C82_prefix_attr_refuted.
Print Assumptions C83_pdq_length_points.
Print Assumptions C83_pdq_length_bounds.
