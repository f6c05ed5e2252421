(** Specification vocabulary for the layout of structures.  It uses the data type
    of structures but none of the functions of the model that traverse them. *)
From Coq Require Import Permutation Sorted.
From Verif Require Import PyBase IndexModel DMModel StructModel.

(** Round-robin reading of several lists: all first elements in argument order,
    then all second elements, and so on; exhausted lists are skipped. *)
Definition round_robin {A} (ls : list (list A)) : list A :=
  flat_map (fun k => flat_map (fun l => match nth_error l k with Some x => [x] | None => [] end) ls)
           (seq 0 (list_max (map (@length A) ls))).

(** Integer tuples addressing one repeat of an entry. *)
Definition InDims (idx dims : list Z) : Prop := Forall2 (fun i d => (0 <= i < d)%Z) idx dims.

(** [Leaf s ci e]: [ci] is the full index of one leaf of [s], declared by the
    primitive entry [e] (possibly inside nested structures). *)
Inductive Leaf : structure -> cidx -> entry -> Prop :=
| Leaf_prim : forall s e idx,
    In e (s_entries s) -> e_struct e = None -> InDims idx (e_dims e) ->
    Leaf s (KS (e_name e) :: map KI idx) e
| Leaf_sub : forall s e idx s' ci e',
    In e (s_entries s) -> e_struct e = Some s' -> InDims idx (e_dims e) ->
    Leaf s' ci e' ->
    Leaf s (KS (e_name e) :: map KI idx ++ ci) e'.

(** [Block s p s']: [p] is the full index (all repeats given) of one copy of the
    sub-structure [s'] inside [s], at any depth. *)
Inductive Block : structure -> cidx -> structure -> Prop :=
| Block_here : forall s e idx s',
    In e (s_entries s) -> e_struct e = Some s' -> InDims idx (e_dims e) ->
    Block s (KS (e_name e) :: map KI idx) s'
| Block_sub : forall s e idx s' p s'',
    In e (s_entries s) -> e_struct e = Some s' -> InDims idx (e_dims e) ->
    Block s' p s'' ->
    Block s (KS (e_name e) :: map KI idx ++ p) s''.

(** Column-major strict order of positions; a pattern as CasADi stores it. *)
Definition pos_lt (p q : nat * nat) : Prop := snd p < snd q \/ (snd p = snd q /\ fst p < fst q).
Definition SpOk (s : spy) : Prop :=
  StronglySorted pos_lt (sp_pat s) /\ Forall (fun p => fst p < sp_nr s /\ snd p < sp_nc s) (sp_pat s).

(** Well-formed structures: at every level the names are distinct, the order
    mentions every declared name exactly once (in any grouping), and patterns
    are proper.  [EntryProofs] shows that this is what [struct([...])] produces
    when no explicit order is given. *)
Inductive Wf : structure -> Prop :=
| Wf_intro : forall es order,
    NoDup (map e_name es) ->
    Permutation (flat_map oelem_names order) (map e_name es) ->
    (forall e, In e es -> SpOk (e_sp e)) ->
    (forall e s', In e es -> e_struct e = Some s' -> Wf s') ->
    Wf (mkStruct es order).

(** Number of repeats, size of an entry and of a structure. *)
Definition dims_count (dims : list Z) : nat := fold_right (fun d n => Z.to_nat d * n) 1 dims.
Fixpoint e_size (e : entry) : nat :=
  match e with
  | mkEntry _ dims st sp _ _ _ =>
      dims_count dims * match st with None => sp_nnz sp | Some s => s_size s end
  end
with s_size (s : structure) : nat :=
  match s with mkStruct es _ => list_sum (map e_size es) end.

(** The same entries without grouping, in declaration order, at every level. *)
Definition ungroup (s : structure) : structure := mkStruct (s_entries s) (map OName (s_keys s)).

(** Two structures that differ only in the order and grouping of their entries, at
    any level. *)
Inductive Regroup : structure -> structure -> Prop :=
| Regroup_intro : forall es es' o o',
    Forall2 RegroupE es es' ->
    Permutation (flat_map oelem_names o) (flat_map oelem_names o') ->
    Regroup (mkStruct es o) (mkStruct es' o')
with RegroupE : entry -> entry -> Prop :=
| RegroupE_prim : forall n d sp sy orig sh,
    RegroupE (mkEntry n d None sp sy orig sh) (mkEntry n d None sp sy orig sh)
| RegroupE_sub : forall n d s s' sp sy orig sh,
    Regroup s s' ->
    RegroupE (mkEntry n d (Some s) sp sy orig sh) (mkEntry n d (Some s') sp sy orig sh).

(** [x] occurs before [y] in [l]. *)
Definition precedes {A} (l : list A) (x y : A) : Prop := exists a b c, l = a ++ x :: b ++ y :: c.

(** [ci] is an index of entry [e] whose first repeat index is [k] (an entry without
    repeats counts as a single block 0). *)
Definition first_repeat (e : entry) (ci : cidx) (k : Z) : Prop :=
  match e_dims e with
  | [] => k = 0%Z /\ exists c, ci = KS (e_name e) :: c
  | _ => exists c, ci = KS (e_name e) :: KI k :: c
  end.
