(** Model of the CasADi-independent structure framework and of
    [CasadiStructure.__init__] (structure3.py). *)
From Verif Require Import PyBase IndexModel DMModel.

(** structure3.py:279, 1335-1357: an element of [order] is a name or a tuple of names. *)
Inductive oelem := OName (s : string) | OGroup (l : list string).

(** An entry (structure3.py:162-166 [StructEntry], 1175-1318 [CasadiStructEntry]):
    name, repeat dims, sub-structure, sparsity, [type == "symm"], the
    'originalsparsity' attribute (present only for symmetric entries),
    shapestruct.  A structure (275-291) is its list of entries and its order. *)
Inductive entry :=
| mkEntry (name : string) (dims : list Z) (st : option structure) (sp : spy)
          (symm : bool) (orig : option spy) (shape : option (list sdim))
with structure :=
| mkStruct (entries : list entry) (order : list oelem)
with sdim := SDS (s : structure) | SDI (n : Z).

(** structure3.py:163-166: the attributes *)
Definition e_name (e : entry) := let (n, _, _, _, _, _, _) := e in n.
(** structure3.py:163-166 [dims] *)
Definition e_dims (e : entry) := let (_, d, _, _, _, _, _) := e in d.
(** structure3.py:163-166 [struct] *)
Definition e_struct (e : entry) := let (_, _, s, _, _, _, _) := e in s.
(** structure3.py:1228-1244 [sparsity] *)
Definition e_sp (e : entry) := let (_, _, _, sp, _, _, _) := e in sp.
(** structure3.py:1303-1307 [type='symm'] *)
Definition e_symm (e : entry) := let (_, _, _, _, b, _, _) := e in b.
(** [originalsparsity], read by structure3.py:626 *)
Definition e_orig (e : entry) := let (_, _, _, _, _, o, _) := e in o.
(** structure3.py:1246-1255 [shapestruct] *)
Definition e_shape (e : entry) := let (_, _, _, _, _, _, sh) := e in sh.
(** structure3.py:278-279: the attributes *)
Definition s_entries (s : structure) := let (es, _) := s in es.
(** structure3.py:278-279 [order] *)
Definition s_order (s : structure) := let (_, o) := s in o.

(** structure3.py:183-184 [isPrimitive] *)
Definition isPrimitive (e : entry) : bool := match e_struct e with None => true | Some _ => false end.

(** structure3.py:280: names occurring in the order, flattened ([keyslist], [keys()]). *)
Definition oelem_names (o : oelem) : list string := match o with OName s => [s] | OGroup l => l end.
(** structure3.py:280, 293-294 [keys()] *)
Definition s_keys (s : structure) : list string := flat_map oelem_names (s_order s).

(** [s in l] *)
Definition str_mem (s : string) (l : list string) : bool := existsb (String.eqb s) l.

(** structure3.py:276-291 [Structure.__init__]: default order, and the check that
    every name in the order is the name of an entry. *)
Definition structure_init (entries : list entry) (order : option (list oelem)) : res structure :=
  let names := map e_name entries in
  let ord := match order with None => map OName names | Some o => o end in
  if forallb (fun n => str_mem n names) (flat_map oelem_names ord)
  then Ok (mkStruct entries ord) else Err EException.

(** The dictionary of a structure (282): names to entries (or to anything computed
    from the entry); later entries overwrite earlier ones of the same name. *)
Definition s_dict (s : structure) : list (string * entry) :=
  pydict (map (fun e => (e_name e, e)) (s_entries s)).

(** structure3.py:186-193 [StructEntry.traverseCanonicalIndex], given the children
    (which are [[]] for a primitive entry or at the depth limit). *)
Definition entry_indices (name : string) (dims : list Z) (children : list cidx) : list cidx :=
  combine_ [[[KS name]]; listindices dims; children].
(** structure3.py:186-193 with [nest=True] *)
Definition entry_indices_nest (name : string) (dims : list Z) (children : list cidx) : list (list cidx) :=
  map (fun i => combine_ [[[KS name]]; i; children]) (listindices_nest dims).

(** structure3.py:309-317 [Structure.traverseCanonicalIndex], given for each name
    its dims and children.  The look-up of an unknown name cannot fail after
    [structure_init]; it contributes nothing here. *)
Definition order_indices (d : list (string * (list Z * list cidx))) (order : list oelem) : list cidx :=
  let look (n : string) : list Z * list cidx :=
      match dict_get n d with Some x => x | None => ([0%Z], []) end in
  flat_map (fun o =>
    match o with
    | OName n => entry_indices n (fst (look n)) (snd (look n))
    | OGroup ns =>
        concat (intersperse (map (fun n => entry_indices_nest n (fst (look n)) (snd (look n))) ns))
    end) order.

(** The recursion of lines 186-193 and 309-317, with the depth limit as an integer
    (it is compared with 0 only in [StructEntry.traverseCanonicalIndex]). *)
Fixpoint e_children (e : entry) (limit : Z) : list cidx :=
  match e with
  | mkEntry _ _ st _ _ _ _ =>
      match st with
      | None => [[]]
      | Some s => if (limit =? 0)%Z then [[]] else s_traverse s (limit - 1)
      end
  end
with s_traverse (s : structure) (limit : Z) : list cidx :=
  match s with
  | mkStruct es order =>
      order_indices
        (pydict (map (fun e => (e_name e, (e_dims e, e_children e (limit - 1)))) es)) order
  end.

(** structure3.py:309 default [limit=1000]. *)
Definition traverseCanonicalIndex (s : structure) : list cidx := s_traverse s 1000.

(** structure3.py:195-196, 319-324 [getStructEntryByStructIndex].
    Entry level: [self.struct.getStructEntryByStructIndex(rest)] (an AttributeError
    when the entry has no structure); an unknown name raises. *)
Fixpoint getStructEntryByStructIndex (names : list string) (s : structure) : res entry :=
  match names with
  | [] => Err EIndex
  | n :: rest =>
      match dict_get n (s_dict s) with
      | None => Err EException
      | Some e =>
          match rest with
          | [] => Ok e
          | _ => match e_struct e with
                 | None => Err EAttr
                 | Some s' => getStructEntryByStructIndex rest s'
                 end
          end
      end
  end.

(** structure3.py:326-327 [getStructEntryByCanonicalIndex] *)
Definition cidx_names (ci : cidx) : list string :=
  flat_map (fun k => match k with KS s => [s] | KI _ => [] end) ci.
(** structure3.py:326-327 [getStructEntryByCanonicalIndex] *)
Definition getStructEntryByCanonicalIndex (s : structure) (ci : cidx) : res entry :=
  getStructEntryByStructIndex (cidx_names ci) s.

(** Python dictionaries keyed by canonical indices. *)
Fixpoint cmap_get {V} (k : cidx) (d : list (cidx * V)) : option V :=
  match d with
  | [] => None
  | (k', v) :: d' => if cidx_eqb k k' then Some v else cmap_get k d'
  end.
(** [d[k] = v] *)
Fixpoint cmap_set {V} (k : cidx) (v : V) (d : list (cidx * V)) : list (cidx * V) :=
  match d with
  | [] => [(k, v)]
  | (k', v') :: d' => if cidx_eqb k k' then (k', v) :: d' else (k', v') :: cmap_set k v d'
  end.

(** [CasadiStructure.map] *)
Definition imap := list (cidx * dm nat).

(** The state of the loop in [CasadiStructure.__init__] (802-820). *)
Record build := Build {
  b_k : nat;                                   (* global index counter *)
  b_map : imap;                                (* self.map *)
  b_lut : list (cidx * nat * (nat * nat));     (* self.lookuptable: (it, kk, (col, row)) *)
  b_hmap : list (cidx * list (dm nat))         (* hmap *)
}.

(** structure3.py:815-819, for one ancestor. *)
Definition hmap_add (m : dm nat) (h : list (cidx * list (dm nat))) (a : cidx) :=
  match cmap_get a h with
  | Some l => cmap_set a (l ++ [m]) h
  | None => cmap_set a [m] h
  end.

(** structure3.py:807-819, one iteration of the loop. *)
Definition build_step (s : structure) (b : build) (i : cidx) : res build :=
  let* e := getStructEntryByCanonicalIndex s i in
  let sp := e_sp e in
  let m := DM sp (seq (b_k b) (sp_nnz sp)) in
  let* anc := canonicalIndexAncestors i in
  Ok {| b_k := b_k b + sp_nnz sp;
        b_map := cmap_set i m (b_map b);
        b_lut := b_lut b ++
                 map (fun kp => (i, fst kp, (snd (snd kp), fst (snd kp))))
                     (List.combine (seq 0 (sp_nnz sp)) (sp_pat sp));
        b_hmap := fold_left (hmap_add m) (tl anc) (b_hmap b) |}.

(** structure3.py:807-819: the loop *)
Fixpoint build_loop (s : structure) (l : list cidx) (b : build) : res build :=
  match l with
  | [] => Ok b
  | i :: l' => let* b' := build_step s b i in build_loop s l' b'
  end.

(** A built CasadiStructure: size, map and look-up table. *)
Record cstruct := CStruct {
  cs_struct : structure;
  cs_size : nat;
  cs_map : imap;
  cs_lut : list (cidx * nat * (nat * nat))
}.

(** structure3.py:820-823: [hmap[k] = vertcat of the nonzeros]; [map.update(hmap)]. *)
Definition hmap_close (h : list (cidx * list (dm nat))) : list (cidx * dm nat) :=
  map (fun kv => (fst kv, dm_col (flat_map (@dm_nz nat) (snd kv)))) h.

(** structure3.py:798-841 [CasadiStructure.__init__] (after [Structure.__init__]). *)
Definition casadi_structure (s : structure) : res cstruct :=
  let* b := build_loop s (traverseCanonicalIndex s) (Build 0 [] [] []) in
  Ok {| cs_struct := s;
        cs_size := b_k b;
        cs_map := fold_left (fun m kv => cmap_set (fst kv) (snd kv) m) (hmap_close (b_hmap b)) (b_map b);
        cs_lut := b_lut b |}.

(** structure3.py:846-859 [getCanonicalIndex(i, extraMode)]. *)
Definition getCanonicalIndex (c : cstruct) (i : Z) (extraMode : Z) : res cidx :=
  if ((i <? 0) || (Z.of_nat (cs_size c) <=? i))%Z then Err EException else
  match nth_error (cs_lut c) (Z.to_nat i) with
  | None => Err EIndex
  | Some (can, k, p) =>
      if (extraMode =? 0)%Z then Ok can
      else if (extraMode =? 1)%Z then Ok (can ++ [KI (Z.of_nat k)])
      else Ok (can ++ [KI (Z.of_nat (fst p)); KI (Z.of_nat (snd p))])
  end.

(** structure3.py:861-862 [canonicalIndices]. *)
Definition canonicalIndices (c : cstruct) (extraMode : Z) : res (list cidx) :=
  rmapM (fun i => getCanonicalIndex c i extraMode) (pyrange (Z.of_nat (cs_size c))).
