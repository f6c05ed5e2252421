(** Model of the concrete structure classes (structure3.py:444-582, 696-763, 768-1168,
    1407-1486): calls, parseMatrix, symbolic and expression structures, views,
    prefixes, pickling. *)
From Verif Require Import PyBase IndexModel DMModel StructModel PowerModel EntryModel.
Open Scope nat_scope.

Section Structs.
Context {T : Type} (zero : T).
Notation rval := (rval T).
Notation pel := (pel T).
Notation pay := (pay T).
Notation env := (env T).
Notation pstate := (pstate T).

(** A Structured object: its structure and its mutable state. *)
Record sobj := SObj { so_c : cstruct; so_env : env; so_st : pstate }.
(** structure3.py:651-654 [s[pi]] *)
Definition so_get (o : sobj) (pi : list pel) : res rval := getitem zero (cs_struct (so_c o)) (so_env o) pi (so_st o).
(** structure3.py:656-660 [s[pi] = v] *)
Definition so_set (o : sobj) (pi : list pel) (v : pay) : sobj * res rval :=
  let (st, r) := setitem zero (cs_struct (so_c o)) (so_env o) pi v (so_st o) in
  (SObj (so_c o) (so_env o) st, r).
(** structure3.py:885-890 [cat] *)
Definition so_cat (o : sobj) : list T := ps_master (so_st o).

(** A sequence of assignments [self[k] = v]; an exception ends it. *)
Fixpoint so_sets (o : sobj) (l : list (list pel * pay)) : res sobj :=
  match l with
  | [] => Ok o
  | (pi, v) :: l' =>
      match so_set o pi v with
      | (o', Ok _) => so_sets o' l'
      | (_, Err e) => Err e
      end
  end.

(** The elements of a column as stored in [master].  Simplification: structurally zero
    elements of the argument are stored as the value zero (CasADi keeps them out of the
    pattern of [master]). *)
Definition column (d : dm T) : list T :=
  map (fun i => match dm_at d (i, 0) with Some v => v | None => zero end) (seq 0 (dm_nr d)).

(** structure3.py:1038-1057 [MatrixStruct.__init__] for a given structure (so without
    entries carrying expressions) and for DM and SX: [nan] is the fill value
    [mtype.nan(size, 1)]. *)
Definition numeric_struct (nan : T) (c : cstruct) (data : option (dm T)) : res sobj :=
  let en := Env (cs_map c) [] KPlain [] in
  match data with
  | None => Ok (SObj c en (PState (repeat nan (cs_size c)) [] []))
  | Some d =>
      if negb (dm_nr d =? cs_size c) then Err EException
      else if negb (dm_nc d =? 1) && (0 <? dm_nr d) then Err EException
      else Ok (SObj c en (PState (column d) [] []))
  end.

(** Arguments of [s(arg)] (structure3.py:483-508): a dict, or a numeric matrix after
    [argtype] (447-481). *)
Inductive call_arg := CDict (kv : list (string * pay)) | CMat (d : dm T).

(** [set(a) == set(b)] for lists of names *)
Definition same_keys (a b : list string) : bool := forallb (fun k => str_mem k b) a && forallb (fun k => str_mem k a) b.

(** [DM.ones(r, c)*a] for a scalar [a] *)
Definition fill_scalar (r c : nat) (d : dm T) : dm T :=
  match dm_nz d with
  | [] => DM (Spy r c []) []
  | a :: _ => DM (sp_dense r c) (repeat a (r * c))
  end.

(** structure3.py:483-508 [__call__] *)
Definition call_struct (nan : T) (c : cstruct) (arg : call_arg) : res sobj :=
  match arg with
  | CDict kv =>
      if negb (same_keys (map fst kv) (s_keys (cs_struct c))) then Err EException else
      let* o := numeric_struct nan c None in
      let* kvs := rmapM (fun k => match dict_get k kv with Some v => Ok ([PStr k], v) | None => Err EKey end)
                        (s_keys (cs_struct c)) in
      so_sets o kvs
  | CMat d =>
      let d' := if (dm_nr d =? 1) && (dm_nc d =? 1) && negb (cs_size c =? 1)
                then fill_scalar (cs_size c) 1 d else d in
      numeric_struct nan c (Some d')
  end.

(** A numpy array: 1-dimensional or 2-dimensional (rows). *)
Inductive nparray := A1 (l : list T) | A2 (nr nc : nat) (f : nat -> nat -> T).
(** [np.atleast_2d(data)] *)
Definition atleast_2d (a : nparray) : nat * nat * (nat -> nat -> T) :=
  match a with
  | A1 l => (1, length l, fun _ j => nth j l zero)
  | A2 nr nc f => (nr, nc, f)
  end.

(** [horzcat( *l)] of matrices; an empty list gives an empty matrix; anything but
    matrices raises. *)
Fixpoint mats (l : list rval) : option (list (dm T)) :=
  match l with
  | [] => Some []
  | RMat m :: l' => match mats l' with Some ms => Some (m :: ms) | None => None end
  | _ :: _ => None
  end.
(** [horzcat(a, b)] *)
Definition horzcat2 (a b : dm T) : dm T :=
  DM (Spy (dm_nr a) (dm_nc a + dm_nc b)
          (sp_pat (dm_sp a) ++ map (fun p => (fst p, dm_nc a + snd p)) (sp_pat (dm_sp b))))
     (dm_nz a ++ dm_nz b).
(** [horzcat( *l)] *)
Definition horzcat (l : list rval) : res (dm T) :=
  match mats l with
  | None => Err ENotImpl
  | Some [] => Ok (DM (sp_dense 0 0) [])
  | Some (m :: ms) =>
      if forallb (fun x => dm_nr x =? dm_nr m) ms then Ok (fold_left horzcat2 ms m) else Err EException
  end.

(** structure3.py:509-519 [parseMatrix] *)
Definition parse_matrix (nan : T) (c : cstruct) (a : nparray) : res (list (string * dm T)) :=
  let '(nr, nc, f) := atleast_2d a in
  rmapM (fun k =>
    let* cols := rmapM (fun j =>
        let* o := call_struct nan c (CMat (dm_col (map (fun i => f i j) (seq 0 nr)))) in
        so_get o [PStr k]) (seq 0 nc) in
    let* m := horzcat cols in Ok (k, m)) (s_keys (cs_struct c)).

(** structure3.py:965-996 [VertsplitStructure.buildMap].  [vertsplit] cuts the vector
    [parent] at the given offsets; it raises when the offsets are not ascending. *)
Fixpoint vertsplit (v : list T) (sizes : list nat) : res (list (list T)) :=
  match sizes with
  | [] => match v with [] => Ok [] | _ => Err EException end
  | n :: rest =>
      match rest with
      | [] => Ok [v]
      | _ => if n <=? length v then let* cs := vertsplit (skipn n v) rest in Ok (firstn n v :: cs)
             else Err EException
      end
  end.
(** [k if k.sparsity() == sp else MX(sp, k)] for a dense column [k] *)
Definition with_sparsity (sp : spy) (v : list T) : res (dm T) :=
  if length v =? sp_nnz sp then Ok (DM sp v) else Err EException.

(** [for a, b in zip(l, l2)] *)
Fixpoint rzip {A B C} (f : A -> B -> res C) (l : list A) (l' : list B) : res (list C) :=
  match l, l' with
  | a :: l, b :: l' => let* c := f a b in let* cs := rzip f l l' in Ok (c :: cs)
  | _, _ => Ok []
  end.

(** What buildMap needs of an entry: its sparsity (a dense column for a sub-structure)
    and the recursive call. *)
Definition bmap := list (cidx * dm T).
(** structure3.py:973-996: one level *)
Definition build_items (d : list (string * (spy * (list T -> cidx -> res bmap)))) (its : list cidx)
  (parent : list T) (pre : cidx) : res bmap :=
  let* es := rmapM (fun it => match it with
                              | KS n :: _ => match dict_get n d with Some x => Ok (it, x) | None => Err EException end
                              | _ => Err EException
                              end) its in
  let* chunks := vertsplit parent (map (fun x => sp_nnz (fst (snd x))) es) in
  rmap (@concat _) (rzip (fun x k =>
    let* sub := snd (snd x) k (pre ++ fst x) in
    let* m := with_sparsity (fst (snd x)) k in
    Ok (sub ++ [(pre ++ fst x, m)])) es chunks).

(** structure3.py:980-984, 994-996: what is used of an entry *)
Fixpoint buildE (e : entry) : spy * (list T -> cidx -> res bmap) :=
  match e with
  | mkEntry _ _ None sp _ _ _ => (sp, fun _ _ => Ok [])
  | mkEntry _ _ (Some s) _ _ _ _ =>
      (match casadi_structure s with Ok c => sp_dense (cs_size c) 1 | Err _ => sp_dense 0 1 end, buildS s)
  end
with buildS (s : structure) : list T -> cidx -> res bmap :=
  match s with
  | mkStruct es order =>
      build_items (pydict (map (fun e => (e_name e, buildE e)) es)) (s_traverse (mkStruct es order) 1)
  end.
(** structure3.py:966-968 [self.buildMap()] *)
Definition buildMap (s : structure) (master : list T) : res bmap := buildS s master [].

(** structure3.py:998-1010 [msymStruct] and 1088-1092 [MXStruct] (with data): the
    elements of the master vector are given; later entries of the list overwrite earlier
    ones (they have different keys). *)
Definition mx_struct (c : cstruct) (master : list T) : res sobj :=
  if negb (length master =? cs_size c) then Err EException else
  let* pm := buildMap (cs_struct c) master in
  Ok (SObj c (Env (cs_map c) pm KPlain []) (PState master [] [])).

(** structure3.py:1038-1057, 1081-1083, 1088-1092 with a list of entries: [struct_SX] and
    [struct_MX_mutable] of expressions: every entry needs 'expr'; the expressions are
    assigned to a NaN vector in declaration order. *)
Definition has_expr (ce : centry T) : bool := match ce_expr ce with Some _ => true | None => false end.
(** structure3.py:1056-1057, 1113-1114: [self[e.name] = e.expr] for the entries *)
Definition expr_sets (el : elist T) : list (list pel * pay) :=
  flat_map (fun ce => match ce_expr ce with Some v => [([PStr (ce_name ce)], pay_of_val v)] | None => [] end) (el_entries el).
(** structure3.py:1081-1083 [struct_SX] *)
Definition struct_SX (nan : T) (l : list (item_arg T)) : res sobj :=
  let* (el, c) := struct_ l None in
  if negb (forallb has_expr (el_entries el)) then Err EException else
  let* o := numeric_struct nan c None in
  so_sets o (expr_sets el).
(** structure3.py:1088-1092 [struct_MX_mutable] *)
Definition struct_MX_mutable (nan : T) (l : list (item_arg T)) : res sobj :=
  let* o := struct_SX nan l in
  let* pm := buildMap (cs_struct (so_c o)) (so_cat o) in
  Ok (SObj (so_c o) (Env (cs_map (so_c o)) pm KPlain []) (so_st o)).

(** structure3.py:1100-1135 [MXVeccatStruct]: [storage] and [mapping] by first-level
    indices. *)
Definition veccat_mapping (s : structure) : list (cidx * nat) :=
  List.combine (s_traverse s 1) (seq 0 (length (s_traverse s 1))).
(** structure3.py:1107-1111 *)
Definition veccat_init (c : cstruct) : sobj :=
  let mp := veccat_mapping (cs_struct c) in
  SObj c (Env (cs_map c) [] KPlain (fold_left (fun d kv => cmap_set (fst kv) (snd kv) d) mp []))
       (PState [] [] (repeat None (length mp))).
(** structure3.py:1118-1135 [s[pi] = v] *)
Definition veccat_set (o : sobj) (pi : list pel) (v : pay) : sobj * res rval :=
  let (st, r) := travS zero (cs_struct (so_c o)) (so_env o) MInject pi [] v (so_st o) in
  (SObj (so_c o) (so_env o) st, r).
(** structure3.py:1113-1114 *)
Fixpoint veccat_sets (o : sobj) (l : list (list pel * pay)) : res sobj :=
  match l with
  | [] => Ok o
  | (pi, v) :: l' =>
      match veccat_set o pi v with
      | (o', Ok _) => veccat_sets o' l'
      | (_, Err e) => Err e
      end
  end.
(** structure3.py:1102-1116 [struct_MX] *)
Definition struct_MX (l : list (item_arg T)) (order : option (list oelem)) : res sobj :=
  let* (el, c) := struct_ l order in
  if negb (forallb has_expr (el_entries el)) then Err EException else
  veccat_sets (veccat_init c) (expr_sets el).
(** structure3.py:1152-1161 [master]: raises while something is missing. *)
Fixpoint somes {A} (l : list (option A)) : option (list A) :=
  match l with
  | [] => Some []
  | Some a :: l' => match somes l' with Some l'' => Some (a :: l'') | None => None end
  | None :: _ => None
  end.
(** structure3.py:1152-1161 [master] *)
Definition veccat_master (o : sobj) : res (list T) :=
  match somes (ps_storage (so_st o)) with
  | None => Err EException
  | Some ms => Ok (flat_map (@dm_nz T) ms)
  end.
(** [s[powerIndex]]: the getter reads [self.master] (structure3.py:601). *)
Definition veccat_get (o : sobj) (pi : list pel) : res rval :=
  let* m := veccat_master o in
  getitem zero (cs_struct (so_c o)) (so_env o) pi (PState m [] []).

(** structure3.py:523-582: the views.  Each builds a structure with the single entry
    "t" around the matrix [a] (dense, given by its elements in column-major order) and
    returns [prefix["t"]]. *)
Record view := View { vw_obj : sobj; vw_prefix : list pel }.
(** structure3.py:741-743 [V[pi]] *)
Definition view_get (v : view) (pi : list pel) : res rval := so_get (vw_obj v) (vw_prefix v ++ pi).
(** structure3.py:745-747 [V[pi] = p] *)
Definition view_set (v : view) (pi : list pel) (p : pay) : view * res rval :=
  let (o, r) := so_set (vw_obj v) (vw_prefix v ++ pi) p in (View o (vw_prefix v), r).
(** structure3.py:724-731 [cast] with castmaster: the matrix [master.a] *)
Definition view_matrix (v : view) : list T :=
  match en_kind (so_env (vw_obj v)) with KRep => ps_mirror (so_st (vw_obj v)) | _ => ps_master (so_st (vw_obj v)) end.

(** [struct([entry("t", ...)])] *)
Definition t_struct (e : res (centry T)) : res cstruct :=
  let* ce := e in
  let* (_, c) := struct_ [IOne (AEntry ce)] None in Ok c.
(** structure3.py:1418, 1433, 1450, 1474: [assert(a.is_dense())] *)
Definition dense_elems (d : dm T) : res (list T) :=
  if sp_is_dense (dm_sp d) then Ok (dm_nz d) else Err EAssert.
(** structure3.py:1043-1054 for a DataReference of shape (n, 1) *)
Definition ref_struct (c : cstruct) (k : mkind) (n : nat) (v a : list T) : res sobj :=
  if negb (n =? cs_size c) then Err EException
  else Ok (SObj c (Env (cs_map c) [] k []) (PState v a [])).

(** structure3.py:523-536 [repeated], 1416-1429 *)
Definition repeated_ (s : structure) (c : cstruct) (a : dm T) : res view :=
  if negb (dm_nr a =? cs_size c) then Err EException else
  let* ct := t_struct (entry_init "t" [("struct"%string, VStructure s); ("repeat"%string, VInt (Z.of_nat (dm_nc a)))]) in
  let* v := dense_elems a in
  let* o := ref_struct ct KRep (dm_nc a * dm_nr a) v v in
  Ok (View o [PStr "t"]).

(** structure3.py:538-551 [squared], 1431-1446.  Simplification: the broadcast of a
    structurally zero scalar is left sparse and then fails the assertion. *)
Definition product_ (s : structure) (c : cstruct) (s2 : structure) (c2 : cstruct) (a : dm T) : res view :=
  let a := if dm_is_scalar a && negb (cs_size c =? 1) then fill_scalar (cs_size c) (cs_size c2) a else a in
  if negb ((dm_nc a =? cs_size c2) && (dm_nr a =? cs_size c)) then Err EException else
  let* ct := t_struct (entry_init "t" [("shapestruct"%string, VTuple [VStructure s; VStructure s2])]) in
  let* v := dense_elems a in
  let* o := ref_struct ct KNz (dm_nr a * dm_nc a) v [] in
  Ok (View o [PStr "t"]).
(** structure3.py:553-566 [product], 1448-1470: [squared] is the same with twice the same
    structure (compare lines 538-551). *)
Definition squared_ (s : structure) (c : cstruct) (a : dm T) : res view := product_ s c s c a.

(** structure3.py:568-582 [squared_repeated], 1472-1486; the modulo of line 571 is
    evaluated only if the number of rows is right. *)
Definition squared_repeated_ (s : structure) (c : cstruct) (a : dm T) : res view :=
  if negb (dm_nr a =? cs_size c) then Err EException else
  if cs_size c =? 0 then Err EZeroDiv else
  if negb (dm_nc a mod cs_size c =? 0) then Err EException else
  let* ct := t_struct (entry_init "t" [("shapestruct"%string, VTuple [VStructure s; VStructure s]);
                                       ("repeat"%string, VInt (Z.of_nat (dm_nc a / cs_size c)))]) in
  let* v := dense_elems a in
  let* o := ref_struct ct KRep (cs_size c * cs_size c * (dm_nc a / cs_size c)) v v in
  Ok (View o [PStr "t"]).

(** structure3.py:741-763 [PrefixConstructor] and [Prefixer]: access through a prefix. *)
Record prefixer := Prefixer { px_obj : sobj; px_prefix : list pel }.
(** structure3.py:761-763 [s.prefix[p]] *)
Definition prefix_ (o : sobj) (p : list pel) : prefixer := Prefixer o p.
(** structure3.py:741-743 *)
Definition prefix_get (x : prefixer) (pi : list pel) : res rval := so_get (px_obj x) (px_prefix x ++ pi).
(** structure3.py:745-747 *)
Definition prefix_set (x : prefixer) (pi : list pel) (v : pay) : prefixer * res rval :=
  let (o, r) := so_set (px_obj x) (px_prefix x ++ pi) v in (Prefixer o (px_prefix x), r).
(** structure3.py:738-739 *)
Definition prefix_call (x : prefixer) : res rval := so_get (px_obj x) (px_prefix x).
End Structs.

(** structure3.py:792-796, 1326-1327: a pickled CasadiStructure is rebuilt from its
    entries and its order; a pickled entry keeps name, struct, sparsity, type, repeat,
    shapestruct and dims, and loses 'originalsparsity'. *)
Fixpoint pickle_e (e : entry) : entry :=
  match e with
  | mkEntry n d st sp sy _ sh =>
      mkEntry n d (match st with None => None | Some s => Some (pickle_s s) end) sp sy None
              (match sh with None => None | Some l => Some (map pickle_d l) end)
  end
with pickle_s (s : structure) : structure :=
  match s with mkStruct es o => mkStruct (map pickle_e es) o end
with pickle_d (d : sdim) : sdim := match d with SDS s => SDS (pickle_s s) | SDI n => SDI n end.
(** structure3.py:792-793 *)
Definition unpickle (s : structure) : res cstruct :=
  let* s' := structure_init (map pickle_e (s_entries s)) (Some (s_order s)) in
  casadi_structure s'.
(** structure3.py:1065-1073: a DMStruct is rebuilt from the structure and [master]. *)
Definition unpickle_obj {T} (o : sobj (T := T)) : res (sobj (T := T)) :=
  let* c := unpickle (cs_struct (so_c o)) in
  if negb (length (so_cat o) =? cs_size c) then Err EException
  else Ok (SObj c (Env (cs_map c) [] KPlain []) (PState (so_cat o) [] [])).

Arguments sobj : clear implicits.
Arguments view : clear implicits.
Arguments prefixer : clear implicits.
Arguments call_arg : clear implicits.
Arguments nparray : clear implicits.
