(** Model of [entry(...)] (structure3.py:1175-1333), [EntryList] (1335-1364) and
    [CasadiStructured.__init__] (914-928). *)
From Verif Require Import PyBase IndexModel DMModel StructModel PowerModel.
Open Scope nat_scope.

Section Entry.
Context {T : Type}.

(** Python values as far as the constructors distinguish them.  [VStructure s] is a
    CasadiStructure; [VStructured s m] a Structured object with [cat == m];
    [VSX valid m] an SX matrix with the result of [is_valid_input()]; [VMat] any other
    matrix (DM, MX).  [VOther] has neither a structure nor a sparsity. *)
Inductive kval :=
| VNone
| VInt (z : Z)
| VStr (s : string)
| VList (l : list kval)
| VTuple (l : list kval)
| VSp (sp : spy)
| VStructure (s : structure)
| VStructured (s : structure) (cat : dm T)
| VSX (valid : bool) (m : dm T)
| VMat (m : dm T)
| VOther.

(** [**kwargs]: Python guarantees that the keys are different. *)
Definition kwargs := list (string * kval).
(** [k in kwargs] *)
Definition has (k : string) (kw : kwargs) : bool := str_mem k (map fst kw).

(** A CasadiStructEntry: the part used by the structures, and 'sym' and 'expr'. *)
Record centry := CEntry { ce_entry : entry; ce_sym : option (dm T); ce_expr : option kval }.
(** [e.name] *)
Definition ce_name (e : centry) : string := e_name (ce_entry e).

(** structure3.py:1214, 1232 [is_integer] *)
Definition is_int (v : kval) : bool := match v with VInt _ => true | _ => false end.
(** [all([is_integer(x) for x in l])], with the integers *)
Fixpoint ints (l : list kval) : option (list Z) :=
  match l with
  | [] => Some []
  | VInt z :: l' => match ints l' with Some zs => Some (z :: zs) | None => None end
  | _ :: _ => None
  end.

(** [Sparsity.dense] with one or two integers (negative sizes raise).  Simplification:
    a pair given as a single argument, which CasADi accepts, raises here. *)
Definition sparsity_dense (l : list Z) : res spy :=
  let mk r c := if ((r <? 0) || (c <? 0))%Z then Err EException else Ok (sp_dense (Z.to_nat r) (Z.to_nat c)) in
  match l with
  | [r] => mk r 1%Z
  | [r; c] => mk r c
  | _ => Err ENotImpl
  end.

(** structure3.py:1189: the known keywords. *)
Definition kws : list string :=
  ["repeat"; "shape"; "sym"; "expr"; "struct"; "shapestruct"; "type"]%string.

(** structure3.py:1196-1206: the table of forbidden combinations. *)
Definition forbidden : list (string * list string) :=
  [("shape", ["struct"]);
   ("struct", ["shape"; "shapestruct"]);
   ("shapestruct", ["struct"]);
   ("sym", ["shape"; "repeat"; "expr"]);
   ("expr", ["shape"; "repeat"; "sym"])]%string.

(** structure3.py:1209-1215 *)
Definition kw_repeat (kw : kwargs) : res (list Z) :=
  let r := match dict_get "repeat"%string kw with
           | None => []
           | Some (VList l) => l
           | Some v => [v]
           end in
  match ints r with Some zs => Ok zs | None => Err EException end.

(** structure3.py:1218-1225: anything that is not a structure is ignored. *)
Definition kw_struct (kw : kwargs) : option structure :=
  match dict_get "struct"%string kw with
  | Some (VStructure s) | Some (VStructured s _) => Some s
  | _ => None
  end.

(** structure3.py:1228-1244 *)
Definition kw_shape (kw : kwargs) : res spy :=
  match dict_get "shape"%string kw with
  | None => sparsity_dense [1; 1]%Z
  | Some (VInt n) => sparsity_dense [n; 1]%Z
  | Some (VList l) | Some (VTuple l) =>
      if (length l =? 0) || (2 <? length l) then Err EException
      else match ints l with Some zs => sparsity_dense zs | None => Err ENotImpl end
  | Some (VSp sp) => Ok sp
  | Some _ => Err EException
  end.

(** structure3.py:1253-1255: components of a shapestruct tuple. *)
Definition shape_comp (v : kval) : option sdim :=
  match v with
  | VInt n => Some (SDI n)
  | VStructure s | VStructured s _ => Some (SDS s)
  | _ => None
  end.
(** structure3.py:1253-1255 *)
Fixpoint shape_comps (l : list kval) : option (list sdim) :=
  match l with
  | [] => Some []
  | v :: l' => match shape_comp v, shape_comps l' with Some d, Some ds => Some (d :: ds) | _, _ => None end
  end.
(** [e if is_integer(e) else e.size] *)
Definition sdim_size (d : sdim) : res Z :=
  match d with
  | SDI n => Ok n
  | SDS s => let* c := casadi_structure s in Ok (Z.of_nat (cs_size c))
  end.

(** structure3.py:1246-1260 *)
Definition kw_shapestruct (kw : kwargs) (sp : spy) : res (option (list sdim) * spy) :=
  match dict_get "shapestruct"%string kw with
  | None => Ok (None, sp)
  | Some v =>
      let* l := match v with
                | VStructure s | VStructured s _ => Ok [SDS s; SDI 1]
                | VTuple l =>
                    match shape_comps l with
                    | None => Err EException
                    | Some ds => if (length ds =? 0) || (2 <? length ds) then Err EException else Ok ds
                    end
                | _ => Err EException
                end in
      if has "shape" kw then Ok (Some l, sp)
      else let* zs := rmapM sdim_size l in
           let* sp' := sparsity_dense zs in Ok (Some l, sp')
  end.

(** structure3.py:1263-1273 *)
Definition kw_sym (kw : kwargs) (st : option structure) (sp : spy) : res (option (dm T) * option structure * spy) :=
  match dict_get "sym"%string kw with
  | None => Ok (None, st, sp)
  | Some (VSX true m) => Ok (Some m, st, dm_sp m)
  | Some (VStructured s m) => Ok (Some m, Some s, dm_sp m)
  | Some _ => Err EException
  end.

(** structure3.py:1280-1287 [getPrimitive]; [None] stands for Python's [None]. *)
Fixpoint getPrimitive (e : kval) (rep : list Z) : option kval * list Z :=
  match e with
  | VList [] => (None, rep ++ [0%Z])
  | VList ((x :: _) as l) => getPrimitive x (rep ++ [Z.of_nat (length l)])
  | VNone => (None, rep)
  | _ => (Some e, rep)
  end.

(** [p.sparsity()] where there is one. *)
Definition val_sparsity (v : kval) : option spy :=
  match v with
  | VSX _ m | VMat m => Some (dm_sp m)
  | VStructured s _ => match casadi_structure s with Ok c => Some (sp_dense (cs_size c) 1) | Err _ => None end
  | _ => None
  end.

(** structure3.py:1276-1301 *)
Definition kw_expr (kw : kwargs) (rep : list Z) (sp : spy) : res (option kval * list Z * spy) :=
  match dict_get "expr"%string kw with
  | None => Ok (None, rep, sp)
  | Some e =>
      let ex := match e with VNone => None | _ => Some e end in
      match getPrimitive e [] with
      | (None, _) => Ok (ex, [0%Z], sp_dense 0 0)
      | (Some p, r) =>
          match val_sparsity p with
          | Some sp' => Ok (ex, r, sp')
          | None => Err EException
          end
      end
  end.

(** structure3.py:1303-1314 *)
Definition kw_type (kw : kwargs) (sp : spy) : res (bool * option spy * spy) :=
  match dict_get "type"%string kw with
  | None => Ok (false, None, sp)
  | Some (VStr t) =>
      if String.eqb t "symm" then
        if negb (sp_nr sp =? sp_nc sp) then Err EType
        else let* sp' := sp_inter sp (sp_upper (sp_nr sp)) in Ok (true, Some sp, sp')
      else Err EType
  | Some _ => Err EType
  end.

(** structure3.py:1176-1318 [CasadiStructEntry.__init__] with a single positional
    argument, the name (a string). *)
Definition entry_init (name : string) (kw : kwargs) : res centry :=
  if negb (forallb (fun k => str_mem (fst k) kws) kw) then Err EException else
  if existsb (fun c => has (fst c) kw && existsb (fun f => has f kw) (snd c)) forbidden then Err EException else
  let* rep := kw_repeat kw in
  let st := kw_struct kw in
  let* sp := kw_shape kw in
  let* (shs, sp) := kw_shapestruct kw sp in
  let* (sym, st, sp) := kw_sym kw st sp in
  let* (ex, rep, sp) := kw_expr kw rep sp in
  let* (symm, orig, sp) := kw_type kw sp in
  Ok (CEntry (mkEntry name rep st sp symm orig shs) sym ex).

(** structure3.py:1330-1333 [entry]: positional arguments are names or entries. *)
Inductive earg := AName (s : string) | AEntry (e : centry).
(** structure3.py:1330-1333 [entry(...)] *)
Definition entry_ (args : list earg) (kw : kwargs) : res centry :=
  match args with
  | [AEntry e] => Ok e
  | [AName n] => entry_init n kw
  | _ => Err EException
  end.

(** structure3.py:1335-1364 [EntryList]: the argument is a list of entries and tuples
    of entries.  ([arg] not being a list raises and is not represented.) *)
Inductive item_arg := IOne (a : earg) | ITup (l : list earg).
(** structure3.py:1337-1338 *)
Record elist := EList { el_entries : list centry; el_order : list oelem }.

(** structure3.py:1343-1351: one element of the list *)
Definition elist_item (it : item_arg) : res (list centry * oelem) :=
  match it with
  | ITup l => let* es := rmapM (fun a => entry_ [a] []) l in Ok (es, OGroup (map ce_name es))
  | IOne a => let* e := entry_ [a] [] in Ok ([e], OName (ce_name e))
  end.
(** [isinstance(e, tuple)] *)
Definition is_group (o : oelem) : bool := match o with OGroup _ => true | _ => false end.

(** [len(names) != len(set(names))] *)
Fixpoint dup_free (l : list string) : bool :=
  match l with [] => true | x :: l' => negb (str_mem x l') && dup_free l' end.

(** structure3.py:1336-1364 [EntryList.__init__] *)
Definition entry_list (l : list item_arg) (order : option (list oelem)) : res elist :=
  let* its := rmapM elist_item l in
  let es := flat_map fst its in
  let ord := map snd its in
  let* ord := match order with
              | None => Ok ord
              | Some o => if existsb is_group ord then Err EException else Ok o
              end in
  if dup_free (map ce_name es) then Ok (EList es ord) else Err EException.

(** structure3.py:914-922 [CasadiStructured.__init__] from a list of entries: EntryList,
    Structure.__init__ and CasadiStructure.__init__. *)
Definition struct_ (l : list item_arg) (order : option (list oelem)) : res (elist * cstruct) :=
  let* el := entry_list l order in
  let* s := structure_init (map ce_entry (el_entries el)) (Some (el_order el)) in
  let* c := casadi_structure s in
  Ok (el, c).

(** An expression as the right-hand side of an assignment.  Structured objects are
    converted to their vector.  Tuples behave like lists when indexed.  [VStructured] stands
    for a struct_symMX or struct_MX; a DMStruct, SXStruct or MXStruct has no [is_dense], and
    struct_MX raises AttributeError on it (not modelled). *)
Fixpoint pay_of_val (v : kval) : pay T :=
  match v with
  | VList l | VTuple l => PayList (map pay_of_val l)
  | VStructured _ m | VSX _ m | VMat m => PayMat m
  | _ => PayNone
  end.
End Entry.

Arguments kval : clear implicits.
Arguments centry : clear implicits.
Arguments kwargs : clear implicits.
Arguments earg : clear implicits.
Arguments item_arg : clear implicits.
Arguments elist : clear implicits.
