(** Symbolic SX structures and access to sub-structures. *)
From Coq Require Import DecimalString Decimal.
From Verif Require Import PyBase IndexModel DMModel StructModel PowerModel EntryModel StructsModel LabelModel.
Open Scope nat_scope.

(** structure3.py:329-336 [getStruct(name)] for a string [name].  For an unknown name the
    arguments of the error message are evaluated first: [name.keys()] on a string raises
    AttributeError. *)
Definition getStruct (s : structure) (name : string) : res structure :=
  match dict_get name (s_dict s) with
  | None => Err EAttr
  | Some e => match e_struct e with None => Err EException | Some s' => Ok s' end
  end.

(** CasADi [SX.sym(name, n)]: [n] new symbols; a single one is called [name], several are
    called [name_0], [name_1], ...  (A name starting with '[' is read by CasADi as a list
    of names; this is not represented.) *)
Definition sym_names (name : string) (n : nat) : list string :=
  if n =? 1 then [name]
  else map (fun k => (name ++ "_" ++ str_ck (KI (Z.of_nat k)))%string) (seq 0 n).

(** structure3.py:951-954: the names of the symbols created for every leaf, in order. *)
Definition ssym_names (s : structure) : res (list string) :=
  let* ls := rmapM (fun i => let* e := getStructEntryByCanonicalIndex s i in
                             Ok (sym_names (String.concat "_" (map str_ck i)) (sp_nnz (e_sp e))))
                   (traverseCanonicalIndex s) in
  Ok (List.concat ls).

Section Sym.
Context {T : Type} (zero : T).
(** [newsym k name]: the [k]-th symbol created by the constructor, printed as [name]. *)
Context (newsym : nat -> string -> T).

(** structure3.py:951-956: [vertcat] of the new symbols. *)
Definition ssym_master (s : structure) : res (list T) :=
  let* ns := ssym_names s in
  Ok (map (fun x => newsym (fst x) (snd x)) (List.combine (seq 0 (length ns)) ns)).

(** structure3.py:958-960: [self.master[self.i[e.name]] = e.sym] *)
Fixpoint ssym_syms (s : structure) (l : list (centry T)) (v : list T) : res (list T) :=
  match l with
  | [] => Ok v
  | ce :: l' =>
      match ce_sym ce with
      | None => ssym_syms s l' v
      | Some m =>
          let* r := i_get zero s [PStr (ce_name ce)] in
          match r with
          | RIdx i => let* v' := vec_set zero v i m in ssym_syms s l' v'
          | _ => Err EException
          end
      end
  end.

(** structure3.py:943-960 [struct_symSX] (ssymStruct) of a list of entries. *)
Definition struct_symSX (l : list (item_arg T)) (order : option (list oelem)) : res (sobj T) :=
  let* (el, c) := struct_ l order in
  if existsb has_expr (el_entries el) then Err EException else
  let* v := ssym_master (cs_struct c) in
  let* v' := ssym_syms (cs_struct c) (el_entries el) v in
  Ok (SObj c (Env (cs_map c) [] KPlain []) (PState v' [] [])).

(** structure3.py:998-1010 [struct_symMX] (msymStruct) of a list of entries; [V] is the
    symbol [MX.sym("V", self.size, 1)], given by its elements. *)
Definition has_sym (ce : centry T) : bool := match ce_sym ce with Some _ => true | None => false end.
(** structure3.py:998-1010 [struct_symMX] (msymStruct) *)
Definition struct_symMX (V : list T) (l : list (item_arg T)) (order : option (list oelem)) : res (sobj T) :=
  let* (el, c) := struct_ l order in
  if existsb has_expr (el_entries el) then Err EException else
  if existsb has_sym (el_entries el) then Err EException else
  mx_struct c V.
End Sym.
