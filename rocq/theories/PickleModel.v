(** Model of pickling (or deep-copying) several structure objects together
    (structure3.py:792-799, 904-923, 1064-1073). *)
From Verif Require Import PyBase IndexModel DMModel StructModel PowerModel EntryModel StructsModel.
Open Scope nat_scope.

Section Pickle.
Context {T : Type}.

(** structure3.py:795-799: the dictionary [initializer] of a CasadiStructure.  Every
    object of that structure shares it, and [__getstate__] returns the dictionary itself
    rather than a copy.  [sd_struct] stands for the keys "args" and "kwargs", which nothing
    changes; [sd_reach] lists the CasadiStructures (by identity) reachable through the
    entries, i.e. the sub-structures and shape structures at any depth, whose own
    dictionaries are written together with this one; [sd_order] says whether the key
    "order" is present; [sd_master] is the value under "master", if present. *)
Record sdict := SDict { sd_struct : structure; sd_reach : list nat; sd_order : bool; sd_master : option (list T) }.
(** The CasadiStructures of the program, by identity. *)
Definition heap := nat -> sdict.

(** The classes of objects: a CasadiStructure itself; struct, struct_symSX and struct_symMX,
    whose [__init__] has the parameter [order]; a numeric structure (DMStruct); struct_SX and
    struct_MX_mutable, whose [__init__] (structure3.py:1083-1094) has no parameter [order];
    struct_MX. *)
Inductive okind := OCas | OStruct | ONum | OMut | OVec.
(** An object: its class, the identity of its CasadiStructure and, for a numeric structure,
    its [cat].  Simplification: the values stay plain lists, so a dictionary holding a
    [master] from an earlier dump holds the values that master has when it is written. *)
Record pobj := PObj { po_kind : okind; po_sid : nat; po_data : list T }.

(** [d["order"] = self.order] and [d["master"] = self.master] on the shared dictionary:
    structure3.py:909-912 and 1070-1073; 795-796 adds nothing. *)
Definition mark (o : pobj) (d : sdict) : sdict :=
  match po_kind o with
  | OCas => d
  | ONum => SDict (sd_struct d) (sd_reach d) (sd_order d) (Some (po_data o))
  | OStruct | OMut | OVec => SDict (sd_struct d) (sd_reach d) true (sd_master d)
  end.
(** structure3.py:909-912, 1070-1073: [__getstate__] changes the shared dictionary. *)
Definition getstate (h : heap) (o : pobj) : heap := fun i => if i =? po_sid o then mark o (h i) else h i.

(** The memo of the pickler (and of copy.deepcopy): a dictionary already written is referred
    to, not written again. *)
Definition memo := list (nat * sdict).
(** What has been written for a dictionary. *)
Definition memo_get (m : memo) (i : nat) : option sdict :=
  match find (fun p => fst p =? i) m with Some p => Some (snd p) | None => None end.
(** One reachable dictionary is written. *)
Definition write1 (h : heap) (m : memo) (i : nat) : memo :=
  match memo_get m i with Some _ => m | None => m ++ [(i, h i)] end.
(** A dictionary is written with those reachable from it. *)
Definition write (h : heap) (m : memo) (i : nat) : memo :=
  match memo_get m i with
  | Some _ => m
  | None => fold_left (write1 h) (sd_reach (h i)) (m ++ [(i, h i)])
  end.

(** [pickle.dumps([o1, o2, ...])]: for every object [__getstate__], then its result is
    written.  Simplification: the objects of the list are different Python objects. *)
Fixpoint dump_from (h : heap) (m : memo) (os : list pobj) : heap * memo :=
  match os with
  | [] => (h, m)
  | o :: os' => let h' := getstate h o in dump_from h' (write h' m (po_sid o)) os'
  end.
(** [pickle.dumps]: the memo, and for every object its class and dictionary *)
Definition dump (h : heap) (os : list pobj) : heap * (memo * list (okind * nat)) :=
  let (h', m) := dump_from h [] os in (h', (m, map (fun o => (po_kind o, po_sid o)) os)).

(** A restored object: a structure (with fresh symbols, or for struct_MX without any
    expression), or a numeric structure. *)
Inductive lobj := LStruct (k : okind) (c : cstruct) | LNum (o : sobj T).

(** [__setstate__] on the state [d]: structure3.py:792-793, 904-907, 1065-1068.  The
    CasadiStructure is rebuilt first; then the missing key raises KeyError, and the
    unexpected keyword argument [order] raises TypeError. *)
Definition setstate (k : okind) (d : sdict) : res lobj :=
  let* c := unpickle (sd_struct d) in
  match k with
  | OCas => Ok (LStruct k c)
  | OStruct | OVec => if sd_order d then Ok (LStruct k c) else Err EKey
  | OMut => if sd_order d then Err EType else Err EKey
  | ONum =>
      match sd_master d with
      | None => Err EKey
      | Some v =>
          if negb (length v =? cs_size c) then Err EException
          else Ok (LNum (SObj c (Env (cs_map c) [] KPlain []) (PState v [] [])))
      end
  end.
(** [pickle.loads] *)
Definition load (f : memo * list (okind * nat)) : res (list lobj) :=
  rmapM (fun p => match memo_get (fst f) (snd p) with Some d => setstate (fst p) d | None => Err EKey end) (snd f).
(** [pickle.loads(pickle.dumps(os))] *)
Definition roundtrip (h : heap) (os : list pobj) : res (list lobj) := load (snd (dump h os)).
End Pickle.
Arguments sdict : clear implicits.
Arguments heap : clear implicits.
Arguments pobj : clear implicits.
Arguments lobj : clear implicits.
