(** Which matrix object a numeric structure writes to (structure3.py:483-508, 1038-1057): [DM] objects are mutable and
    numbered; [self.master = data] keeps the object it is given. *)
From Verif Require Import PyBase IndexModel DMModel StructModel PowerModel StructsModel.
Open Scope list_scope.
Open Scope nat_scope.

Section Alias.
Context {T : Type} (zero nan : T).
Notation pel := (pel T).
Notation pay := (pay T).

(** The [DM] objects of the program. *)
Definition heap := list (dm T).
(** A DMStruct: its structure and the object [self.master]. *)
Record aobj := AObj { ao_c : cstruct; ao_ref : nat }.
(** [data=]: a [DM] object, anything else that [DM(data)] converts, or nothing *)
Inductive darg := ARef (r : nat) | AVal (d : dm T) | ANone.

(** structure3.py:1044-1050: the object that becomes [self.master] *)
Definition master_of (h : heap) (c : cstruct) (a : darg) : heap * nat :=
  match a with
  | ARef r => (h, r)
  | AVal d => (h ++ [d], length h)
  | ANone => (h ++ [dm_col (repeat nan (cs_size c))], length h)
  end.
(** structure3.py:1038-1055 [DMStruct(struct, data=...)]; the structure has no entries with expressions. *)
Definition dm_struct (h : heap) (c : cstruct) (a : darg) : res (heap * aobj) :=
  let (h, r) := master_of h c a in
  match nth_error h r with
  | None => Err EName
  | Some d =>
      if negb (dm_nr d =? cs_size c) then Err EException
      else if negb (dm_nc d =? 1) && (0 <? dm_nr d) then Err EException
      else Ok (h, AObj c r)
  end.
(** structure3.py:447-456, 496-501 [s(arg)] for DM-like arguments: a [DM] is used as it is, anything else converted;
    [DM.ones(self.size,1)*a] is a new object. *)
Definition call_dm (h : heap) (c : cstruct) (a : darg) : res (heap * aobj) :=
  let (h, r) := match a with ARef r => (h, r) | AVal d => (h ++ [d], length h) | ANone => (h ++ [dm_scalar zero], length h) end in
  match nth_error h r with
  | None => Err EName
  | Some d =>
      if (dm_nr d =? 1) && (dm_nc d =? 1) && negb (cs_size c =? 1)
      then dm_struct (h ++ [fill_scalar (cs_size c) 1 d]) c (ARef (length h))
      else dm_struct h c (ARef r)
  end.
(** [s[pi]], [s.cat] *)
Definition a_cat (h : heap) (o : aobj) : list T := match nth_error h (ao_ref o) with Some d => column zero d | None => [] end.
(** structure3.py:651-655 [s[pi]] on the heap *)
Definition a_get (h : heap) (o : aobj) (pi : list pel) : res (rval T) :=
  getitem zero (cs_struct (ao_c o)) (Env (cs_map (ao_c o)) [] KPlain []) pi (PState (a_cat h o) [] []).
(** [s[pi] = v]: [self.master[i] = ...] changes the object.  Simplification: [master] is dense. *)
Definition a_set (h : heap) (o : aobj) (pi : list pel) (v : pay) : heap * res (rval T) :=
  let (st, r) := setitem zero (cs_struct (ao_c o)) (Env (cs_map (ao_c o)) [] KPlain []) pi v (PState (a_cat h o) [] []) in
  (set_nth (ao_ref o) (dm_col (ps_master st)) h, r).
(** A sequence of assignments, each in its own [try]. *)
Fixpoint a_sets (h : heap) (o : aobj) (l : list (list pel * pay)) : heap :=
  match l with [] => h | (pi, v) :: l' => a_sets (fst (a_set h o pi v)) o l' end.
End Alias.
Arguments heap : clear implicits.
Arguments darg : clear implicits.
