(** Model of inequality.py: [Inequality], [BoundedVariable], [vertcat]. *)
From Verif Require Import PyBase IndexModel DMModel StructModel PowerModel EntryModel StructsModel.
Open Scope nat_scope.

(** Elements of a numeric matrix: numbers of a carrier [A], infinities and NaN. *)
Inductive xnum (A : Type) := Fin (a : A) | PInf | NInf | NaN.
Arguments Fin {A} a.
Arguments PInf {A}.
Arguments NInf {A}.
Arguments NaN {A}.

Section Ineq.
(** [A]: numbers; [X]: points at which expressions are evaluated; an element of an MX
    expression is the function that evaluates it; [sym n p] is the element at position
    [p] of the symbol created by [MX.sym(n, ...)]. *)
Context {A X : Type} (a0 : A) (sym : string -> nat * nat -> X -> xnum A).
Notation V := (xnum A).
Notation F := (X -> xnum A).
(** The number 0 *)
Definition v0 : V := Fin a0.
(** The expression 0 *)
Definition f0 : F := fun _ => Fin a0.

(** [expr]: an MX matrix or a struct_MX object (inequality.py:71). *)
Inductive ex := ExMat (m : dm F) | ExStr (o : sobj F).
(** [MX(expr)] *)
Definition ex_mat (e : ex) : res (dm F) :=
  match e with ExMat m => Ok m | ExStr o => let* c := veccat_master o in Ok (dm_col c) end.
(** [expr.shape] (structure3.py:930-932 for structures) *)
Definition ex_shape (e : ex) : nat * nat :=
  match e with ExMat m => dm_shape m | ExStr o => (cs_size (so_c o), 1) end.
(** [expr.numel()], used by inequality.py:52-55 *)
Definition ex_numel (e : ex) : nat := fst (ex_shape e) * snd (ex_shape e).

(** A stored bound: a DM or a DMStruct. *)
Inductive bd := BdMat (d : dm V) | BdStr (o : sobj V).
(** [DM(bound)] *)
Definition bd_mat (b : bd) : dm V := match b with BdMat d => d | BdStr o => dm_col (so_cat o) end.
(** [lb.shape], [ub.shape], [nominal.shape] (inequality.py:43, 47) *)
Definition bd_shape (b : bd) : nat * nat := match b with BdMat d => dm_shape d | BdStr o => (cs_size (so_c o), 1) end.

(** Arguments for bounds: None, a number, a list or 1-dimensional array, a
    2-dimensional array, a DM, a DMStruct, and anything [DM(...)] rejects. *)
Inductive barg :=
| ANone | ANum (v : V) | AVec (l : list V) | AArr (nr nc : nat) (f : nat -> nat -> V) | ADM (d : dm V) | AStr (o : sobj V) | ABad.

(** inequality.py:27-28 [_convertToDmIfNotDmStruct] *)
Definition to_dm (a : barg) : res bd :=
  match a with
  | ANum v => Ok (BdMat (dm_scalar v))
  | AVec l => Ok (BdMat (dm_col l))
  | AArr nr nc f => Ok (BdMat (DM (sp_dense nr nc) (map (fun p => f (fst p) (snd p)) (all_pos nr nc))))
  | ADM d => Ok (BdMat d)
  | AStr o => Ok (BdStr o)
  | ANone | ABad => Err ENotImpl
  end.
(** [DM.inf(shape)], [-DM.inf(shape)] *)
Definition const_dm (v : V) (sh : nat * nat) : dm V := DM (sp_dense (fst sh) (snd sh)) (repeat v (fst sh * snd sh)).

(** The comparison of shapes (inequality.py:43, 47) *)
Definition shape_eqb (a b : nat * nat) : bool := (fst a =? fst b) && (snd a =? snd b).

(** inequality.py:31: the named tuple *)
Record ineq := Ineq { iq_expr : ex; iq_lb : bd; iq_ub : bd; iq_nom : option bd }.

(** inequality.py:35-49 [Inequality.__new__] (the default of [expr] is an empty symbol) *)
Definition inequality_ (e : ex) (lb ub nom : barg) : res ineq :=
  let* l := match lb with ANone => Ok (BdMat (const_dm NInf (ex_shape e))) | _ => to_dm lb end in
  let* u := match ub with ANone => Ok (BdMat (const_dm PInf (ex_shape e))) | _ => to_dm ub end in
  let* _ := rassert (shape_eqb (bd_shape l) (ex_shape e) && shape_eqb (bd_shape u) (ex_shape e)) in
  match nom with
  | ANone => Ok (Ineq e l u None)
  | _ =>
      let* n := to_dm nom in
      let* _ := rassert (shape_eqb (bd_shape n) (ex_shape e)) in
      Ok (Ineq e l u (Some n))
  end.

(** inequality.py:52-55 [numel] *)
Definition iq_numel (i : ineq) : nat := ex_numel (iq_expr i).

(** [MX.sym(name, shape)] *)
Definition mx_sym (n : string) (sh : nat * nat) : dm F := DM (sp_dense (fst sh) (snd sh)) (map (sym n) (all_pos (fst sh) (snd sh))).

(** inequality.py:62-63 [BoundedVariable.__new__]: [nominal] must have a shape that is a
    pair.  (The default nominal is [DM.zeros(0)], of shape 0 x 1.)  [AVec] stands for a
    1-dimensional array here; a Python list has no [shape] and raises AttributeError. *)
Definition bounded_variable (n : string) (lb ub nom : barg) : res ineq :=
  match nom with
  | ADM d => inequality_ (ExMat (mx_sym n (dm_shape d))) lb ub nom
  | AArr nr nc f => inequality_ (ExMat (mx_sym n (nr, nc))) lb ub nom
  | AStr o => inequality_ (ExMat (mx_sym n (cs_size (so_c o), 1))) lb ub nom
  | AVec _ => Err ENotImpl
  | _ => Err EAttr
  end.

(** [cs.vertcat(a, b)] of matrices with the same number of columns; 0 x 0 matrices are
    dropped by CasADi. *)
Definition vcat2 {B} (a b : dm B) : res (dm B) :=
  if (dm_nr a =? 0) && (dm_nc a =? 0) then Ok b
  else if (dm_nr b =? 0) && (dm_nc b =? 0) then Ok a
  else if dm_nc a =? dm_nc b
  then Ok (dm_build (dm_nr a + dm_nr b) (dm_nc a)
             (fun p => if fst p <? dm_nr a then dm_at a p else dm_at b (fst p - dm_nr a, snd p)))
  else Err EException.
(** [cs.vertcat(a, *l)] (inequality.py:76-81) *)
Fixpoint vcat {B} (a : dm B) (l : list (dm B)) : res (dm B) :=
  match l with
  | [] => Ok a
  | b :: l' => let* r := vcat b l' in vcat2 a r
  end.

(** [cs.vertcat( *[a.nominal for a in ineq])]: None is not accepted. *)
Fixpoint opt_all {B} (l : list (option B)) : res (list B) :=
  match l with
  | [] => Ok []
  | Some b :: l' => let* r := opt_all l' in Ok (b :: r)
  | None :: _ => Err ENotImpl
  end.

(** inequality.py:76-81 [vertcat] of a list [a :: l].  (The empty list, for which
    [cs.vertcat()] returns an object of undocumented type, is not modelled.) *)
Definition vertcat_list (a : ineq) (l : list ineq) : res ineq :=
  let* ea := ex_mat (iq_expr a) in
  let* es := rmapM (fun i => ex_mat (iq_expr i)) l in
  let* e := vcat ea es in
  let* lb := vcat (bd_mat (iq_lb a)) (map (fun i => bd_mat (iq_lb i)) l) in
  let* ub := vcat (bd_mat (iq_ub a)) (map (fun i => bd_mat (iq_ub i)) l) in
  let* na := opt_all [iq_nom a] in
  let* ns := opt_all (map iq_nom l) in
  let* nom := match na with b :: _ => vcat (bd_mat b) (map bd_mat ns) | [] => Err ENotImpl end in
  inequality_ (ExMat e) (ADM lb) (ADM ub) (ADM nom).

(** The [expr=] argument of an entry: matrix or structure. *)
Definition ex_kval (e : ex) : res (kval F) :=
  match e with
  | ExMat m => Ok (VMat m)
  | ExStr o => let* c := veccat_master o in Ok (VStructured (cs_struct (so_c o)) (dm_col c))
  end.
(** The value assigned to an entry of the bounds' structure (inequality.py:72-74) *)
Definition bd_pay (b : option bd) : pay V := match b with Some b => PayMat (bd_mat b) | None => PayNone end.

(** inequality.py:70-74, 81 [vertcat] of a dict *)
Definition vertcat_dict (d : list (string * ineq)) : res ineq :=
  let* ents := rmapM (fun kv => let* v := ex_kval (iq_expr (snd kv)) in
                                let* e := entry_ [AName (fst kv)] [("expr"%string, v)] in Ok (IOne (AEntry e))) d in
  let* e := struct_MX f0 ents None in
  let* lb := call_struct v0 NaN (so_c e) (CDict (map (fun kv => (fst kv, bd_pay (Some (iq_lb (snd kv))))) d)) in
  let* ub := call_struct v0 NaN (so_c e) (CDict (map (fun kv => (fst kv, bd_pay (Some (iq_ub (snd kv))))) d)) in
  let* nom := call_struct v0 NaN (so_c e) (CDict (map (fun kv => (fst kv, bd_pay (iq_nom (snd kv)))) d)) in
  inequality_ (ExStr e) (AStr lb) (AStr ub) (AStr nom).
End Ineq.

Arguments ex : clear implicits.
Arguments bd : clear implicits.
Arguments barg : clear implicits.
Arguments ineq : clear implicits.
