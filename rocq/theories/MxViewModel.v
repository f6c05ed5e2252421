(** Model of the views of MX matrices: [repeated], [squared], [product] and
    [squared_repeated] (structure3.py:523-582) when the argument is an MX.  The object is
    then an [MXStruct], whose constructor also calls [buildMap] (1088-1092) on the matrix
    itself (970-971: [parent = parent.a]).  All matrices here are dense: the data
    references assert it, and rows cut out of a dense matrix are dense. *)
From Verif Require Import PyBase IndexModel DMModel StructModel PowerModel EntryModel StructsModel.
Open Scope nat_scope.

Section MxView.
Context {T : Type} (zero : T).

(** The rows [lo], ..., [hi - 1] of a dense matrix. *)
Definition row_block (a : dm T) (lo hi : nat) : dm T :=
  DM (sp_dense (hi - lo) (dm_nc a))
     (flat_map (fun j => firstn (hi - lo) (skipn (j * dm_nr a + lo) (dm_nz a))) (seq 0 (dm_nc a))).

(** CasADi's check that the offsets do not decrease. *)
Fixpoint monotone (l : list nat) : bool :=
  match l with
  | a :: l' => match l' with b :: _ => (a <=? b) && monotone l' | [] => true end
  | [] => true
  end.

(** [vertsplit(x, offset)] (CasADi): the offsets start at 0, do not decrease and end at
    the number of rows. *)
Definition vertsplit_m (a : dm T) (offs : list nat) : res (list (dm T)) :=
  match offs with
  | [] => Err EException
  | o :: rest =>
      if (o =? 0) && (last offs 0 =? dm_nr a) && monotone offs
      then Ok (map (fun p => row_block a (fst p) (snd p)) (List.combine offs rest))
      else Err EException
  end.

(** [sp.is_reshape(other)] (CasADi): as many elements, and the same positions counted
    column by column. *)
Definition linear (sp : spy) : list nat := map (fun p => fst p + snd p * sp_nr sp) (sp_pat sp).
(** [sp.is_reshape(other)] *)
Definition is_reshape (sp other : spy) : bool :=
  (sp_nr sp * sp_nc sp =? sp_nr other * sp_nc other) &&
  (if list_eq_dec Nat.eq_dec (linear sp) (linear other) then true else false).

(** structure3.py:996: [k if k.sparsity()==sp else MX(sp, k)] for a dense [k].  CasADi's
    [MX(sp, k)] reshapes, or fills the pattern with a scalar, or fills it with the
    elements of a column; otherwise it raises. *)
Definition mx_with_sparsity (sp : spy) (k : dm T) : res (dm T) :=
  if spy_eqb (dm_sp k) sp then Ok k
  else if is_reshape sp (dm_sp k) then Ok (DM sp (dm_nz k))
  else if dm_is_scalar k then Ok (DM sp (repeat (hd zero (dm_nz k)) (sp_nnz sp)))
  else if (dm_nc k =? 1) && (sp_nnz sp =? dm_nr k) then Ok (DM sp (dm_nz k))
  else Err EException.

(** structure3.py:977-990: the offsets [ks] before the last one *)
Fixpoint starts (k : nat) (sizes : list nat) : list nat :=
  match sizes with [] => [] | n :: l => k :: starts (k + n) l end.

(** structure3.py:973-996: one level *)
Definition build_items_m (d : list (string * (spy * (dm T -> cidx -> res (bmap (T := T)))))) (its : list cidx)
  (parent : dm T) (pre : cidx) : res (bmap (T := T)) :=
  let* es := rmapM (fun it => match it with
                              | KS n :: _ => match dict_get n d with Some x => Ok (it, x) | None => Err EException end
                              | _ => Err EException
                              end) its in
  let* chunks := vertsplit_m parent (starts 0 (map (fun x => sp_nnz (fst (snd x))) es) ++ [dm_nr parent]) in
  rmap (@concat _) (rzip (fun x k =>
    let* sub := snd (snd x) k (pre ++ fst x) in
    let* m := mx_with_sparsity (fst (snd x)) k in
    Ok (sub ++ [(pre ++ fst x, m)])) es chunks).

(** structure3.py:980-984, 994-996: what is used of an entry *)
Fixpoint buildE_m (e : entry) : spy * (dm T -> cidx -> res (bmap (T := T))) :=
  match e with
  | mkEntry _ _ None sp _ _ _ => (sp, fun _ _ => Ok [])
  | mkEntry _ _ (Some s) _ _ _ _ =>
      (match casadi_structure s with Ok c => sp_dense (cs_size c) 1 | Err _ => sp_dense 0 1 end, buildS_m s)
  end
with buildS_m (s : structure) : dm T -> cidx -> res (bmap (T := T)) :=
  match s with
  | mkStruct es order =>
      build_items_m (pydict (map (fun e => (e_name e, buildE_m e)) es)) (s_traverse (mkStruct es order) 1)
  end.

(** structure3.py:1092, 966-971: [self.buildMap()] for the object around the matrix [a] *)
Definition with_map (a : dm T) (vw : view T) : res (view T) :=
  let o := vw_obj vw in
  let* pm := buildS_m (cs_struct (so_c o)) a [] in
  Ok (View (SObj (so_c o) (Env (en_map (so_env o)) pm (en_kind (so_env o)) (en_mapping (so_env o))) (so_st o)) (vw_prefix vw)).

(** structure3.py:523-536 [repeated] of an MX *)
Definition repeated_mx (s : structure) (c : cstruct) (a : dm T) : res (view T) :=
  let* vw := repeated_ s c a in with_map a vw.
(** structure3.py:553-566 [product] of an MX, with the broadcast of lines 556-557 *)
Definition product_mx (s : structure) (c : cstruct) (s2 : structure) (c2 : cstruct) (a : dm T) : res (view T) :=
  let a := if dm_is_scalar a && negb (cs_size c =? 1) then fill_scalar (cs_size c) (cs_size c2) a else a in
  let* vw := product_ s c s2 c2 a in with_map a vw.
(** structure3.py:538-551 [squared] of an MX *)
Definition squared_mx (s : structure) (c : cstruct) (a : dm T) : res (view T) := product_mx s c s c a.
(** structure3.py:568-582 [squared_repeated] of an MX *)
Definition squared_repeated_mx (s : structure) (c : cstruct) (a : dm T) : res (view T) :=
  let* vw := squared_repeated_ s c a in with_map a vw.
End MxView.
