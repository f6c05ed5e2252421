(** Model of power indices: [traverseByPowerIndex], the dispatchers,
    [performExtraIndex] and [delegation] (structure3.py). *)
From Verif Require Import PyBase IndexModel DMModel StructModel.

Section Power.
Context {T : Type} (zero : T).

(** What a traversal returns: nothing (assignments), a matrix, an index matrix, a
    flat list of integers, a list or a dict. *)
Inductive rval :=
| RNone
| RMat (m : dm T)
| RIdx (m : dm nat)
| RFlat (l : list nat)
| RList (l : list rval)
| RDict (l : list (string * rval)).

(** One component of a power index (structure3.py:48).  [PLst] is a list of
    integers and strings; [PSet] a set in its iteration order; [PDict] a dict;
    [PNest] the NestedDictLiteral; [PFun] a callable; [PDel] an IndexDelegater
    ([flat = false]) or FlatIndexDelegater (1367-1384). *)
Inductive pel :=
| PStr (s : string)
| PInt (i : Z)
| PSlc (s : slc)
| PLst (l : list ck)
| PEll
| PDict
| PSet (l : list string)
| PNest
| PFun (f : rval -> res rval)
| PDel (flat : bool) (arg : list pel).

(** Right-hand sides of assignments ([PayNone] while reading). *)
Inductive pay :=
| PayNone
| PayNum (x : T)
| PayMat (m : dm T)
| PayList (l : list pay)
| PayDict (l : list (string * pay))
| PayRep (p : pay).

(** The mutable part of a struct object: [master] (for DataReferenceRepeated and
    DataReferenceSquaredRepeated the vector [v]), the matrix [a] kept beside it by
    those two classes (column-major elements), and [storage] of MXVeccatStruct. *)
Record pstate := PState { ps_master : list T; ps_mirror : list T; ps_storage : list (option (dm T)) }.

(** State and exceptions: effects made before an exception remain. *)
Definition M (A : Type) := pstate -> pstate * res A.
(** [return a] *)
Definition mret {A} (a : A) : M A := fun s => (s, Ok a).
(** [raise] *)
Definition merr {A} (e : exn) : M A := fun s => (s, Err e).
(** An expression without effect. *)
Definition mlift {A} (r : res A) : M A := fun s => (s, r).
(** [x = m; k] *)
Definition mbind {A B} (m : M A) (k : A -> M B) : M B :=
  fun s => match m s with
           | (s', Ok a) => k a s'
           | (s', Err e) => (s', Err e)
           end.
Notation "x <- m ;; k" := (mbind m (fun x => k)) (at level 100, m at level 99, right associativity).

(** [try: ... except Exception as e: raise Exception(...) from e] *)
Definition mwrap {A} (m : M A) : M A :=
  fun s => match m s with
           | (s', Ok a) => (s', Ok a)
           | (s', Err _) => (s', Err EException)
           end.

(** A list comprehension. *)
Fixpoint mmapM {A B} (f : A -> M B) (l : list A) : M (list B) :=
  match l with
  | [] => mret []
  | a :: l' => b <- f a ;; bs <- mmapM f l' ;; mret (b :: bs)
  end.

(** structure3.py:150-160 [payloadUnpack] *)
Definition payloadUnpack (p : pay) (i : ck) : res pay :=
  match i with
  | KS _ => Err EException
  | KI i =>
      match p with
      | PayList l => if (Z.of_nat (length l) <=? i)%Z then Err EException else py_nth l i
      | PayRep e => Ok e
      | _ => Ok p
      end
  end.

(** [DM(payload)] / [MX(payload)]: CasADi's conversion of a matrix, a number, a list
    of numbers (a column) or a list of equally long rows. *)
Fixpoint pay_nums (l : list pay) : option (list T) :=
  match l with
  | [] => Some []
  | PayNum x :: l' => match pay_nums l' with Some xs => Some (x :: xs) | None => None end
  | _ :: _ => None
  end.
(** A list of lists of numbers *)
Fixpoint pay_rows (l : list pay) : option (list (list T)) :=
  match l with
  | [] => Some []
  | PayList r :: l' =>
      match pay_nums r, pay_rows l' with
      | Some xs, Some rs => Some (xs :: rs)
      | _, _ => None
      end
  | _ :: _ => None
  end.
(** A list of equally long rows. *)
Definition dm_of_rows (rows : list (list T)) : res (dm T) :=
  let c := match rows with [] => 0 | r :: _ => length r end in
  if forallb (fun r => length r =? c) rows
  then Ok (dm_build (length rows) c (fun p => nth_error (nth (fst p) rows []) (snd p)))
  else Err EException.
(** structure3.py:613: [payload] converted to [mtype] *)
Definition to_mtype (p : pay) : res (dm T) :=
  match p with
  | PayMat m => Ok m
  | PayNum x => Ok (dm_scalar x)
  | PayList l =>
      match pay_nums l with
      | Some xs => Ok (dm_col xs)
      | None => match pay_rows l with Some rows => dm_of_rows rows | None => Err ENotImpl end
      end
  | _ => Err ENotImpl
  end.

(** What the dispatchers need of an entry: [type == "symm"], 'originalsparsity', and
    the shapestruct, whose structures are given by their index getters:
    [f false arg = struct.i[arg]], [f true arg = struct.f[arg]]. *)
Record einfo := EInfo {
  ei_symm : bool;
  ei_orig : option spy;
  ei_del : option (list (option (bool -> list pel -> res rval)))
}.

(** An index handed to CasADi's [__getitem__]; [DRow]: a dense row of indices. *)
Inductive dsel := DSel (s : sel) | DRow (l : list Z) | DBad.

(** A list of integers. *)
Fixpoint ck_ints (l : list ck) : option (list Z) :=
  match l with
  | [] => Some []
  | KI i :: l' => match ck_ints l' with Some is => Some (i :: is) | None => None end
  | KS _ :: _ => None
  end.

(** structure3.py:662-671 [delegation].  Simplification: an index matrix returned by
    an IndexDelegater is used only when it is a dense column or row. *)
Definition delegate (ei : option einfo) (pos : nat) (flat : bool) (arg : list pel) : res dsel :=
  match ei with
  | None => Err EException
  | Some e =>
      match ei_del e with
      | None => Err EException
      | Some l =>
          match nth_error l pos with
          | None => Err EIndex
          | Some None => Err EException
          | Some (Some f) =>
              let* r := f flat arg in
              match r with
              | RFlat l => Ok (DSel (SelList (map Z.of_nat l)))
              | RIdx m => if sp_is_dense (dm_sp m) && (dm_nc m =? 1)
                          then Ok (DSel (SelList (map Z.of_nat (dm_nz m))))
                          else if sp_is_dense (dm_sp m) && (dm_nr m =? 1)
                          then Ok (DRow (map Z.of_nat (dm_nz m))) else Ok DBad
              | _ => Ok DBad
              end
          end
      end
  end.

(** structure3.py:662-671 [delegation] *)
Definition delegation (ei : option einfo) (pos : nat) (a : pel) : res dsel :=
  match a with
  | PStr s => delegate ei pos true [PStr s]
  | PLst l =>
      match ck_ints l with
      | Some is => Ok (DSel (SelList is))
      | None => if forallb is_string l then delegate ei pos true [PLst l] else Ok DBad
      end
  | PDel flat arg => delegate ei pos flat arg
  | PInt i => Ok (DSel (SelInt i))
  | PSlc s => Ok (DSel (SelSlice s))
  | _ => Ok DBad
  end.

(** structure3.py:685: [i.__getitem__(a)] *)
Definition getitem1 (i : rval) (a : dsel) : res rval :=
  match i, a with
  | RIdx m, DSel s => rmap RIdx (dm_get1 m s)
  | RIdx m, DRow l => rmap RIdx (dm_get1r m l)
  | _, _ => Err ENotImpl
  end.
(** structure3.py:690: [i.__getitem__((a, b))]; rows and columns are selected alike by
    a list, a column and a row of indices. *)
Definition dsel_sel (a : dsel) : option sel :=
  match a with DSel s => Some s | DRow l => Some (SelList l) | DBad => None end.
(** structure3.py:690: [i.__getitem__((a, b))] *)
Definition getitem2 (i : rval) (a b : dsel) : res rval :=
  match i, dsel_sel a, dsel_sel b with
  | RIdx m, Some s, Some t => rmap RIdx (dm_get2 m s t)
  | _, _, _ => Err ENotImpl
  end.

(** structure3.py:673-694 [performExtraIndex] *)
Fixpoint performExtraIndex (ei : option einfo) (flip : bool) (i : rval) (ex : list pel) : res rval :=
  match ex with
  | [] => Ok i
  | PFun f :: ex' => let* r := performExtraIndex ei flip i ex' in f r
  | PNest :: _ => Ok i
  | [a] =>
      let* a' := delegation ei 0 a in
      getitem1 i a'
  | [a; b] =>
      let* a' := delegation ei 0 a in
      let* b' := delegation ei 1 b in
      if flip then getitem2 i b' a' else getitem2 i a' b'
  | _ => Err EException
  end.

(** structure3.py:674: [extraIndex is None or len(extraIndex) == 0] *)
Definition extra (ex : option (list pel)) : list pel := match ex with None => [] | Some l => l end.

(** Which dispatcher: GetterDispatcher (583-609), SetterDispatcher (611-649),
    FlatIndexDispatcher and IMDispatcher (774-790), [inject] of MXVeccatStruct
    (1122-1134). *)
Inductive mode := MGet | MSet | MFlat | MIM | MInject.

(** How [master[i] = m] is executed: a matrix (plain), DataReferenceSquared/Product
    (1431-1470: [self.a.nz[a] = b]), DataReferenceRepeated/SquaredRepeated
    (1416-1429, 1472-1486: [self.v.nz[a] = b] and copy to [self.a]). *)
Inductive mkind := KPlain | KNz | KRep.

(** The immutable part of a struct object: [struct.map], [priority_object_map], kind
    of master, [mapping] of MXVeccatStruct (1108-1112). *)
Record env := Env {
  en_map : imap;
  en_pmap : list (cidx * dm T);
  en_kind : mkind;
  en_mapping : list (cidx * nat)
}.

(** structure3.py:585, 614: [entry.type] *)
Definition is_symm (ei : option einfo) : bool := match ei with None => false | Some e => ei_symm e end.

(** [self.master[i] = m] *)
Definition master_set (k : mkind) (i : dm nat) (m : dm T) : M unit := fun s =>
  match k with
  | KPlain => match vec_set zero (ps_master s) i m with
              | Ok v => (PState v (ps_mirror s) (ps_storage s), Ok tt)
              | Err e => (s, Err e)
              end
  | KNz => match vec_set_nz zero (ps_master s) i m with
           | Ok v => (PState v (ps_mirror s) (ps_storage s), Ok tt)
           | Err e => (s, Err e)
           end
  | KRep => match vec_set_nz zero (ps_master s) i m with
            | Ok v => let I := seq 0 (length (ps_mirror s)) in
                      (PState v (vec_set_list (ps_mirror s) I v) (ps_storage s), Ok tt)
            | Err e => (s, Err e)
            end
  end.

(** [self.master] *)
Definition get_master : M (list T) := fun s => (s, Ok (ps_master s)).

(** structure3.py:105-106 [correct_vector_indexing(x, i)] *)
Definition correct_vector_indexing (v : list T) (i : dm nat) : res (dm T) :=
  let* r := vec_get v i in dm_reshape r (dm_nr i) (dm_nc i).

(** structure3.py:584-609 [GetterDispatcher.__call__] *)
Definition getter (en : env) (ci : cidx) (ex : option (list pel)) (ei : option einfo) : M rval :=
  match cmap_get ci (en_map en) with
  | None => merr EException
  | Some m =>
      let fast := match extra ex with [] => cmap_get ci (en_pmap en) | _ => None end in
      match fast with
      | Some r => if is_symm ei then mlift (rmap RMat (dm_triu2symm r)) else mret (RMat r)
      | None =>
          i <- mlift (performExtraIndex ei false (RIdx m) (extra ex)) ;;
          match i with
          | RIdx i =>
              v <- get_master ;;
              if is_symm ei
              then mlift (let* r := vec_get v i in rmap RMat (dm_triu2symm r))
              else mlift (rmap RMat (correct_vector_indexing v i))
          | _ => merr EException
          end
      end
  end.

(** structure3.py:612-638 [SetterDispatcher.__call__] *)
Definition setter (en : env) (p : pay) (ci : cidx) (ex : option (list pel)) (ei : option einfo) : M rval :=
  m <- mlift (to_mtype p) ;;
  match cmap_get ci (en_map en) with
  | None => merr EException
  | Some mi =>
      i <- mlift (performExtraIndex ei false (RIdx mi) (extra ex)) ;;
      match i with
      | RIdx i =>
          if is_symm ei then
            f <- mlift (performExtraIndex ei true (RIdx mi) (extra ex)) ;;
            match f with
            | RIdx f =>
                if dm_is_scalar m then
                  _ <- master_set (en_kind en) i m ;;
                  _ <- master_set (en_kind en) f m ;; mret RNone
                else
                  match match ei with Some e => ei_orig e | None => None end with
                  | None => merr EAttr
                  | Some orig =>
                      oi <- mlift (performExtraIndex ei false (RIdx (DM orig (map (fun _ => 1) (sp_pat orig)))) (extra ex)) ;;
                      match oi with
                      | RIdx oi =>
                          if spy_eqb (dm_sp oi) (dm_sp m) then
                            pt <- mlift (dm_get_sp zero (dm_T m) (dm_sp f)) ;;
                            _ <- master_set (en_kind en) f pt ;;
                            pu <- mlift (dm_get_sp zero m (dm_sp i)) ;;
                            _ <- master_set (en_kind en) i pu ;; mret RNone
                          else merr EException
                      | _ => merr EException
                      end
                  end
            | _ => merr EException
            end
          else _ <- master_set (en_kind en) i m ;; mret RNone
      | _ => merr EException
      end
  end.

(** structure3.py:785-790 [IMDispatcher], 774-783 [FlatIndexDispatcher] *)
Definition imget (en : env) (ci : cidx) (ex : option (list pel)) (ei : option einfo) : res rval :=
  match cmap_get ci (en_map en) with
  | None => Err EException
  | Some m => performExtraIndex ei false (RIdx m) (extra ex)
  end.
(** structure3.py:774-783 [FlatIndexDispatcher.__call__] *)
Definition flatget (en : env) (ci : cidx) (ex : option (list pel)) (ei : option einfo) : res rval :=
  let* r := imget en ci ex ei in
  match r with
  | RIdx m => let* _ := rassert (sp_is_dense (dm_sp m)) in Ok (RFlat (dm_nz m))
  | RFlat l => Ok (RFlat l)
  | RList l => Ok (RList l)
  | _ => Err EType
  end.

(** structure3.py:1122-1134 [inject] *)
Definition inject (en : env) (p : pay) (ci : cidx) (ex : option (list pel)) : M rval :=
  match ex with
  | Some _ => merr EException
  | None =>
      match cmap_get ci (en_mapping en) with
      | None => merr EException
      | Some k =>
          match cmap_get ci (en_map en), p with
          | Some mi, PayMat m =>
              if spy_eqb (dm_sp mi) (dm_sp m)
              then fun s => (PState (ps_master s) (ps_mirror s) (set_nth k (Some m) (ps_storage s)), Ok RNone)
              else merr EException
          | None, _ => merr EKey
          | _, _ => merr EAttr
          end
      end
  end.

(** The call of a dispatcher, [dispatcher(payload, canonicalIndex, extraIndex=..., entry=...)] *)
Definition dispatch (en : env) (md : mode) (p : pay) (ci : cidx) (ex : option (list pel)) (ei : option einfo) : M rval :=
  match md with
  | MGet => getter en ci ex ei
  | MSet => setter en p ci ex ei
  | MFlat => mlift (flatget en ci ex ei)
  | MIM => mlift (imget en ci ex ei)
  | MInject => inject en p ci ex
  end.

(** [callableInner] (structure3.py:437-438, 640-641); [inject] is a plain function without it. *)
Definition inner (md : mode) : res mode :=
  match md with MSet => Ok MIM | MInject => Err EAttr | _ => Ok md end.

(** [callableOuter] (structure3.py:440-441, 643-649) *)
Definition outer (en : env) (md : mode) (p : pay) (r : rval) : M rval :=
  match md with
  | MSet =>
      match r with
      | RIdx i => m <- mlift (to_mtype p) ;; _ <- master_set (en_kind en) i m ;; mret RNone
      | _ => merr EException
      end
  | _ => mret r
  end.

(** A traversal as the code of the level above calls it *)
Definition clos := env -> mode -> list pel -> cidx -> pay -> M rval.

(** structure3.py:198-273 [StructEntry.traverseByPowerIndex], given the traversal of
    the sub-structure.  An empty power index with pending dims is treated one
    dimension at a time, each as [slice(None)] (lines 203-211 do all at once). *)
Fixpoint travD (en : env) (ei : einfo) (sub : option clos) (dims : list Z)
  : mode -> list pel -> cidx -> pay -> M rval :=
  match dims with
  | [] => fun md pi ci p => mwrap
      match pi with
      | [] => dispatch en md p ci None (Some ei)
      | _ => match sub with
             | None => dispatch en md p ci (Some pi) (Some ei)
             | Some f => f en md pi ci p
             end
      end
  | s :: ds => fun md0 pi0 =>
      (fix travP (pi : list pel) : mode -> cidx -> pay -> M rval := fun md ci p =>
         let many (l : list ck) (rest : list pel) : M rval :=
             rs <- mmapM (fun k =>
                     match k with
                     | KS _ => merr EType
                     | KI i => p' <- mlift (payloadUnpack p k) ;;
                               travD en ei sub ds md rest (ci ++ [KI (canonical i s)]) p'
                     end) l ;;
             mret (RList rs) in
         mwrap
         match pi with
         | [] => l <- mlift (slice_range slice_all s) ;; many (map KI l) []
         | PSlc sl :: rest => l <- mlift (slice_range sl s) ;; many (map KI l) rest
         | PInt i :: rest => travD en ei sub ds md rest (ci ++ [KI (canonical i s)]) p
         | PLst l :: rest => many l rest
         | PNest :: _ => many (map KI (pyrange s)) [PNest]
         | PFun f :: rest =>
             md' <- mlift (inner md) ;;
             r <- travP rest md' ci p ;;
             r' <- mlift (f r) ;;
             outer en md p r'
         | _ => merr EException
         end) pi0 md0
  end.

(** structure3.py:338-427 [Structure.traverseByPowerIndex], given the traversals of
    the entries. *)
Definition look (d : list (string * clos)) (k : string) : M clos :=
  match dict_get k d with Some f => mret f | None => merr EException end.

(** [enumerate(l)] *)
Definition enum {A} (l : list A) : list (Z * A) := List.combine (map Z.of_nat (seq 0 (length l))) l.

(** A dict made of the pairs of a list *)
Definition mdict (l : M (list (string * rval))) : M rval := r <- l ;; mret (RDict (pydict r)).

(** structure3.py:338-427 [Structure.traverseByPowerIndex] *)
Fixpoint travS_body (d : list (string * clos)) (keys : list string) (en : env) (md : mode) (pi : list pel)
  (ci : cidx) (p : pay) {struct pi} : M rval :=
  let over_dict (rest : list pel) : M rval :=
    match p with
    | PayDict kv =>
        mdict (mmapM (fun x => f <- look d (fst x) ;;
                               r <- f en md rest (ci ++ [KS (fst x)]) (snd x) ;; mret (fst x, r)) kv)
    | _ =>
        mdict (mmapM (fun x => r <- snd x en md rest (ci ++ [KS (fst x)]) p ;; mret (fst x, r)) d)
    end in
  mwrap
  match pi with
  | [] => dispatch en md p ci None None
  | PStr n :: rest => f <- look d n ;; f en md rest (ci ++ [KS n]) p
  | PEll :: rest =>
      rs <- mmapM (fun x => f <- look d (snd x) ;;
                            p' <- mlift (payloadUnpack p (KI (fst x))) ;;
                            f en md rest (ci ++ [KS (snd x)]) p') (enum keys) ;;
      mret (RList rs)
  | PDict :: rest => over_dict rest
  | PNest :: _ => over_dict [PNest]
  | PSet names :: rest =>
      match p with
      | PayDict kv =>
          mdict (mmapM (fun x => f <- look d (fst x) ;;
                                 r <- f en md rest (ci ++ [KS (fst x)]) (snd x) ;; mret (fst x, r))
                       (filter (fun x => str_mem (fst x) names) kv))
      | _ =>
          mdict (mmapM (fun k => f <- look d k ;;
                                 r <- f en md rest (ci ++ [KS k]) p ;; mret (k, r)) names)
      end
  | PLst l :: rest =>
      rs <- mmapM (fun x => p' <- mlift (payloadUnpack p (KI (fst x))) ;;
                            travS_body d keys en md rest (ci ++ [snd x]) p') (enum l) ;;
      mret (RList rs)
  | PFun f :: rest =>
      md' <- mlift (inner md) ;;
      r <- travS_body d keys en md' rest ci p ;;
      r' <- mlift (f r) ;;
      outer en md p r'
  | PSlc _ :: _ | PInt _ :: _ | PDel _ _ :: _ => merr EException
  end.

(** structure3.py:98-102 [vec], on results of the flat-index getter. *)
Definition is_list (r : rval) : bool := match r with RFlat _ | RList _ => true | _ => false end.
(** structure3.py:98-102 [vec] *)
Fixpoint vec_ (r : rval) : res rval :=
  match r with
  | RList l =>
      if existsb is_list l then
        (fix go (l : list rval) : res rval :=
           match l with
           | [] => Ok (RFlat [])
           | x :: l' =>
               let* y := vec_ x in
               let* ys := go l' in
               match y, ys with
               | RFlat a, RFlat b => Ok (RFlat (a ++ b))
               | _, _ => Err EType
               end
           end) l
      else match l with [] => Ok (RFlat []) | _ => Ok r end
  | _ => Ok r
  end.

(** The state for traversals that use no master *)
Definition empty_state : pstate := PState [] [] [].

(** [struct.i[arg]] / [struct.f[arg]] (structure3.py:825-837) for a CasadiStructure given by its
    description and its traversal. *)
Definition index_getter (s : structure) (f : clos) (flat : bool) (arg : list pel) : res rval :=
  let* c := casadi_structure s in
  let en := Env (cs_map c) [] KPlain [] in
  let* r := snd (f en (if flat then MFlat else MIM) arg [] PayNone empty_state) in
  if flat then vec_ r else Ok r.

(** Tying the knot over nested structures. *)
Fixpoint travE (e : entry) : clos :=
  match e with
  | mkEntry _ dims st _ symm orig shape =>
      let sub := match st with None => None | Some s => Some (travS s) end in
      let del := match shape with
                 | None => None
                 | Some l => Some (map (fun d => match d with
                                                 | SDS s' => Some (index_getter s' (travS s'))
                                                 | SDI _ => None
                                                 end) l)
                 end in
      fun en md pi ci p => travD en (EInfo symm orig del) sub dims md pi ci p
  end
with travS (s : structure) : clos :=
  match s with
  | mkStruct es order =>
      travS_body (pydict (map (fun e => (e_name e, travE e)) es)) (flat_map oelem_names order)
  end.

(** [s[powerIndex]] and [s[powerIndex] = value] (structure3.py:651-660), [s.i[...]], [s.f[...]]. *)
Definition getitem (s : structure) (en : env) (pi : list pel) (st : pstate) : res rval :=
  snd (travS s en MGet pi [] PayNone st).
(** structure3.py:657-660 [s[powerIndex] = value] *)
Definition setitem (s : structure) (en : env) (pi : list pel) (v : pay) (st : pstate) : pstate * res rval :=
  travS s en MSet pi [] v st.
(** structure3.py:829-832 [s.i[powerIndex]] *)
Definition i_get (s : structure) (pi : list pel) : res rval := index_getter s (travS s) false pi.
(** structure3.py:834-837 [s.f[powerIndex]] *)
Definition f_get (s : structure) (pi : list pel) : res rval := index_getter s (travS s) true pi.

End Power.

Arguments rval : clear implicits.
Arguments pel : clear implicits.
Arguments pay : clear implicits.
Arguments pstate : clear implicits.
Arguments einfo : clear implicits.
Arguments env : clear implicits.
Notation "x <- m ;; k" := (mbind m (fun x => k)) (at level 100, m at level 99, right associativity).
