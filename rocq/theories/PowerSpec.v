(** Specification vocabulary for indexing structures. *)
From Verif Require Import PyBase IndexModel DMModel StructModel StructSpec PowerModel.

(** [At s ci e]: [ci] is a full index (name, one integer per repeat dimension, name
    of an entry of the sub-structure, ...) that ends at the entry [e], which is
    either primitive or holds a sub-structure. *)
Inductive At : structure -> cidx -> entry -> Prop :=
| At_here : forall s e idx,
    In e (s_entries s) -> InDims idx (e_dims e) -> At s (KS (e_name e) :: map KI idx) e
| At_sub : forall s e idx s' ci e',
    In e (s_entries s) -> e_struct e = Some s' -> InDims idx (e_dims e) -> At s' ci e' ->
    At s (KS (e_name e) :: map KI idx ++ ci) e'.

(** The same index as a power index. *)
Definition pck {T} (k : ck) : pel T := match k with KS s => PStr s | KI i => PInt i end.
Definition pidx {T} (ci : cidx) : list (pel T) := map pck ci.

(** A numeric structure object ([DMStruct], [SXStruct]): a well-formed structure, its
    built index map, and a master vector of the right length. *)
Definition num_env {T} (c : cstruct) : env T := Env (cs_map c) [] KPlain [].
Record Obj {T} (s : structure) (c : cstruct) (st : pstate T) : Prop := {
  ob_wf : Wf s;
  ob_built : casadi_structure s = Ok c;
  ob_len : length (ps_master st) = cs_size c
}.

(** No entry of type 'symm', at any depth. *)
Inductive NoSymm : structure -> Prop :=
| NoSymm_intro : forall es order,
    (forall e, In e es -> e_symm e = false) ->
    (forall e s', In e es -> e_struct e = Some s' -> NoSymm s') ->
    NoSymm (mkStruct es order).

(** Power indices without callables; the model lists the members of a set in iteration
    order, hence without repetition. *)
Definition no_fun {T} (pi : list (pel T)) : Prop :=
  Forall (fun p => match p with PFun _ => False | PSet l => NoDup l | _ => True end) pi.

(** All flat positions occurring in what [s.i[...]] returned. *)
Fixpoint positions {T} (r : rval T) : list nat :=
  match r with
  | RIdx m => dm_nz m
  | RFlat l => l
  | RList l => flat_map positions l
  | RDict l => flat_map (fun kv => positions (snd kv)) l
  | RNone | RMat _ => []
  end.

(** Nested list over repeat dimensions: entry [i1, ..., ik] is [f [i1, ..., ik]]. *)
Fixpoint nested {T} (dims : list Z) (f : list Z -> rval T) : rval T :=
  match dims with
  | [] => f []
  | d :: ds => RList (map (fun i => nested ds (fun idx => f (i :: idx))) (pyrange d))
  end.

(** Python list slicing [l[a:b:c]], described by which positions are kept and in which
    direction: for a positive step the positions [lo <= i < hi] with [i = lo mod c],
    ascending; for a negative step the positions [hi < i <= lo] with [i = lo mod c],
    descending. *)
Definition clip (lo hi : Z) (v : Z) : Z := Z.max lo (Z.min v hi).
Definition bound (n lo hi dflt : Z) (o : option Z) : Z :=
  match o with
  | None => dflt
  | Some v => clip lo hi (if (v <? 0)%Z then v + n else v)%Z
  end.
Definition py_slice_positions (n : Z) (s : slc) : list Z :=
  let c := match sl_step s with None => 1%Z | Some c => c end in
  if (0 <? c)%Z then
    let lo := bound n 0 n 0 (sl_start s) in
    let hi := bound n 0 n n (sl_stop s) in
    filter (fun i => (lo <=? i) && (i <? hi) && ((i - lo) mod c =? 0))%Z (pyrange n)
  else
    let lo := bound n (-1) (n - 1) (n - 1) (sl_start s) in
    let hi := bound n (-1) (n - 1) (-1) (sl_stop s) in
    filter (fun i => (hi <? i) && (i <=? lo) && ((lo - i) mod (- c) =? 0))%Z (rev (pyrange n)).
Definition py_slice {A} (l : list A) (s : slc) : list A :=
  flat_map (fun i => match nth_error l (Z.to_nat i) with Some x => [x] | None => [] end)
           (py_slice_positions (Z.of_nat (length l)) s).

(** A raw address: like [At], but with arbitrary integers in the repeat positions;
    [Addr s raw ci e] says that [ci] is [raw] with every negative integer counted from
    the end of its dimension. *)
Definition from_end (d i : Z) : Z := if (i <? 0)%Z then (i + d)%Z else i.
Definition from_ends (dims idx : list Z) : list Z := map (fun x => from_end (fst x) (snd x)) (List.combine dims idx).
Inductive Addr : structure -> cidx -> cidx -> entry -> Prop :=
| Addr_here : forall s e idx,
    In e (s_entries s) -> length idx = length (e_dims e) ->
    Addr s (KS (e_name e) :: map KI idx) (KS (e_name e) :: map KI (from_ends (e_dims e) idx)) e
| Addr_sub : forall s e idx s' raw ci e',
    In e (s_entries s) -> e_struct e = Some s' -> length idx = length (e_dims e) -> Addr s' raw ci e' ->
    Addr s (KS (e_name e) :: map KI idx ++ raw) (KS (e_name e) :: map KI (from_ends (e_dims e) idx) ++ ci) e'.

(** Every integer of a raw address is within its dimension: [-n <= i < n]. *)
Inductive Within : structure -> cidx -> Prop :=
| Within_here : forall s e idx,
    In e (s_entries s) -> Forall2 (fun i d => (- d <= i < d)%Z) idx (e_dims e) ->
    Within s (KS (e_name e) :: map KI idx)
| Within_sub : forall s e idx s' raw,
    In e (s_entries s) -> e_struct e = Some s' -> Forall2 (fun i d => (- d <= i < d)%Z) idx (e_dims e) ->
    Within s' raw -> Within s (KS (e_name e) :: map KI idx ++ raw).

(** What was read, as a right-hand side. *)
Fixpoint pay_of {T} (r : rval T) : pay T :=
  match r with
  | RMat m => PayMat m
  | RList l => PayList (map pay_of l)
  | RDict l => PayDict (map (fun kv => (fst kv, pay_of (snd kv))) l)
  | _ => PayNone
  end.

(** Index components that select, in every repeat dimension, one element or an initial
    part [:], [:b], [0:b]; names, ellipsis, {}, sets of names, nesteddict. *)
Definition initial_slice (s : slc) : Prop :=
  (sl_start s = None \/ sl_start s = Some 0%Z) /\ (sl_step s = None \/ sl_step s = Some 1%Z).
Definition initial {T} (pi : list (pel T)) : Prop :=
  Forall (fun p => match p with
                   | PStr _ | PInt _ | PEll | PDict | PNest => True
                   | PSet l => NoDup l
                   | PSlc s => initial_slice s
                   | PLst _ | PFun _ | PDel _ _ => False
                   end) pi.

(** The part of a right-hand side meant for position [i]. *)
Definition item {T} (p : pay T) (i : nat) : option (pay T) :=
  match p with
  | PayList l => nth_error l i
  | PayRep q => Some q
  | _ => Some p
  end.

(** A sequence of assignments, stopping at the first failure. *)
Fixpoint write_seq {T} (zero : T) (s : structure) (en : env T) (l : list (list (pel T) * option (pay T))) (st : pstate T)
  : pstate T * bool :=
  match l with
  | [] => (st, true)
  | (pi, Some v) :: l' =>
      match setitem zero s en pi v st with
      | (st', Ok _) => write_seq zero s en l' st'
      | (st', Err _) => (st', false)
      end
  | (_, None) :: _ => (st, false)
  end.
Definition done {T} (x : pstate T * res (rval T)) : pstate T * bool :=
  (fst x, match snd x with Ok _ => true | Err _ => false end).

(** A symmetric entry of size [n] declared with sparsity [orig] (structure3.py:1310-1314):
    its stored pattern is the upper triangle of [orig]. *)
Record SymmEntry (e : entry) (n : nat) (orig : spy) : Prop := {
  se_symm : e_symm e = true;
  se_prim : e_struct e = None;
  se_orig : e_orig e = Some orig;
  se_ok : SpOk orig;
  se_rows : sp_nr orig = n;
  se_cols : sp_nc orig = n;
  se_sp : e_sp e = Spy n n (filter (fun p => fst p <=? snd p) (sp_pat orig))
}.
