(** Specification vocabulary for DAE models. *)
From Coq Require Import Reals.
From Verif Require Import PyBase IndexModel DMModel DMProofs StructModel StructSpec PowerModel EntryModel StructsModel IneqModel IneqSpec DaeModel.
Open Scope nat_scope.

(** Proper CasADi matrices and structure objects; a structure's vector is a column. *)
Definition MoOk (m : mobj) : Prop :=
  DmOk (mo_mat m) /\
  match mo_str m with
  | None => True
  | Some s => Wf s /\ exists c, casadi_structure s = Ok c /\ dm_sp (mo_mat m) = sp_dense (cs_size c) 1
  end.
Definition KwOk (kw : mkw) : Prop := forall k m, In (k, m) kw -> MoOk m.

(** What the constructors demand. *)
Definition given (k : string) (kw : mkw) (P : mobj -> Prop) : Prop := exists m, dict_get k kw = Some m /\ P m.
Definition if_given (k : string) (kw : mkw) (P : mobj -> Prop) : Prop := dict_get k kw = None \/ given k kw P.
Definition column (m : mobj) : Prop := dm_nc (mo_mat m) = 1.
Definition symbolic (m : mobj) : Prop := mo_valid m = true.
(** Number of elements of an optional argument. *)
Definition size_of (k : string) (kw : mkw) : nat := match dict_get k kw with Some m => numel m | None => 0 end.

(** A CasADi matrix, not a structure object. *)
Definition matrix (m : mobj) : Prop := mo_str m = None.
(** What [Dae] demands, apart from [t] being a matrix. *)
Definition BaseAsks (kw : mkw) : Prop :=
  given "x" kw (fun x => column x /\ symbolic x) /\
  if_given "z" kw (fun z => column z /\ symbolic z) /\
  if_given "u" kw (fun u => column u /\ symbolic u) /\
  if_given "p" kw symbolic /\
  if_given "t" kw (fun t => symbolic t /\ numel t = 1) /\
  if_given "tdp" kw symbolic.
Definition BaseOk (kw : mkw) : Prop :=
  given "x" kw (fun x => column x /\ symbolic x) /\
  if_given "z" kw (fun z => column z /\ symbolic z) /\
  if_given "u" kw (fun u => column u /\ symbolic u) /\
  if_given "p" kw symbolic /\
  if_given "t" kw (fun t => matrix t /\ symbolic t /\ numel t = 1) /\
  if_given "tdp" kw symbolic.
Definition SemiOk (kw : mkw) : Prop :=
  BaseOk kw /\ given "ode" kw (fun e => column e /\ numel e = size_of "x" kw) /\
  if_given "alg" kw (fun e => column e /\ numel e = size_of "z" kw).
Definition ImplOk (kw : mkw) : Prop :=
  BaseOk kw /\ given "xdot" kw (fun e => column e /\ numel e = size_of "x" kw) /\
  given "dae" kw (fun e => column e /\ numel e = size_of "x" kw + size_of "z" kw).

(** The stored component is the argument, or by default an empty column. *)
Definition stored_as (m : mobj) (k : string) (kw : mkw) : Prop :=
  match dict_get k kw with Some a => m = a | None => dm_shape (mo_mat m) = (0, 1) end.

(** Element [i] of a column. *)
Definition at_ (m : mobj) (i : nat) (v : val) : R := elem fn0 (mo_mat m) i 0 v.
(** The point [v] with symbol [id] set to the column [k]. *)
Definition bind (v : val) (id : nat) (k : nat -> R) : val := fun j r c => if Nat.eqb j id then k r else v j r c.
(** [m] does not mention symbol [id]. *)
Definition Indep (id : nat) (m : mobj) : Prop :=
  forall v w p, (forall j r c, j <> id -> v j r c = w j r c) -> mx_at (mo_mat m) p v = mx_at (mo_mat m) p w.

(** Made by a constructor from proper arguments. *)
Definition SemiMade (d : dae) : Prop := exists tid kw, KwOk kw /\ semi_init tid kw = Ok d.
Definition ImplMade (d : dae) : Prop := exists tid kw, KwOk kw /\ impl_init tid kw = Ok d.

(** The members' attributes in order. *)
Definition Members (ds : list dae) (a : string) (ms : list mobj) : Prop :=
  length ms = length ds /\ forall i d, nth_error ds i = Some d -> exists m, nth_error ms i = Some m /\ dae_attr d a = Ok m.
(** The structure object for one attribute. *)
Definition ParOf (ms : list mobj) (o : sobj fn) (m : mobj) : Prop :=
  MoOk m /\ column m /\ mo_str m = Some (cs_struct (so_c o)) /\
  s_keys (cs_struct (so_c o)) = map model_name (seq 0 (length ms)) /\
  mo_mat m = dm_col (flat_map (fun x => dm_nz (mo_mat x)) ms) /\
  (forall i x, nth_error ms i = Some x -> veccat_get fn0 o [PStr (model_name i)] = Ok (RMat (mo_mat x))).
