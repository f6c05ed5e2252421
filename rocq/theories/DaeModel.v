(** Model of dae_model.py: [Dae], [SemiExplicitDae], [ImplicitDae], [parallel]. *)
From Coq Require Import Reals DecimalString.
From Verif Require Import PyBase IndexModel DMModel StructModel PowerModel EntryModel StructsModel IneqModel.
Open Scope nat_scope.

(** A point: the value of element [(r, c)] of symbol number [i].  Every [MX.sym] call
    makes a new symbol; the numbers of new symbols are arguments of the model functions
    that create them.  An element of an MX expression is the function that evaluates it. *)
Definition val := nat -> nat -> nat -> R.
(** An element of an MX expression *)
Definition fn := val -> R.
(** The element 0 *)
Definition fn0 : fn := fun _ => 0%R.

(** An object given for a component of a DAE: an MX matrix, or a structure object (then
    [mo_str] is its structure and [mo_mat] its vector); [mo_valid] is what
    [is_valid_input()] answers, which is decided inside CasADi. *)
Record mobj := MObj { mo_mat : dm fn; mo_str : option structure; mo_valid : bool }.
(** [is_column()]: one column; structures answer True (structure3.py:1015-1016, 1140-1141). *)
Definition is_column (m : mobj) : bool := match mo_str m with Some _ => true | None => dm_nc (mo_mat m) =? 1 end.
(** [numel()] (structure3.py:1024-1025, 1149-1150) *)
Definition numel (m : mobj) : nat := dm_nr (mo_mat m) * dm_nc (mo_mat m).

(** [is_scalar()]: one element; structure objects have no such method. *)
Definition is_scalar (m : mobj) : res bool := match mo_str m with Some _ => Err EAttr | None => Ok (numel m =? 1) end.

(** [MX.sym(name, n)] with number [id] *)
Definition new_sym (id n : nat) : mobj := MObj (DM (sp_dense n 1) (map (fun p (v : val) => v id (fst p) (snd p)) (all_pos n 1))) None true.

(** dae_model.py:28, 185, 238: the classes, with what the constructors of the sub-classes set. *)
Inductive dkind := DBase | DSemi (ode alg : mobj) | DImpl (xdot dae : mobj).
(** dae_model.py:103-109: the attributes set by [Dae.__init__] *)
Record dae := DaeObj { d_x : mobj; d_z : mobj; d_u : mobj; d_p : mobj; d_t : mobj; d_quad : mobj; d_tdp : mobj; d_kind : dkind }.

(** [**kwargs] *)
Definition mkw := list (string * mobj).
(** [if not b: raise ValueError(...)] *)
Definition vassert (b : bool) : res unit := if b then Ok tt else Err EValue.

(** dae_model.py:46-55, 57-66 an optional column input, dae_model.py:68-75, 94-101 an
    optional input.  The default is a new symbol without elements. *)
Definition col_input (k : string) (kw : mkw) : res mobj :=
  match dict_get k kw with
  | Some z => let* _ := vassert (is_column z) in let* _ := vassert (mo_valid z) in Ok z
  | None => Ok (new_sym 0 0)
  end.
(** dae_model.py:68-75, 94-101: an optional input of any shape *)
Definition any_input (k : string) (kw : mkw) : res mobj :=
  match dict_get k kw with
  | Some p => let* _ := vassert (mo_valid p) in Ok p
  | None => Ok (new_sym 0 0)
  end.

(** dae_model.py:32-109 [Dae.__init__]; [tid] is the number of the default [t]. *)
Definition dae_init (tid : nat) (kw : mkw) : res dae :=
  match dict_get "x"%string kw with
  | None => Err EKey
  | Some x =>
      let* _ := vassert (is_column x) in
      let* _ := vassert (mo_valid x) in
      let* z := col_input "z" kw in
      let* u := col_input "u" kw in
      let* p := any_input "p" kw in
      let* t := match dict_get "t"%string kw with
                | Some t => let* _ := vassert (mo_valid t) in let* b := is_scalar t in let* _ := vassert b in Ok t
                | None => Ok (new_sym tid 1)
                end in
      let quad := match dict_get "quad"%string kw with Some q => q | None => new_sym 0 0 end in
      let* tdp := any_input "tdp" kw in
      Ok (DaeObj x z u p t quad tdp DBase)
  end.
(** dae_model.py:215-216, 265-266 *)
Definition with_kind (d : dae) (k : dkind) : dae := DaeObj (d_x d) (d_z d) (d_u d) (d_p d) (d_t d) (d_quad d) (d_tdp d) k.

(** dae_model.py:189-216 [SemiExplicitDae.__init__] *)
Definition semi_init (tid : nat) (kw : mkw) : res dae :=
  let* d := dae_init tid kw in
  match dict_get "ode"%string kw with
  | None => Err EKey
  | Some ode =>
      let* _ := vassert (is_column ode) in
      let* _ := vassert (numel (d_x d) =? numel ode) in
      let* alg := match dict_get "alg"%string kw with
                  | Some alg =>
                      let* _ := vassert (is_column alg) in
                      let* _ := vassert (numel (d_z d) =? numel alg) in
                      Ok alg
                  | None => Ok (new_sym 0 0)
                  end in
      Ok (with_kind d (DSemi ode alg))
  end.

(** dae_model.py:242-266 [ImplicitDae.__init__] *)
Definition impl_init (tid : nat) (kw : mkw) : res dae :=
  let* d := dae_init tid kw in
  match dict_get "xdot"%string kw with
  | None => Err EKey
  | Some xdot =>
      let* _ := vassert (is_column xdot) in
      let* _ := vassert (numel (d_x d) =? numel xdot) in
      match dict_get "dae"%string kw with
      | None => Err EKey
      | Some e =>
          let* _ := vassert (is_column e) in
          let* _ := vassert (numel (d_z d) + numel xdot =? numel e) in
          Ok (with_kind d (DImpl xdot e))
      end
  end.

(** The properties (dae_model.py:112-174, 219-226, 269-276); a missing one raises
    AttributeError. *)
Definition dae_attr (d : dae) (a : string) : res mobj :=
  let is s := String.eqb a s in
  if is "x"%string then Ok (d_x d) else if is "z"%string then Ok (d_z d) else if is "u"%string then Ok (d_u d)
  else if is "p"%string then Ok (d_p d) else if is "t"%string then Ok (d_t d) else if is "quad"%string then Ok (d_quad d)
  else if is "tdp"%string then Ok (d_tdp d)
  else match d_kind d with
       | DSemi ode alg => if is "ode"%string then Ok ode else if is "alg"%string then Ok alg else Err EAttr
       | DImpl xdot e => if is "xdot"%string then Ok xdot else if is "dae"%string then Ok e else Err EAttr
       | DBase => Err EAttr
       end.

(** The element at [p]; elements outside the pattern are zero. *)
Definition mx_at (m : dm fn) (p : nat * nat) : fn := match dm_at m p with Some f => f | None => fn0 end.
(** [a - b] for matrices of equal shape.  (Other shapes do not occur here.) *)
Definition mx_minus (a b : dm fn) : res (dm fn) :=
  if shape_eqb (dm_shape a) (dm_shape b)
  then Ok (dm_build (dm_nr a) (dm_nc a) (fun p =>
         match dm_at a p, dm_at b p with
         | None, None => None
         | _, _ => Some (fun v => (mx_at a p v - mx_at b p v)%R)
         end))
  else Err EException.

(** dae_model.py:229-235 and 279-282 [makeImplicit]; [id] is the number of the new
    symbol [xdot].  The base class has no such method. *)
Definition make_implicit (id : nat) (d : dae) : res dae :=
  match d_kind d with
  | DBase => Err EAttr
  | DImpl _ _ => Ok d
  | DSemi ode alg =>
      let xdot := new_sym id (numel (d_x d)) in
      let* diff := mx_minus (mo_mat xdot) (mo_mat ode) in
      let* e := vcat2 diff (mo_mat alg) in
      impl_init 0 [("xdot"%string, xdot); ("x"%string, d_x d); ("z"%string, d_z d); ("u"%string, d_u d); ("p"%string, d_p d);
                   ("t"%string, d_t d); ("dae"%string, MObj e None false); ("quad"%string, d_quad d); ("tdp"%string, d_tdp d)]
  end.

(** ['model_{0}'.format(i)] *)
Definition model_name (i : nat) : string := String.append "model_" (NilEmpty.string_of_uint (Nat.to_uint i)).
(** The [expr=] argument. *)
Definition mo_kval (m : mobj) : kval fn := match mo_str m with Some s => VStructured s (mo_mat m) | None => VMat (mo_mat m) end.

Section Parallel.
(** Whether CasADi accepts the concatenation of these matrices as a function input. *)
Context (cat_valid : list mobj -> bool).

(** [ce.struct_MX([ce.entry('model_{0}'.format(i), expr=...) ...])] as an object. *)
Definition struct_of (ms : list mobj) : res (sobj fn * mobj) :=
  let* ents := rmapM (fun im => let* e := entry_ [AName (model_name (fst im))] [("expr"%string, mo_kval (snd im))] in Ok (IOne (AEntry e)))
                     (combine (seq 0 (length ms)) ms) in
  let* o := struct_MX fn0 ents None in
  let* c := veccat_master o in
  Ok (o, MObj (dm_col c) (Some (cs_struct (so_c o))) (cat_valid ms)).

(** dae_model.py:285-293 [parallel]; also returns the structure objects. *)
Definition par_attrs : list string := ["x"; "z"; "u"; "p"; "ode"; "alg"; "quad"]%string.
(** dae_model.py:285-293 [parallel] *)
Definition parallel (tid : nat) (models : list dae) : res (dae * list (string * sobj fn)) :=
  let* d := rmapM (fun a => let* ms := rmapM (fun m => dae_attr m a) models in
                            let* om := struct_of ms in Ok (a, om)) par_attrs in
  let* r := dae_init tid (map (fun x => (fst x, snd (snd x))) d) in
  Ok (r, map (fun x => (fst x, fst (snd x))) d).
End Parallel.
