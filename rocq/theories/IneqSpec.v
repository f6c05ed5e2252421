(** Specification vocabulary for inequalities. *)
From Verif Require Import PyBase IndexModel DMModel DMProofs StructModel StructSpec PowerModel EntryModel StructsModel IneqModel.
Open Scope nat_scope.

Section Spec.
Context {A X : Type} (leA : A -> A -> Prop) (a0 : A).
Notation V := (xnum A).
Notation F := (X -> xnum A).

(** Order of floating-point numbers: NaN compares false. *)
Definition xle (a b : V) : Prop :=
  match a, b with
  | NaN, _ | _, NaN => False
  | NInf, _ | _, PInf => True
  | Fin a, Fin b => leA a b
  | _, _ => False
  end.

(** The meaning of an inequality at a point: lb <= expr <= ub elementwise; elements
    outside the sparsity pattern are zero. *)
Definition elem {B} (z : B) (m : dm B) (r c : nat) : B := dm_val z m (r, c).
Definition Sat (i : ineq A X) (x : X) : Prop :=
  exists m, ex_mat (iq_expr i) = Ok m /\
  forall r c, r < dm_nr m -> c < dm_nc m ->
    xle (elem (Fin a0) (bd_mat (iq_lb i)) r c) (elem (fun _ => Fin a0) m r c x) /\
    xle (elem (fun _ => Fin a0) m r c x) (elem (Fin a0) (bd_mat (iq_ub i)) r c).

(** Shapes of arguments that CasADi can turn into a DM. *)
Definition arg_shape (a : barg A) : option (nat * nat) :=
  match a with
  | ANum _ => Some (1, 1)
  | AVec l => Some (length l, 1)
  | AArr nr nc _ => Some (nr, nc)
  | ADM d => Some (dm_shape d)
  | AStr o => Some (cs_size (so_c o), 1)
  | ANone | ABad => None
  end.
(** Element values of an argument. *)
Definition arg_val (a : barg A) (r c : nat) : V :=
  match a with
  | ANum v => v
  | AVec l => nth r l (Fin a0)
  | AArr _ _ f => f r c
  | ADM d => elem (Fin a0) d r c
  | AStr o => nth r (so_cat o) (Fin a0)
  | ANone | ABad => NaN
  end.

(** Proper CasADi and structure objects. *)
Definition ExOk (e : ex A X) : Prop :=
  match e with
  | ExMat m => DmOk m
  | ExStr o => Wf (cs_struct (so_c o)) /\ casadi_structure (cs_struct (so_c o)) = Ok (so_c o) /\
               exists c, veccat_master o = Ok c /\ length c = cs_size (so_c o)
  end.
Definition ArgOk (a : barg A) : Prop :=
  match a with
  | ADM d => DmOk d
  | AStr o => length (so_cat o) = cs_size (so_c o)
  | _ => True
  end.
(** Made by the constructor from proper arguments. *)
Definition Made (i : ineq A X) : Prop :=
  exists e lb ub nom, ExOk e /\ ArgOk lb /\ ArgOk ub /\ ArgOk nom /\ inequality_ e lb ub nom = Ok i.

(** First row of the [k]-th block of a vertical concatenation. *)
Definition rows (i : ineq A X) : nat := fst (ex_shape (iq_expr i)).
Definition row_off (l : list (ineq A X)) (k : nat) : nat := list_sum (map rows (firstn k l)).
(** [m] holds [n] at row offset [off]. *)
Definition holds_at {B} (z : B) (m n : dm B) (off : nat) : Prop :=
  forall r c, r < dm_nr n -> c < dm_nc n -> off + r < dm_nr m /\ c < dm_nc m /\ elem z m (off + r) c = elem z n r c.
Definition dense {B} (m : dm B) : Prop := dm_sp m = sp_dense (dm_nr m) (dm_nc m).

(** An argument is omitted or has the shape of the expression. *)
Definition ShapeOk (e : ex A X) (a : barg A) : Prop := a = ANone \/ arg_shape a = Some (ex_shape e).
(** What is stored. *)
Definition Stored (b : bd A) (e : ex A X) (a : barg A) (dflt : V) : Prop :=
  bd_shape b = ex_shape e /\
  forall r c, r < fst (ex_shape e) -> c < snd (ex_shape e) ->
    elem (Fin a0) (bd_mat b) r c = match a with ANone => dflt | _ => arg_val a r c end.
(** A list of made inequalities with the same number of columns and with nominal values. *)
Definition Joinable (l : list (ineq A X)) (nc : nat) : Prop :=
  forall i, In i l -> Made i /\ snd (ex_shape (iq_expr i)) = nc /\ iq_nom i <> None.
(** The inequalities hold at the structural nonzeros of the expression. *)
Definition SatNz (i : ineq A X) (x : X) : Prop :=
  exists m, ex_mat (iq_expr i) = Ok m /\ forall p, In p (sp_pat (dm_sp m)) ->
    xle (elem (Fin a0) (bd_mat (iq_lb i)) (fst p) (snd p)) (elem (fun _ => Fin a0) m (fst p) (snd p) x) /\
    xle (elem (fun _ => Fin a0) m (fst p) (snd p) x) (elem (Fin a0) (bd_mat (iq_ub i)) (fst p) (snd p)).
(** [d] holds the elements of [b] at the positions [sp]. *)
Definition picks (d b : dm V) (sp : spy) : Prop := dm_sp d = sp /\ forall p, In p (sp_pat sp) -> elem (Fin a0) d (fst p) (snd p) = elem (Fin a0) b (fst p) (snd p).
End Spec.
