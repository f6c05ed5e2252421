(** Model of [CollocationScheme], [CollocationIntegrator] and [CollocationSimulator] in
    collocation/collocation.py.

    A scheme consists of MX expressions in the symbols x, K, Z, u, P.  The model gives the
    values of the expressions at values of the symbols, so that an MX expression is a
    function of the model's arguments x, K, Z, u, p.  Not modelled: the options
    parallelization, expand and options, which select how CasADi evaluates. *)
From Coq Require Import Reals.
From Verif Require Import PyBase IndexModel DMModel StructModel PowerModel EntryModel StructsModel IneqModel DaeModel NumModel NumInst PolynomialModel PiecewiseModel PdqModel.
Open Scope nat_scope.

Section Scheme.
Context {T : Type} {NT : Num T}.

(** ** CasADi matrix functions *)
(** [cs.kron] *)
Definition mkron (a b : mat T) : mat T :=
  Mat (nr a * nr b) (nc a * nc b) (fun i j => (at_m a (i / nr b) (j / nc b) * at_m b (i mod nr b) (j mod nc b))%num).
(** [cs.DM.eye(n)], [cs.DM.ones(r, c)], [cs.diagcat( *h)] *)
Definition meye (n : nat) : mat T := Mat n n (fun i j => if Nat.eqb i j then n1 else n0).
(** [cs.DM.ones(r, c)] *)
Definition mones (r c : nat) : mat T := Mat r c (fun _ _ => n1).
(** [cs.diagcat( *h)] *)
Definition mdiag (h : list T) : mat T := Mat (length h) (length h) (fun i j => if Nat.eqb i j then vget h i else n0).
(** A one-dimensional numpy array given to CasADi is a column. *)
Definition colvec (l : list T) : mat T := Mat (length l) 1 (fun i _ => vget l i).
(** [cs.repmat(a[:, n], 1, m)] *)
Definition repmat_col (a : mat T) (n m : nat) : mat T := Mat (nr a) m (fun i _ => at_m a i n).
(** [a + b], [a - b] for CasADi matrices: a 1 x 1 operand is used for all elements. *)
Definition cs_elem (f : T -> T -> T) (a b : mat T) : res (mat T) :=
  if (nr a =? nr b) && (nc a =? nc b) then Ok (Mat (nr a) (nc a) (fun i j => f (at_m a i j) (at_m b i j)))
  else if (nr a =? 1) && (nc a =? 1) then Ok (Mat (nr b) (nc b) (fun i j => f (at_m a 0 0) (at_m b i j)))
  else if (nr b =? 1) && (nc b =? 1) then Ok (Mat (nr a) (nc a) (fun i j => f (at_m a i j) (at_m b 0 0)))
  else Err EException.
(** [s * a] for a number *)
Definition mscale (s : T) (a : mat T) : mat T := Mat (nr a) (nc a) (fun i j => (s * at_m a i j)%num).
(** [cs.diff(p, 1, 1)]: differences of columns *)
Definition cs_diff (p : mat T) : mat T := Mat (nr p) (nc p - 1) (fun i j => (at_m p i (j + 1) - at_m p i j)%num).
(** A matrix as the structure modules see it; a dense one and one where [pat] tells which
    rows are structurally nonzero. *)
Definition mat_dm (m : mat T) : dm T := DM (sp_dense (nr m) (nc m)) (map (fun p => at_m m (fst p) (snd p)) (all_pos (nr m) (nc m))).
(** A matrix where [pat] tells which rows are structurally nonzero *)
Definition mat_dm_pat (pat : nat -> bool) (m : mat T) : dm T :=
  dm_build (nr m) (nc m) (fun p => if pat (fst p) then Some (at_m m (fst p) (snd p)) else None).
(** The dense matrix of a sparse one. *)
Definition dm_mat (d : dm T) : mat T := Mat (dm_nr d) (dm_nc d) (fun i j => match dm_at d (i, j) with Some v => v | None => n0 end).
(** [m.shape == (r, c)] *)
Definition shape_is (m : mat T) (r c : nat) : bool := (nr m =? r) && (nc m =? c).

(** ** The DAE function *)
(** Arguments xdot, x, z, u, p, t, tdp for one point *)
Record dargs := DArgs { a_xdot : nat -> T; a_x : nat -> T; a_z : nat -> T; a_u : nat -> T; a_p : nat -> T; a_t : T; a_tdp : nat -> T }.
(** [dae.createFunction('dae', ['xdot', 'x', 'z', 'u', 'p', 't', 'tdp'], ['dae', 'quad'])]:
    sizes of inputs and outputs, structurally nonzero rows of 'dae', the two outputs. *)
Record daefun := DaeFun { f_nx : nat; f_nz : nat; f_nu : nat; f_np : nat; f_ntdp : nat; f_ndae : nat; f_nq : nat;
                          f_pat : nat -> bool; f_dae : dargs -> nat -> T; f_quad : dargs -> nat -> T }.
(** Column [k]. *)
Definition mcol (m : mat T) (k : nat) : nat -> T := fun i => at_m m i k.
(** collocation.py:314-322: the mapped function and its call.  Without [rep], p is one
    column used for all points.  CasADi also accepts some other shapes (scalars,
    transposed vectors), which do not occur here; [tc] is such a transposed vector. *)
Definition dae_map (f : daefun) (n : nat) (rep : bool) (K X Z U p : mat T) (tc : list T) (tdp : mat T) : res (mat T * mat T) :=
  if shape_is K (f_nx f) n && shape_is X (f_nx f) n && shape_is Z (f_nz f) n && shape_is U (f_nu f) n
     && shape_is p (f_np f) (if rep then n else 1) && (length tc =? n) && shape_is tdp (f_ntdp f) n
  then
    let arg k := DArgs (mcol K k) (mcol X k) (mcol Z k) (mcol U k) (mcol p (if rep then k else 0)) (vget tc k) (mcol tdp k) in
    Ok (Mat (f_ndae f) n (fun i k => f_dae f (arg k) i), Mat (f_nq f) n (fun i k => f_quad f (arg k) i))
  else Err EException.

(** ** CollocationScheme *)
(** [ce.struct_MX([ce.entry(k, expr=v), ...])] *)
Definition mk_struct (l : list (string * kval T)) : res (sobj T) :=
  let* es := rmapM (fun kv => let* e := entry_ [AName (fst kv)] [("expr"%string, snd kv)] in Ok (IOne (AEntry e))) l in
  struct_MX n0 es None.

(** collocation.py:287-293 and 342: the state at the collocation points, from the values
    at the interval ends and the derivatives *)
Definition int_points (tb : tableau T) (h : list T) (m : nat) (x K : mat T) : res (mat T) :=
  let* a := cs_mtimes (mcols x 0 (nc x - 1)) (mkron (meye (length h)) (mones 1 m)) in
  let* b := cs_mtimes K (mkron (mdiag h) (mtr (tb_A tb))) in
  cs_elem nadd a b.
(** collocation.py:296: the state at the interval ends *)
Definition int_ends (tb : tableau T) (h : list T) (x K : mat T) : res (mat T) :=
  let* b := cs_mtimes K (mkron (mdiag h) (colvec (tb_b tb))) in
  cs_elem nadd (mcols x 0 (nc x - 1)) b.
(** collocation.py:334-340: the loop over intervals [n], ...; [q] is the last column. *)
Fixpoint quad_ends (tb : tableau T) (m : nat) (quad : mat T) (h : list T) (n : nat) (q : mat T) : res (list (mat T)) :=
  match h with
  | [] => Ok []
  | hn :: h' =>
      let* d := cs_mtimes (mcols quad (n * m) ((n + 1) * m)) (colvec (tb_b tb)) in
      let* q' := cs_elem nadd q (mscale hn d) in
      let* l := quad_ends tb m quad h' (n + 1) q' in
      Ok (q' :: l)
  end.

(** collocation.py:345-362: the attributes *)
Record scheme := Scheme { sc_N : nat; sc_M : nat; sc_eq : sobj T; sc_x : mat T; sc_X : mat T; sc_K : mat T; sc_Z : mat T; sc_U : mat T; sc_u : mat T;
                          sc_quad : mat T; sc_Q : mat T; sc_q : mat T; sc_p : mat T; sc_tc : list T; sc_butcher : tableau T; sc_tdp : mat T; sc_t : list T }.
(** collocation.py:248-362 [__init__], after [makeImplicit].  With fewer than two time
    points [np.hstack] (300) raises. *)
Definition scheme_ (cspts : nat -> string -> res (list T)) (f : daefun) (t : list T) (order : nat) (method : string)
  (tdp_fun : option (T -> mat T)) (rep : bool) (x K Z u p : mat T) : res scheme :=
  let M := order in
  let N := length t - 1 in
  if (N =? 0) then Err EValue else
  let* U := hstack (map (fun n => repmat_col u n M) (seq 0 N)) in
  let* tb := butcher_method cspts order method in
  let h := ndiff t in
  let* X := int_points tb h M x K in
  let* xf := int_ends tb h x K in
  let tc := concat (map (fun n => map (fun c => (vget t n + vget h n * c)%num) (tb_c tb)) (seq 0 N)) in
  let* tdp := match tdp_fun with
              | Some g => hstack (map g tc)
              | None => let* _ := rassert (f_ntdp f =? 0) in Ok (mzeros 0 (length tc))
              end in
  let* out := dae_map f (N * M) rep K X Z U p tc tdp in
  let* cont := cs_elem nsub xf (mcols x 1 (nc x)) in
  let* eqc := mk_struct [("collocation"%string, VMat (mat_dm_pat (f_pat f) (fst out))); ("continuity"%string, VMat (mat_dm cont)); ("param"%string, VMat (mat_dm (cs_diff p)))] in
  let quad := snd out in
  let* qs := quad_ends tb M quad h 0 (mzeros (f_nq f) 1) in
  let* q := hstack (mzeros (f_nq f) 1 :: qs) in
  let* Q := int_points tb h M q quad in
  Ok (Scheme N M eqc x X K Z U u quad Q q p tc tb tdp t).

(** collocation.py:401-403 [evalX]: x and K are replaced by matrices of the same shapes. *)
Definition eval_X (s : scheme) (x K : mat T) : res (mat T) :=
  if shape_is x (nr (sc_x s)) (nc (sc_x s)) && shape_is K (nr (sc_K s)) (nc (sc_K s)) then int_points (sc_butcher s) (ndiff (sc_t s)) (sc_M s) x K else Err EException.
(** collocation.py:501-510 [piecewisePolyX] for CasADi matrices *)
Definition piecewise_X (s : scheme) (x K : mat T) : res (ppoly T) :=
  let M := sc_M s in
  let* X := eval_X s x K in
  let* coeff := rmapM (fun n => hstack [mcols x n (n + 1); mcols X (n * M) ((n + 1) * M)]) (seq 0 (sc_N s)) in
  let* b := basis_ (PVec (n0 :: tb_c (sc_butcher s))) in
  ppoly_ (sc_t s) coeff b.

(** The attributes that [combine] can ask for (collocation.py:389-480) *)
Definition sc_attr (s : scheme) (w : string) : res (kval T) :=
  let is k := String.eqb w k in
  if is "K"%string then Ok (VMat (mat_dm (sc_K s))) else if is "x"%string then Ok (VMat (mat_dm (sc_x s)))
  else if is "Z"%string then Ok (VMat (mat_dm (sc_Z s))) else if is "U"%string then Ok (VMat (mat_dm (sc_U s)))
  else if is "u"%string then Ok (VMat (mat_dm (sc_u s))) else if is "p"%string then Ok (VMat (mat_dm (sc_p s)))
  else if is "eq"%string then let* c := veccat_master (sc_eq s) in Ok (VStructured (cs_struct (so_c (sc_eq s))) (dm_col c))
  else if is "q"%string then Ok (VMat (mat_dm (sc_q s)))
  else Err EAttr.
(** collocation.py:489-498 [combine] *)
Definition what_set : list string := ["K"; "x"; "Z"; "U"; "u"; "p"; "eq"; "q"]%string.
(** collocation.py:489-498 [combine] *)
Definition sc_combine (s : scheme) (what : list string) : res (sobj T) :=
  let* _ := rassert (forallb (fun w => str_mem w what_set) what) in
  let* l := rmapM (fun w => let* v := sc_attr s w in Ok (w, v)) what in
  mk_struct l.

(** ** CollocationIntegrator *)
Record iout := IOut { io_xf : mat T; io_zf : list T; io_qf : nat -> T; io_X : mat T; io_Z : mat T; io_Q : mat T; io_x : mat T; io_K : mat T; io_tc : list T }.
(** [sol[k]] of the structure *)
Definition sol_get (o : sobj T) (k : string) : res (mat T) :=
  let* r := so_get n0 o [PStr k] in match r with RMat d => Ok (dm_mat d) | _ => Err EException end.
(** [var(w)] for an MX vector and its parts *)
Definition sol_parts (c : cstruct) (w : list T) : res (mat T * mat T * mat T) :=
  let* o := mx_struct c w in
  let* x := sol_get o "x"%string in let* K := sol_get o "K"%string in let* Z := sol_get o "Z"%string in Ok (x, K, Z).
(** collocation.py:527-529: the residual as a function of the vector of unknowns *)
Definition eq_fun (cspts : nat -> string -> res (list T)) (f : daefun) (t : list T) (order : nat) (method : string) (tdp_fun : option (T -> mat T))
  (c : cstruct) (x0 : nat -> T) (u p : mat T) (w : list T) : res (list T) :=
  let* xkz := sol_parts c w in let '(x, K, Z) := xkz in
  let* s := scheme_ cspts f t order method tdp_fun false x K Z u p in
  let* e := veccat_master (sc_eq s) in
  Ok (e ++ map (fun i => (at_m x i 0 - x0 i)%num) (seq 0 (f_nx f))).
(** collocation.py:513-553 [__init__] and the evaluation of the resulting function.  [rf]
    is [cs.rootfinder('rf', 'newton', eq)]: from the residual function and an initial
    point it makes a root, or raises; CasADi demands as many equations as unknowns.
    [sol_q] and [sol_Q] still contain the symbol P of the scheme, which is not an input
    (548-551): a function with free variables cannot be created. *)
Definition integrator_ (rf : (list T -> res (list T)) -> list T -> res (list T)) (nan : T) (cspts : nat -> string -> res (list T))
  (f : daefun) (t : list T) (order : nat) (method : string) (tdp_fun : option (T -> mat T)) (x0 z0 : nat -> T) (u p : mat T) : res iout :=
  let N := length t - 1 in
  let nx := f_nx f in let nz := f_nz f in
  let* s0 := scheme_ cspts f t order method tdp_fun false (mzeros nx (N + 1)) (mzeros nx (N * order)) (mzeros nz (N * order)) (mzeros (f_nu f) N) (mzeros (f_np f) 1) in
  let* var := sc_combine s0 ["x"; "K"; "Z"]%string in
  let eq := eq_fun cspts f t order method tdp_fun (so_c var) x0 u p in
  let* w0s := mk_struct [("x"%string, VMat (mat_dm (Mat nx (N + 1) (fun i _ => x0 i)))); ("K"%string, VMat (mat_dm (mzeros nx (N * order))));
                         ("Z"%string, VMat (mat_dm (Mat nz (N * order) (fun i _ => z0 i))))] in
  let* w0 := veccat_master w0s in
  let* e0 := eq w0 in
  if negb (length e0 =? length w0) then Err EException else
  if (0 <? f_np f) && (0 <? f_nq f) then Err EException else
  let* w := rf eq w0 in
  let* xkz := sol_parts (so_c var) w in let '(x, K, Z) := xkz in
  let* s := scheme_ cspts f t order method tdp_fun false x K Z u p in
  Ok (IOut (mcols x 1 (nc x)) (repeat nan nz) (mcol (sc_q s) (nc (sc_q s) - 1)) (sc_X s) Z (sc_Q s) x K (sc_tc s)).

(** collocation.py:556-566 [integrate]: the inputs are given by position ([by_name =
    false]) or by name.  By position the call returns a tuple, which has no item 'x'. *)
Definition integrate_ (rf : (list T -> res (list T)) -> list T -> res (list T)) (nan : T) (cspts : nat -> string -> res (list T))
  (f : daefun) (t : list T) (order : nat) (method : string) (tdp_fun : option (T -> mat T)) (by_name : bool) (x0 z0 : nat -> T) (u p : mat T) : res (iout * ppoly T) :=
  let* out := integrator_ rf nan cspts f t order method tdp_fun x0 z0 u p in
  if negb by_name then Err EType else
  let* s := scheme_ cspts f t order method tdp_fun false (io_x out) (io_K out) (io_Z out) u p in
  let* pp := piecewise_X s (io_x out) (io_K out) in
  Ok (out, pp).

(** ** CollocationSimulator *)
(** Python's binding of arguments: parameters (with whether they have a default), number
    of positional arguments, names of keyword arguments. *)
Definition bind_args (params : list (string * bool)) (npos : nat) (kws : list string) : res unit :=
  if length params <? npos then Err EType
  else if existsb (fun k => str_mem k (map fst (firstn npos params))) kws then Err EType
  else if existsb (fun k => negb (str_mem k (map fst params))) kws then Err EType
  else if existsb (fun pd => negb (snd pd) && negb (str_mem (fst pd) kws)) (skipn npos params) then Err EType
  else Ok tt.
(** collocation.py:248-249: the signature of [CollocationScheme] *)
Definition scheme_sig : list (string * bool) :=
  [("dae", false); ("t", false); ("order", false); ("method", true); ("parallelization", true); ("tdp_fun", true); ("expand", true); ("repeat_param", true); ("options", true)]%string.
(** collocation.py:579-612 [__init__]; [rest] is what follows the call in line 585. *)
Definition simulator_ {S : Type} (colpts : nat -> string -> res (list T)) (t : list T) (poly_order : nat) (rest : pdq T -> res S) : res S :=
  let* p := pdq_ colpts t poly_order "chebyshev" in
  let* _ := bind_args scheme_sig 2 ["tdp_fun"%string] in
  rest p.
End Scheme.
Arguments daefun T : clear implicits.
Arguments dargs T : clear implicits.
Arguments scheme T : clear implicits.
Arguments iout T : clear implicits.

(** ** DAE objects *)
(** dae_model.py:177-182 [createFunction] for an implicit DAE; [assign] is how CasADi
    distributes the function's arguments over the symbols in its inputs.  p and tdp are
    columns here. *)
Definition create_function (assign : dargs R -> val) (d : dae) : res (daefun R) :=
  match d_kind d with
  | DImpl xdot e =>
      Ok (DaeFun (numel (d_x d)) (numel (d_z d)) (numel (d_u d)) (numel (d_p d)) (numel (d_tdp d)) (numel e) (numel (d_quad d))
            (fun r => match dm_at (mo_mat e) (r, 0) with Some _ => true | None => false end)
            (fun a r => mx_at (mo_mat e) (r, 0) (assign a)) (fun a r => mx_at (mo_mat (d_quad d)) (r, 0) (assign a)))
  | _ => Err EAttr
  end.
(** collocation.py:268, 310: the function used by a scheme; [id] is the number of the new
    symbol xdot. *)
Definition scheme_fun (assign : dargs R -> val) (id : nat) (d : dae) : res (daefun R) :=
  let* d' := make_implicit id d in create_function assign d'.

(** ** save and load *)
(** structure3.py:770-772, 1061-1063, 1488-1490: [save], [struct_load].  [names] are the
    names Python knows (builtins and globals of the module); [fs] are the files. *)
Definition lookup (names : list string) (n : string) : res unit := if str_mem n names then Ok tt else Err EName.
(** structure3.py:770-772, 1061-1063 [save] *)
Definition save_ {O : Type} (names : list string) (dump : O -> string) (o : O) (fname : string) (fs : list (string * string)) : res (list (string * string)) :=
  let* _ := lookup names "file" in Ok ((fname, dump o) :: fs).
(** structure3.py:1488-1490 [struct_load] *)
Definition load_ {O : Type} (names : list string) (parse : string -> res O) (fname : string) (fs : list (string * string)) : res O :=
  let* _ := lookup names "file" in match dict_get fname fs with Some s => parse s | None => Err EException end.
