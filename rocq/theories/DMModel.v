(** The part of CasADi's sparse matrices that structure3.py relies on.

    CasADi is an external C++ library: nothing here models code of /repo.  The
    definitions transcribe the behaviour of CasADi 3.5 ([Sparsity],
    [Matrix::get/set/get_nz/set_nz], [reshape], [project], [triu2symm],
    [Slice::all]); they belong to the trusted base listed in DESIGN.md.

    A sparsity pattern is a shape plus the list of its structural nonzeros
    (row, column) in column-major order; a matrix adds one value per nonzero. *)
From Verif Require Import PyBase.

(** CasADi [Sparsity]. *)
Record spy := Spy { sp_nr : nat; sp_nc : nat; sp_pat : list (nat * nat) }.

(** [sp.nnz()] *)
Definition sp_nnz (s : spy) : nat := length (sp_pat s).

(** All positions of an [r x c] matrix in column-major order. *)
Definition all_pos (r c : nat) : list (nat * nat) :=
  flat_map (fun j => map (fun i => (i, j)) (seq 0 r)) (seq 0 c).

(** [Sparsity.dense(r, c)] *)
Definition sp_dense (r c : nat) : spy := Spy r c (all_pos r c).

(** Equality of positions. *)
Definition pos_eqb (p q : nat * nat) : bool := (fst p =? fst q) && (snd p =? snd q).

(** Membership of a position. *)
Definition pos_mem (p : nat * nat) (l : list (nat * nat)) : bool := existsb (pos_eqb p) l.

(** Equality of lists of positions. *)
Fixpoint pat_eqb (a b : list (nat * nat)) : bool :=
  match a, b with
  | [], [] => true
  | p :: a', q :: b' => pos_eqb p q && pat_eqb a' b'
  | _, _ => false
  end.

(** [sp1 == sp2] *)
Definition spy_eqb (a b : spy) : bool :=
  (sp_nr a =? sp_nr b) && (sp_nc a =? sp_nc b) && pat_eqb (sp_pat a) (sp_pat b).

(** [Sparsity.upper(n)] *)
Definition sp_upper (n : nat) : spy := Spy n n (filter (fun p => fst p <=? snd p) (all_pos n n)).

(** [sp1 * sp2]: intersection of patterns of equal shape. *)
Definition sp_inter (a b : spy) : res spy :=
  if (sp_nr a =? sp_nr b) && (sp_nc a =? sp_nc b)
  then Ok (Spy (sp_nr a) (sp_nc a) (filter (fun p => pos_mem p (sp_pat b)) (sp_pat a)))
  else Err EException.

(** [sp.is_dense()] *)
Definition sp_is_dense (s : spy) : bool := sp_nnz s =? sp_nr s * sp_nc s.

(** CasADi [Matrix] over any element type (DM, SX, MX, IM). *)
Record dm (A : Type) := DM { dm_sp : spy; dm_nz : list A }.
Arguments DM {A} dm_sp dm_nz.
Arguments dm_sp {A} d.
Arguments dm_nz {A} d.

(** [x.size1()] *)
Definition dm_nr {A} (d : dm A) := sp_nr (dm_sp d).
(** [x.size2()] *)
Definition dm_nc {A} (d : dm A) := sp_nc (dm_sp d).
(** [x.shape] *)
Definition dm_shape {A} (d : dm A) : nat * nat := (dm_nr d, dm_nc d).
(** [x.numel()] *)
Definition dm_numel {A} (d : dm A) := dm_nr d * dm_nc d.
(** [x.is_scalar()] *)
Definition dm_is_scalar {A} (d : dm A) : bool := (dm_nr d =? 1) && (dm_nc d =? 1).

(** A dense column vector. *)
Definition dm_col {A} (l : list A) : dm A := DM (sp_dense (length l) 1) l.

(** A dense 1 x 1 matrix. *)
Definition dm_scalar {A} (a : A) : dm A := DM (sp_dense 1 1) [a].

(** The value stored with a position. *)
Fixpoint pos_assoc {A} (p : nat * nat) (ps : list (nat * nat)) (vs : list A) : option A :=
  match ps, vs with
  | q :: ps', v :: vs' => if pos_eqb p q then Some v else pos_assoc p ps' vs'
  | _, _ => None
  end.

(** The structural nonzero at a position, if any. *)
Definition dm_at {A} (d : dm A) (p : nat * nat) : option A := pos_assoc p (sp_pat (dm_sp d)) (dm_nz d).

(** The matrix with shape [r x c] whose nonzero at [p] is [f p] (absent if [None]). *)
Definition dm_build {A} (r c : nat) (f : nat * nat -> option A) : dm A :=
  let l := flat_map (fun p => match f p with Some v => [(p, v)] | None => [] end) (all_pos r c) in
  DM (Spy r c (map fst l)) (map snd l).

(** [x.T] *)
Definition dm_T {A} (d : dm A) : dm A := dm_build (dm_nc d) (dm_nr d) (fun p => dm_at d (snd p, fst p)).

(** [reshape(x, (r, c))]: column-major, nonzeros keep their order. *)
Definition reshape_pos (nr r : nat) (p : nat * nat) : nat * nat :=
  let k := snd p * nr + fst p in (k mod r, k / r).

(** [reshape(x, (r, c))] raises if the number of elements differs. *)
Definition dm_reshape {A} (d : dm A) (r c : nat) : res (dm A) :=
  if r * c =? dm_numel d
  then Ok (DM (Spy r c (map (reshape_pos (dm_nr d) r) (sp_pat (dm_sp d)))) (dm_nz d))
  else Err EException.

(** [project(x, sp)]: values at the positions of [sp], zero where [x] has none. *)
Definition dm_project {A} (zero : A) (d : dm A) (sp : spy) : dm A :=
  DM sp (map (fun p => match dm_at d p with Some v => v | None => zero end) (sp_pat sp)).

(** [triu2symm(x) = x + x.T - diag(diag(x))]: fails on non-square arguments and on
    arguments with nonzeros below the diagonal.  Simplification: the sum is taken
    in exact arithmetic, so that the result is the mirrored matrix. *)
Definition dm_triu2symm {A} (d : dm A) : res (dm A) :=
  if negb (dm_nr d =? dm_nc d) then Err EException
  else if existsb (fun p => snd p <? fst p) (sp_pat (dm_sp d)) then Err EException
  else Ok (dm_build (dm_nr d) (dm_nc d)
        (fun p => if fst p <=? snd p then dm_at d p else dm_at d (snd p, fst p))).

(** Normalise an index against a length as CasADi does: [-n <= i < n]. *)
Definition norm_index (n : nat) (i : Z) : res nat :=
  let z := Z.of_nat n in
  if ((- z <=? i) && (i <? z))%Z
  then Ok (Z.to_nat (if (i <? 0)%Z then i + z else i)%Z)
  else Err EException.

(** [Slice::all(len)]: unlike Python, bounds outside [0..len] are errors. *)
Definition casadi_slice (s : slc) (len : nat) : res (list nat) :=
  let n := Z.of_nat len in
  let step := match sl_step s with None => 1%Z | Some k => k end in
  if (step =? 0)%Z then Err EException else
  let start := match sl_start s with
               | None => if (step <? 0)%Z then (n - 1)%Z else 0%Z
               | Some v => if (v <? 0)%Z then (v + n)%Z else v end in
  let stop := match sl_stop s with
              | None => if (step <? 0)%Z then (-1)%Z else n
              | Some v => if (v <? 0)%Z then (v + n)%Z else v end in
  if ((n <? stop) || (start <? 0))%Z then Err EException else
  rmapM (norm_index len) (pyrange3 start stop step).

(** Row/column selectors accepted by [x[a, b]] and [x[a]]. *)
Inductive sel := SelInt (i : Z) | SelSlice (s : slc) | SelList (l : list Z).

(** The positions a selector stands for. *)
Definition sel_resolve (s : sel) (n : nat) : res (list nat) :=
  match s with
  | SelInt i => rmap (fun k => [k]) (norm_index n i)
  | SelSlice s => casadi_slice s n
  | SelList l => rmapM (norm_index n) l
  end.

(** [x[a, b]]: sub-matrix of the selected rows and columns. *)
Definition dm_sub {A} (d : dm A) (rr cc : list nat) : dm A :=
  dm_build (length rr) (length cc) (fun p => dm_at d (nth (fst p) rr 0, nth (snd p) cc 0)).

(** [x[a, b]] *)
Definition dm_get2 {A} (d : dm A) (a b : sel) : res (dm A) :=
  let* rr := sel_resolve a (dm_nr d) in
  let* cc := sel_resolve b (dm_nc d) in
  Ok (dm_sub d rr cc).

(** [x[a]]: linear (column-major) element indexing; the result is a column, or a
    row when [x] is a row vector and more than one element is asked for. *)
Definition dm_lin {A} (d : dm A) (kk : list nat) : dm A :=
  let at_k := fun k => dm_at d (k mod dm_nr d, k / dm_nr d) in
  if (dm_nr d =? 1) && negb (length kk =? 1)
  then dm_build 1 (length kk) (fun p => at_k (nth (snd p) kk 0))
  else dm_build (length kk) 1 (fun p => at_k (nth (fst p) kk 0)).

(** [x[a]] *)
Definition dm_get1 {A} (d : dm A) (a : sel) : res (dm A) :=
  let* kk := sel_resolve a (dm_numel d) in
  Ok (dm_lin d kk).

(** [x[i]] with [i] a dense row of more than one element index: the result is a row,
    or a column when [x] is a column. *)
Definition dm_linr {A} (d : dm A) (kk : list nat) : dm A :=
  let at_k := fun k => dm_at d (k mod dm_nr d, k / dm_nr d) in
  if dm_nc d =? 1
  then dm_build (length kk) 1 (fun p => at_k (nth (fst p) kk 0))
  else dm_build 1 (length kk) (fun p => at_k (nth (snd p) kk 0)).
(** [x[i]] with such a row given as Python integers, used by structure3.py:684-685 *)
Definition dm_get1r {A} (d : dm A) (l : list Z) : res (dm A) :=
  let* kk := sel_resolve (SelList l) (dm_numel d) in
  Ok (dm_linr d kk).

(** [v[i]] with [v] a dense column (given by its elements) and [i] an index
    matrix: the result has the pattern of [i], transposed when [i] is a row
    (get_nz: 'if the indexed matrix was a column vector, make sure that the
    result is too'). *)
Definition vec_get {A} (v : list A) (i : dm nat) : res (dm A) :=
  let* nz := rmapM (fun k => match nth_error v k with Some a => Ok a | None => Err EException end) (dm_nz i) in
  let sp := dm_sp i in
  if (sp_nr sp =? 1) && negb (sp_nc sp =? 1)
  then Ok (DM (Spy (sp_nc sp) 1 (map (fun p => (snd p, fst p)) (sp_pat sp))) nz)
  else Ok (DM sp nz).

(** [v[k1] = x1; v[k2] = x2; ...] *)
Fixpoint vec_set_list {A} (v : list A) (ks : list nat) (xs : list A) : list A :=
  match ks, xs with
  | k :: ks', x :: xs' =>
      vec_set_list (set_nth k x v) ks' xs'
  | _, _ => v
  end.

(** [x[sp]] with a sparsity pattern: shapes must agree, then [project]. *)
Definition dm_get_sp {A} (zero : A) (d : dm A) (sp : spy) : res (dm A) :=
  if (dm_nr d =? sp_nr sp) && (dm_nc d =? sp_nc sp) then Ok (dm_project zero d sp) else Err EException.

(** Assignment to the elements of a dense column listed by an index matrix:
    equal sparsity, scalar broadcast, projection onto the pattern of the index, or a
    transposed vector; anything else is a dimension error.  [skip] tells whether a
    structurally zero scalar is skipped ([v.nz[i] = m], set_nz) or erases the
    elements ([v[i] = m], set).  Simplification: erased elements and elements that
    are not in the pattern of [m] become the value zero; the pattern of [v] itself
    stays dense. *)
Definition vec_assign {A} (skip : bool) (zero : A) (v : list A) (i : dm nat) (m : dm A) : res (list A) :=
  let write (m' : dm A) :=
    if forallb (fun k => k <? length v) (dm_nz i)
    then Ok (vec_set_list v (dm_nz i) (dm_nz m')) else Err EException in
  if spy_eqb (dm_sp i) (dm_sp m) then write m
  else if dm_is_scalar m then
    match dm_nz m with
    | [] => if skip then Ok v else write (DM (dm_sp i) (map (fun _ => zero) (dm_nz i)))
    | a :: _ => write (DM (dm_sp i) (map (fun _ => a) (dm_nz i)))
    end
  else if (dm_nr i =? dm_nr m) && (dm_nc i =? dm_nc m) then write (dm_project zero m (dm_sp i))
  else if (dm_nr i =? dm_nc m) && (dm_nc i =? dm_nr m) && (Nat.min (dm_nr m) (dm_nc m) =? 1)
  then write (dm_project zero (dm_T m) (dm_sp i))
  else Err EException.

(** [v[i] = m] *)
Definition vec_set {A} := @vec_assign A false.
(** [v.nz[i] = m] *)
Definition vec_set_nz {A} := @vec_assign A true.
