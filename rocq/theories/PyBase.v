(** Python values and control flow used by the model: exceptions as values,
    [range], list indexing and [slice.indices]. *)
From Coq Require Export String ZArith Lia Bool Arith List.
Export ListNotations.
Open Scope list_scope.

(** Kinds of Python exceptions.  The code mostly raises the bare [Exception];
    the kind is kept only where the code distinguishes it. *)
Inductive exn :=
| EException | EValue | EType | EIndex | EKey | EAssert | EAttr | EName | EZeroDiv
| ENotImpl | ERecursion.

Inductive res (A : Type) := Ok (a : A) | Err (e : exn).
Arguments Ok {A} a.
Arguments Err {A} e.

Definition rbind {A B} (m : res A) (k : A -> res B) : res B :=
  match m with Ok a => k a | Err e => Err e end.
Notation "'let*' x ':=' m 'in' k" := (rbind m (fun x => k))
  (at level 200, x pattern, m at level 100, k at level 200, right associativity).

Definition rmap {A B} (f : A -> B) (m : res A) : res B :=
  match m with Ok a => Ok (f a) | Err e => Err e end.

(** [all results or the first error], evaluation order left to right, as a list
    comprehension does. *)
Fixpoint rmapM {A B} (f : A -> res B) (l : list A) : res (list B) :=
  match l with
  | [] => Ok []
  | a :: l' => let* b := f a in let* bs := rmapM f l' in Ok (b :: bs)
  end.

(** Python's [assert]. *)
Definition rassert (b : bool) : res unit := if b then Ok tt else Err EAssert.


(** [range(n)] (empty when [n <= 0]). *)
Definition pyrange (n : Z) : list Z := map Z.of_nat (seq 0 (Z.to_nat n)).

(** [range(start, stop, step)] for [step <> 0]. *)
Definition pyrange3_len (start stop step : Z) : Z :=
  if (0 <? step)%Z then
    (if (start <? stop)%Z then (stop - start - 1) / step + 1 else 0)%Z
  else
    (if (stop <? start)%Z then (start - stop - 1) / (- step) + 1 else 0)%Z.

Definition pyrange3 (start stop step : Z) : list Z :=
  map (fun k => (start + Z.of_nat k * step)%Z) (seq 0 (Z.to_nat (pyrange3_len start stop step))).

(** A Python [slice] object with integer or [None] fields. *)
Record slc := Slc { sl_start : option Z; sl_stop : option Z; sl_step : option Z }.
Definition slice_all : slc := Slc None None None.

(** [slice.indices(len)] (CPython: PySlice_Unpack / PySlice_AdjustIndices); a
    negative length is a ValueError. *)
Definition slice_adjust (v len lower upper : Z) : Z :=
  if (v <? 0)%Z then Z.max (v + len) lower else Z.min v upper.

Definition slice_indices (s : slc) (len : Z) : res (Z * Z * Z) :=
  let step := match sl_step s with None => 1%Z | Some k => k end in
  if (len <? 0)%Z then Err EValue else
  if (step =? 0)%Z then Err EValue else
  let lower := if (step <? 0)%Z then (-1)%Z else 0%Z in
  let upper := if (step <? 0)%Z then (len - 1)%Z else len in
  let start := match sl_start s with
               | None => if (step <? 0)%Z then upper else lower
               | Some v => slice_adjust v len lower upper end in
  let stop := match sl_stop s with
              | None => if (step <? 0)%Z then lower else upper
              | Some v => slice_adjust v len lower upper end in
  Ok (start, stop, step).

(** [list(range( *s.indices(len)))] *)
Definition slice_range (s : slc) (len : Z) : res (list Z) :=
  let* (start, stop, step) := slice_indices s len in
  Ok (pyrange3 start stop step).

(** [l[i]] for a Python list: negative indices count from the end. *)
Definition py_nth {A} (l : list A) (i : Z) : res A :=
  let n := Z.of_nat (length l) in
  let j := if (i <? 0)%Z then (i + n)%Z else i in
  if ((0 <=? j) && (j <? n))%Z
  then match nth_error l (Z.to_nat j) with Some a => Ok a | None => Err EIndex end
  else Err EIndex.

(** Python's [dict([(k,v), ...])]: a later pair overwrites the value of an equal
    earlier key but keeps its position. *)
Fixpoint dict_set {V} (k : string) (v : V) (d : list (string * V)) : list (string * V) :=
  match d with
  | [] => [(k, v)]
  | (k', v') :: d' => if String.eqb k k' then (k', v) :: d' else (k', v') :: dict_set k v d'
  end.

Definition pydict {V} (l : list (string * V)) : list (string * V) :=
  fold_left (fun d kv => dict_set (fst kv) (snd kv) d) l [].

Fixpoint dict_get {V} (k : string) (d : list (string * V)) : option V :=
  match d with
  | [] => None
  | (k', v) :: d' => if String.eqb k k' then Some v else dict_get k d'
  end.

(** [l[n] = v] for a valid position [n]. *)
Fixpoint set_nth {A} (n : nat) (v : A) (l : list A) : list A :=
  match l, n with
  | [], _ => []
  | _ :: l', O => v :: l'
  | x :: l', S n' => x :: set_nth n' v l'
  end.
