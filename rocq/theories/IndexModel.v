(** Model of the primitive helpers of structure3.py, lines 50-102. *)
From Verif Require Import PyBase.

(** One component of a canonical index: a name or an integer
    (structure3.py:46-48, 'canonicalIndex: tuple/list of string or numbers'). *)
Inductive ck := KS (s : string) | KI (i : Z).
Notation cidx := (list ck).

(** structure3.py:40-41 [is_string], on index components. *)
Definition is_string (k : ck) : bool := match k with KS _ => true | KI _ => false end.

(** Equality of components. *)
Definition ck_eqb (a b : ck) : bool :=
  match a, b with
  | KS s, KS t => String.eqb s t
  | KI i, KI j => Z.eqb i j
  | _, _ => false
  end.

(** Equality of canonical indices. *)
Fixpoint cidx_eqb (a b : cidx) : bool :=
  match a, b with
  | [], [] => true
  | x :: a', y :: b' => ck_eqb x y && cidx_eqb a' b'
  | _, _ => false
  end.

(** structure3.py:53 [lpack]. *)
Definition lpack {A} (L : list A) : list (list A) := map (fun x => [x]) L.

(** structure3.py:55-59 [combine]: [[a + b for a in args[0] for b in combine(args[1:])]]. *)
Fixpoint combine_ {A} (args : list (list (list A))) : list (list A) :=
  match args with
  | [] => [[]]
  | a0 :: rest => flat_map (fun a => map (fun b => a ++ b) (combine_ rest)) a0
  end.

(** structure3.py:61-72 [listindices(dims, nest=False)]. *)
Fixpoint listindices (dims : list Z) : list cidx :=
  match dims with
  | [] => [[]]
  | d :: dims' => combine_ [lpack (map KI (pyrange d)); listindices dims']
  end.

(** structure3.py:61-72 [listindices(dims, nest=True)]; the tail call is the
    non-nested one, as in the code (line 68). *)
Definition listindices_nest (dims : list Z) : list (list cidx) :=
  match dims with
  | [] => [[[]]]
  | d :: dims' => map (fun i => combine_ [[[KI i]]; listindices dims']) (pyrange d)
  end.

(** structure3.py:74-83 [intersperseIt]: the state is the list of iterators (the
    remaining elements of each argument), the flags [active] and the position
    [i].  One loop iteration: [next] on iterator [i] either yields or raises
    StopIteration, which clears the flag; then [i = (i+1) % len(args)].
    The Python [while] becomes recursion on fuel; [None] = out of fuel. *)
Fixpoint intersperse_loop {A} (fuel : nat) (its : list (list A)) (active : list bool) (i : nat)
  : option (list A) :=
  if existsb (fun b => b) active then
    match fuel with
    | O => None
    | S fuel' =>
        let i' := Nat.modulo (S i) (length its) in
        match nth i its [] with
        | x :: rest =>
            match intersperse_loop fuel' (set_nth i rest its) active i' with
            | Some ys => Some (x :: ys)
            | None => None
            end
        | [] => intersperse_loop fuel' its (set_nth i false active) i'
        end
    end
  else Some [].

(** Enough fuel: every round visits each iterator once and there are at most
    [max length + 1] rounds. *)
Definition intersperse_fuel {A} (args : list (list A)) : nat :=
  length args * S (list_max (map (@length A) args)).

(** structure3.py:85-86 [intersperse]. *)
Definition intersperse_opt {A} (args : list (list A)) : option (list A) :=
  intersperse_loop (intersperse_fuel args) args (map (fun _ => true) args) 0.

(** Total wrapper used by the rest of the model; [IndexProofs.intersperse_total]
    shows that the [None] branch is never taken. *)
Definition intersperse {A} (args : list (list A)) : list A :=
  match intersperse_opt args with Some l => l | None => [] end.

(** structure3.py:88-90: [ind[:-(list(map(is_string,ind[::-1])).index(True)+1)]],
    on the reversed index: drop components up to and including the first string.
    [None] = ValueError (no string). *)
Fixpoint strip_rev (r : cidx) : option cidx :=
  match r with
  | [] => None
  | KS _ :: r' => Some r'
  | KI _ :: r' => strip_rev r'
  end.

(** structure3.py:88-90 [canonicalIndexAncestors], recursion on the length. *)
Fixpoint ancestors_fuel (fuel : nat) (ind : cidx) : res (list cidx) :=
  match ind with
  | [] => Ok []
  | _ =>
      match fuel with
      | O => Err ERecursion
      | S fuel' =>
          match strip_rev (rev ind) with
          | None => Err EValue
          | Some r => let* l := ancestors_fuel fuel' (rev r) in Ok (ind :: l)
          end
      end
  end.
(** structure3.py:88-90 [canonicalIndexAncestors] *)
Definition canonicalIndexAncestors (ind : cidx) : res (list cidx) :=
  ancestors_fuel (length ind) ind.

(** structure3.py:92-96 [canonical]. *)
Definition canonical (ind s : Z) : Z := if (ind <? 0)%Z then (ind + s)%Z else ind.
