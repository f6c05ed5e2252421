(** Model of [Pdq] and [_PdqInterpolator] in collocation/collocation.py and of
    system_trajectory.py. *)
From Verif Require Import PyBase NumModel PolynomialModel PiecewiseModel.
Open Scope nat_scope.

Section Pdq.
Context {T : Type} {NT : Num T}.

(** [cs.mtimes]: a 1 x 1 factor scales the other one. *)
Definition cs_mtimes (a b : mat T) : res (mat T) :=
  if (nr a =? 1) && (nc a =? 1) then Ok (Mat (nr b) (nc b) (fun i j => (at_m a 0 0 * at_m b i j)%num))
  else if (nr b =? 1) && (nc b =? 1) then Ok (Mat (nr a) (nc a) (fun i j => (at_m a i j * at_m b 0 0)%num))
  else mdot a b.
(** [M[r0 : r0 + nr B, c0 : c0 + nc B] = B] inside [M] *)
Definition mput (m : mat T) (r0 c0 : nat) (b : mat T) : mat T :=
  Mat (nr m) (nc m) (fun i j => if (r0 <=? i) && (i <? r0 + nr b) && (c0 <=? j) && (j <? c0 + nc b) then at_m b (i - r0) (j - c0) else at_m m i j).
(** [cs.DM.zeros(r, c)] *)
Definition mzeros (r c : nat) : mat T := Mat r c (fun _ _ => n0).

(** collocation.py:73-99: the attributes of a [Pdq] *)
Record pdq := Pdq { pq_basis : list (basis T); pq_pts : list T; pq_groups : list (list nat); pq_t : list T; pq_order : nat; pq_D : mat T }.

(** collocation.py:57-71: one interval; [colpts] is [collocationPoints]. *)
Definition pdq_interval (colpts : nat -> string -> res (list T)) (t : list T) (order : nat) (ptype : string) (i : nat) : res (list T * basis T) :=
  let* tau := colpts order ptype in
  let ti := map (fun c => (c * (vget t (i + 1) - vget t i) + vget t i)%num) tau in
  let* b := basis_ (PVec ti) in
  let* _ := rassert ((nr (b_D b) =? order + 1) && (nc (b_D b) =? order + 1)) in
  let* _ := rassert (length ti =? order + 1) in
  let* _ := rassert (forallb (fun d => (n0 <? d)%num) (ndiff ti)) in
  Ok (ti, b).
(** collocation.py:88-97: the big matrix for [n] points *)
Definition big_step (mi : mat T * nat) (b : basis T) : mat T * nat :=
  let '(m, i) := mi in (mput m i i (mrows (b_D b) 0 (b_num b - 1)), i + (b_num b - 1)).
(** collocation.py:88-97: the matrix that remains after the loop *)
Definition bigD (n : nat) (bs : list (basis T)) : mat T :=
  let '(m, _) := fold_left big_step bs (mzeros n n, 0) in
  match rev bs with
  | [] => m
  | b :: _ => mput m (n - 1) (n - b_num b) (mrows (b_D b) (b_num b - 1) (b_num b))
  end.
(** collocation.py:41-99 [Pdq.__init__]: without intervals [t_i] is unbound. *)
Definition pdq_ (colpts : nat -> string -> res (list T)) (t : list T) (order : nat) (ptype : string) : res pdq :=
  let n := length t - 1 in
  let* l := rmapM (pdq_interval colpts t order ptype) (seq 0 n) in
  match rev l with
  | [] => Err EName
  | (tl, _) :: _ =>
      let pts := concat (map (fun x => removelast (fst x)) l) ++ [last tl n0] in
      Ok (Pdq (map snd l) pts (map (fun i => seq (i * order) (order + 1)) (seq 0 n)) t order (bigD (length pts) (map snd l)))
  end.
(** collocation.py:114-117, 126-135 *)
Definition pq_num (p : pdq) : nat := length (pq_t p) - 1.
(** collocation.py:126-129 [t0] *)
Definition pq_t0 (p : pdq) : T := vget (pq_pts p) 0.
(** collocation.py:132-135 [tf] *)
Definition pq_tf (p : pdq) : T := vget (pq_pts p) (length (pq_pts p) - 1).
(** collocation.py:138-143 [intervalLength] *)
Definition pq_length (p : pdq) : T := (pq_tf p - pq_t0 p)%num.

(** collocation.py:146-150 [derivative] *)
Definition pq_derivative (p : pdq) (y : mat T) : res (mat T) := cs_mtimes y (mtr (mrows (pq_D p) 0 (nr (pq_D p) - 1))).

(** collocation.py:153-171 [integral]; [solve] is [cs.solve].  Columns out of range are
    an exception. *)
Definition mblock (m : mat T) (r1 c0 c1 : nat) : mat T := mrows (mcols m c0 c1) 0 r1.
(** collocation.py:160-169: the loop over the intervals *)
Fixpoint integral_loop (solve : mat T -> mat T -> res (mat T)) (dy : mat T) (bs : list (basis T)) (k : nat) (y0 : nat -> T) : res (list (mat T)) :=
  match bs with
  | [] => Ok []
  | b :: bs' =>
      let n := b_num b - 1 in
      if k + n <=? nc dy then
        let* s := solve (mblock (b_D b) (b_num b - 1) 1 (b_num b)) (mtr (mcols dy k (k + n))) in
        let y := Mat (nc s) (nr s) (fun i j => (at_m s j i + y0 i)%num) in
        let* rest := integral_loop solve dy bs' (k + n) (fun i => at_m y i (n - 1)) in
        Ok (y :: rest)
      else Err EValue
  end.
(** collocation.py:153-171 [integral] *)
Definition pq_integral (solve : mat T -> mat T -> res (mat T)) (p : pdq) (dy : mat T) : res (mat T) :=
  let* l := integral_loop solve dy (pq_basis p) 0 (fun _ => n0) in hstack l.

(** collocation.py:174-180 [expandInput] *)
Definition pq_expand (p : pdq) (u : mat T) : res (mat T) :=
  let* _ := rassert (nc u =? pq_num p) in
  let* l := rmapM (fun k => let* g := lget (pq_groups p) k in Ok (Mat (nr u) (length g - 1) (fun i _ => at_m u i k))) (seq 0 (pq_num p)) in
  hstack l.

(** collocation.py:195-222 [_PdqInterpolator.__init__] *)
Record pdq_interp := PdqInterp { pi_basis : list (basis T); pi_pdq : pdq; pi_cont : string; pi_groups : list (list nat) }.
(** collocation.py:209-217: the columns used for one interval *)
Definition pi_group (continuity : string) (g : list nat) : res (list nat) :=
  if String.eqb continuity "both" then Ok g
  else if String.eqb continuity "left" then Ok (tl g)
  else if String.eqb continuity "right" then Ok (removelast g)
  else Err EValue.
(** collocation.py:183-222 [interpolator] *)
Definition pq_interpolator (p : pdq) (continuity : string) : res pdq_interp :=
  let* groups := rmapM (pi_group continuity) (pq_groups p) in
  let* bs := rmapM (fun g => let* ts := rmapM (lget (pq_pts p)) g in basis_ (PVec ts)) groups in
  Ok (PdqInterp bs p continuity groups).
(** [x[:, g]] *)
Definition mpick (x : mat T) (g : list nat) : res (mat T) :=
  if forallb (fun j => j <? nc x) g then Ok (Mat (nr x) (length g) (fun i j => at_m x i (nth j g 0))) else Err EIndex.
(** collocation.py:236-238: one point *)
Definition pi_eval1 (q : pdq_interp) (x : mat T) (ti : T) : res (mat T) :=
  let bounds := pq_t (pi_pdq q) in
  let i := clip1 (searchsorted bounds ti true) (Z.of_nat (length bounds) - 2) in
  let* g := lget (pi_groups q) i in
  let* xg := mpick x g in
  let* b := lget (pi_basis q) i in
  let* m := interp_matrix b (PNum ti) in
  mdot xg (mtr m).
(** collocation.py:225-240 [__call__] *)
Definition pi_call (q : pdq_interp) (x : mat T) (t : nparg T) : res (mat T) :=
  let n := length (pq_pts (pi_pdq q)) in
  if negb (nc x =? (if String.eqb (pi_cont q) "both" then n else n - 1)) then Err EValue
  else
    let* l := match t with PNum x => Ok [x] | PVec l => Ok l | PArr _ => Err EValue end in
    let* r := rmapM (pi_eval1 q x) l in
    hstack r.

(** ** system_trajectory.py *)

(** [np.atleast_2d] *)
Definition atleast_2d (a : nparg T) : mat T :=
  match a with PNum x => Mat 1 1 (fun _ _ => x) | PVec l => Mat 1 (length l) (fun _ j => vget l j) | PArr m => m end.
(** system_trajectory.py:44-50 *)
Record traj := Traj { st_u : mat T; st_x : mat T; st_z : mat T; st_ix : pdq_interp; st_iz : pdq_interp; st_iu : pdq_interp; st_pdq : pdq }.
(** system_trajectory.py:29-50 [SystemTrajectory.__init__] *)
Definition traj_ (x z u : nparg T) (p : pdq) : res traj :=
  let n := length (pq_pts p) in
  let* _ := rassert (nc (atleast_2d x) =? n) in
  let* _ := rassert (nc (atleast_2d z) =? n - 1) in
  let* _ := rassert (nc (atleast_2d u) =? n - 1) in
  let* ix := pq_interpolator p "both" in
  let* iz := pq_interpolator p "right" in
  let* iu := pq_interpolator p "right" in
  Ok (Traj (atleast_2d u) (atleast_2d x) (atleast_2d z) ix iz iu p).
(** system_trajectory.py:53-67 *)
Definition st_state (s : traj) (t : nparg T) : res (mat T) := pi_call (st_ix s) (st_x s) t.
(** system_trajectory.py:57-58 [algState] *)
Definition st_algState (s : traj) (t : nparg T) : res (mat T) := pi_call (st_iz s) (st_z s) t.
(** system_trajectory.py:61-62 [input] *)
Definition st_input (s : traj) (t : nparg T) : res (mat T) := pi_call (st_iu s) (st_u s) t.
(** system_trajectory.py:65-67 [time] *)
Definition st_time (s : traj) : list T := pq_t (st_pdq s).
End Pdq.
Arguments pdq T : clear implicits.
Arguments pdq_interp T : clear implicits.
Arguments traj T : clear implicits.
