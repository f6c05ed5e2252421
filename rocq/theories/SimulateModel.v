(** Model of [CollocationSimulator.simulate] (collocation/collocation.py). *)
From Coq Require Import Reals.
From Verif Require Import PyBase IndexModel DMModel StructModel PowerModel EntryModel StructsModel IneqModel DaeModel NumModel NumInst PolynomialModel PiecewiseModel PdqModel SchemeModel.
Open Scope nat_scope.

Section Sim.
Context {T : Type} {NT : Num T}.

(** collocation.py:607-612: the attributes of a simulator, whoever set them (the
    constructor itself always raises, see [simulator_]).  [sm_call] is the CasADi function
    [_simulate], given x0, z0, u and p; its results are any values. *)
Record simulator {O : Type} := Simulator { sm_pdq : pdq T; sm_np : nat; sm_nz : nat; sm_call : mat T -> mat T -> mat T -> option (mat T) -> res O }.

(** system_trajectory.py:29: the signature of [SystemTrajectory] *)
Definition trajectory_sig : list (string * bool) := [("x", false); ("z", false); ("u", false); ("pdq", false)]%string.

(** collocation.py:621: [[input(t) for t in points]], with the points at which the
    function [input] was called. *)
Fixpoint call_inputs (input : T -> res (mat T)) (ts : list T) : list T * res (list (mat T)) :=
  match ts with
  | [] => ([], Ok [])
  | t :: ts' =>
      match input t with
      | Err k => ([t], Err k)
      | Ok c => let '(log, r) := call_inputs input ts' in (t :: log, let* l := r in Ok (c :: l))
      end
  end.

(** collocation.py:615-625 [simulate(x0, input, param)]: the calls of [input] and the
    result.  Simplification: [cs.horzcat] of columns of different heights raises here also
    when one of them is 0 x 0.  [rest] is what follows the binding of the arguments of
    [SystemTrajectory()] in line 625. *)
Definition simulate {O : Type} (rest : O -> res (traj T)) (s : @simulator O) (x0 : mat T) (input : T -> res (mat T)) (param : option (mat T)) : list T * res (traj T) :=
  if (match param with None => true | Some _ => false end) && (0 <? sm_np s) then ([], Err EValue)
  else
    let '(log, cols) := call_inputs input (pq_pts (sm_pdq s)) in
    (log,
     let* cols := cols in
     let* u := hstack cols in
     let* o := sm_call s x0 (mzeros (sm_nz s) 1) u param in
     let* _ := bind_args trajectory_sig 0 [] in
     rest o).
End Sim.
Arguments simulator T O : clear implicits.
