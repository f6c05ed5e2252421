(** The repository's tests of structures and piecewise polynomials, replayed on the model (test_struct.py,
    test_piecewise_poly.py).  The tests of inequalities, trajectories and polynomials are replayed in [IneqExamples],
    [PdqExamples] and [PolynomialExamples]. *)
From Coq Require Import ZArith QArith.
From Verif Require Import PyBase IndexModel DMModel StructModel PowerModel EntryModel StructsModel SymModel NumModel NumInst PolynomialModel PiecewiseModel.
Open Scope string_scope.
Open Scope list_scope.
Open Scope nat_scope.

Section Struct.
Open Scope Z_scope.
(** test_struct.py: entries 'x' of shape 2 and 'y' of shape 3 *)
Definition t_s : res (sobj Z) :=
  let* x := entry_init "x" [("shape", VInt 2)] in
  let* y := entry_init "y" [("shape", VInt 3)] in
  struct_symMX [100; 101; 102; 103; 104] [IOne (AEntry x); IOne (AEntry y)] None.
Definition t_call (kv : list (string * pay Z)) := let* s := t_s in call_struct 0 (-1) (so_c s) (CDict kv).
(** test_pythonStructToCasadiStruct *)
Example python_struct : (let* sn := t_call [("x", PayMat (dm_col [2; 3])); ("y", PayNum 42)] in
  let* x := so_get 0 sn [PStr "x"] in let* y := so_get 0 sn [PStr "y"] in Ok (x, y)) = Ok (RMat (dm_col [2; 3]), RMat (dm_col [42; 42; 42])).
Proof. vm_compute. reflexivity. Qed.
(** test_pythonStructToCasadiStructInvalidKeys *)
Example python_struct_keys : t_call [("x", PayMat (dm_col [2; 3])); ("yy", PayNum 42)] = Err EException. Proof. vm_compute. reflexivity. Qed.
(** test_pythonStructToCasadiStructInvalidShape *)
Example python_struct_shape : t_call [("x", PayMat (dm_col [2; 3])); ("y", PayMat (dm_col [42; 43]))] = Err EException. Proof. vm_compute. reflexivity. Qed.
(** test_parseMatrix *)
Definition t_data : list (list Z) := [[1; 2; 3]; [4; 5; 6]; [7; 8; 9]; [10; 11; 12]; [13; 14; 15]].
Definition t_rows (d : dm Z) : list (list (option Z)) := map (fun i => map (fun j => dm_at d (i, j)) (seq 0 (dm_nc d))) (seq 0 (dm_nr d)).
Example parse_matrix_test : (let* s := t_s in let* r := parse_matrix 0 (-1) (so_c s) (A2 5 3 (fun i j => nth j (nth i t_data []) 0)) in
  Ok (map (fun kv => (fst kv, t_rows (snd kv))) r)) =
  Ok [("x", [[Some 1; Some 2; Some 3]; [Some 4; Some 5; Some 6]]); ("y", [[Some 7; Some 8; Some 9]; [Some 10; Some 11; Some 12]; [Some 13; Some 14; Some 15]])].
Proof. vm_compute. reflexivity. Qed.
End Struct.

Section Piecewise.
#[local] Existing Instance numQ.
Open Scope Q_scope.
Definition t_pp (t tau : list Q) (c : list (list (list Q))) (q : list Q) (cont : string) : res (list (list Q)) :=
  let* b := basis_ (PVec tau) in
  let* p := ppoly_ t (map (fun l => Mat (length l) (length tau) (fun i j => nth j (nth i l []) 0)) c) b in
  let* m := pp_call p (PVec q) cont in
  Ok (map (fun i => map (fun j => Qred (at_m m i j)) (seq 0 (nc m))) (seq 0 (nr m))).
(** test_piecewise_poly.py, test_call *)
Example pp_const : t_pp [10; 20] [0] [[[42]]] [-1; 10; 15; 20; 100] "right" = Ok [[42; 42; 42; 42; 42]]. Proof. vm_compute. reflexivity. Qed.
Example pp_line : t_pp [-1; 2] [1 # 3; 2 # 3] [[[1; 3]]] [-1; 0; 1; 2] "right" = Ok [[-1; 1; 3; 5]]. Proof. vm_compute. reflexivity. Qed.
Example pp_lines : t_pp [-1; 2] [1 # 3; 2 # 3] [[[1; 3]; [10; 30]]] [-1; 0; 1; 2] "right" = Ok [[-1; 1; 3; 5]; [-10; 10; 30; 50]]. Proof. vm_compute. reflexivity. Qed.
Example pp_parabola : t_pp [-10; 10] [0; 1 # 2; 1] [[[1; 0; 1]]] [-10; 0; 10] "right" = Ok [[1; 0; 1]]. Proof. vm_compute. reflexivity. Qed.
Example pp_two_right : t_pp [-10; 10; 30] [0; 1 # 2; 1] [[[1; 0; 1]]; [[2; 0; 2]]] [-10; 0; 10; 20; 30] "right" = Ok [[1; 0; 2; 0; 2]]. Proof. vm_compute. reflexivity. Qed.
Example pp_two_left : t_pp [-10; 10; 30] [0; 1 # 2; 1] [[[1; 0; 1]]; [[2; 0; 2]]] [-10; 0; 10; 20; 30] "left" = Ok [[1; 0; 1; 0; 2]]. Proof. vm_compute. reflexivity. Qed.
End Piecewise.
