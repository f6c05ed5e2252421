(** Concrete objects meeting the hypotheses of the power-index theorems, and witnesses
    of the refuted statements. *)
From Verif Require Import PyBase IndexModel DMModel StructModel StructSpec PowerModel PowerSpec
  IndexProofs StructProofs LayoutProofs LayoutThms LayoutExamples DMProofs PowerProofs PowerThms SliceProofs PowerThms2 PowerThms3 PowerThms4 PowerThms5.
Open Scope Z_scope.

(** The 23-element structure [ex] with elements 100, 101, ... *)
Definition built (s : structure) : cstruct := match casadi_structure s with Ok c => c | Err _ => CStruct s 0 [] [] end.
Definition ex_c : cstruct := Eval vm_compute in built ex.
Definition numbered (n : nat) : pstate Z := PState (map (fun k => 100 + Z.of_nat k) (seq 0 n)) [] [].
Definition ex_st : pstate Z := numbered 23.
Lemma ex_Obj : Obj ex ex_c ex_st.
Proof. split; [exact ex_Wf|vm_compute; reflexivity|reflexivity]. Qed.
Lemma ex_NoSymm : NoSymm ex.
Proof.
  constructor.
  - intros e [<-|[<-|[<-|[<-|[]]]]]; reflexivity.
  - intros e s' [<-|[<-|[<-|[<-|[]]]]] E; try discriminate. injection E as <-. constructor.
    + intros e [<-|[<-|[]]]; reflexivity.
    + intros e s' [<-|[<-|[]]] E; discriminate.
Qed.

Definition col (l : list Z) : dm Z := dm_col l.
Notation get s c pi st := (getitem 0 s (num_env c) pi st).
Notation set s c pi v st := (setitem 0 s (num_env c) pi v st).
Definition idx (s : structure) (pi : list (pel Z)) := i_get 0 s pi.

(** An entry with three repeats *)
Definition ex3 : structure := mkStruct [mk "x" [3] (sp_dense 1 1); mk "y" [] (sp_dense 2 2)] [OName "x"; OName "y"].
Definition ex3_c : cstruct := Eval vm_compute in built ex3.
Lemma ex3_Wf : Wf ex3.
Proof.
  constructor.
  - repeat constructor; simpl; intuition discriminate.
  - reflexivity.
  - intros e [<-|[<-|[]]]; solve_spok2.
  - intros e s' [<-|[<-|[]]] E; discriminate.
Qed.
Lemma ex3_Obj : Obj ex3 ex3_c (numbered 7).
Proof. split; [exact ex3_Wf|vm_compute; reflexivity|reflexivity]. Qed.

(** A symmetric 2x2 entry *)
Definition exP : structure :=
  mkStruct [mk "x" [] (sp_dense 2 1); mkEntry "P" [] None (sp_upper 2) true (Some (sp_dense 2 2)) None] [OName "x"; OName "P"].
Definition exP_c : cstruct := Eval vm_compute in built exP.
Definition eP : entry := mkEntry "P" [] None (sp_upper 2) true (Some (sp_dense 2 2)) None.
Lemma exP_Wf : Wf exP.
Proof.
  constructor.
  - repeat constructor; simpl; intuition discriminate.
  - reflexivity.
  - intros e [<-|[<-|[]]]; solve_spok2.
  - intros e s' [<-|[<-|[]]] E; discriminate.
Qed.
Lemma exP_Obj : Obj exP exP_c (numbered 5).
Proof. split; [exact exP_Wf|vm_compute; reflexivity|reflexivity]. Qed.
Lemma eP_At : At exP [KS "P"] eP.
Proof. apply (At_here exP eP []); [right; left; reflexivity|constructor]. Qed.
Lemma eP_Symm : SymmEntry eP 2 (sp_dense 2 2).
Proof. split; try reflexivity. solve_spok2. Qed.

(** ** C10 *)
Lemma ex_At_a1 : At ex [KS "a"; KI 1] (mk "a" [2] (sp_dense 2 1)).
Proof. apply (At_here ex (mk "a" [2] (sp_dense 2 1)) [1]); [left; reflexivity|repeat constructor; lia]. Qed.
Example C10_example : exists m st' r,
  i_get 0 ex (pidx [KS "a"; KI 1]) = Ok (@RIdx Z m) /\
  set ex ex_c (pidx [KS "a"; KI 1]) (PayMat (col [7; 8])) ex_st = (st', Ok r) /\
  get ex ex_c (pidx [KS "a"; KI 1]) st' = Ok (RMat (col [7; 8])).
Proof. eexists _, _, _. repeat (split; [vm_compute; reflexivity|]). vm_compute; reflexivity. Qed.
Example C10_example_block : exists m st' r,
  i_get 0 ex (pidx [KS "b"; KI 1]) = Ok (@RIdx Z m) /\
  set ex ex_c (pidx [KS "b"; KI 1]) (PayNum 5) ex_st = (st', Ok r) /\
  get ex ex_c (pidx [KS "b"; KI 1]) st' = Ok (RMat (col [5; 5; 5; 5])).
Proof. eexists _, _, _. repeat (split; [vm_compute; reflexivity|]). vm_compute; reflexivity. Qed.

(** ** C11 *)
Example C11_example : exists rr rr' st' r,
  idx ex [PStr "b"; PSlc slice_all; PStr "q"; PInt (-1)] = Ok rr /\ positions rr = [5; 11; 15]%nat /\
  idx ex [PStr "a"] = Ok rr' /\ positions rr' = [0; 1; 6; 7]%nat /\
  set ex ex_c [PStr "b"; PSlc slice_all; PStr "q"; PInt (-1)] (PayNum 0) ex_st = (st', Ok r) /\
  ps_master st' = [100; 101; 102; 103; 104; 0; 106; 107; 108; 109; 110; 0; 112; 113; 114; 0; 116; 117; 118; 119; 120; 121; 122].
Proof. eexists _, _, _, _. repeat (split; [vm_compute; reflexivity|]). vm_compute; reflexivity. Qed.

(** Element assignment to a symmetric entry also writes the mirrored element, which
    [s.i] does not list. *)
Lemma writes_symm_refuted : exists s c (st st' : pstate Z) pi v rr r k,
  Obj s c st /\ no_fun pi /\ i_get 0 s pi = Ok rr /\ set s c pi v st = (st', r) /\
  ~ In k (positions rr) /\ nth_error (ps_master st') k <> nth_error (ps_master st) k.
Proof.
  exists exP, exP_c, (numbered 5). eexists. exists [PStr "P"; PInt 1; PInt 0], (PayNum 7). eexists. eexists. exists 3%nat.
  split; [exact exP_Obj|]. split; [repeat constructor|]. split; [vm_compute; reflexivity|]. split; [vm_compute; reflexivity|].
  split; [intros []|]. vm_compute. discriminate.
Qed.

(** ** C12 *)
Example C12_example : Addr ex [KS "d"; KI (-1); KI 0] [KS "d"; KI 1; KI 0] (mk "d" [2; 2] (sp_dense 1 1)) /\
  Within ex [KS "d"; KI (-1); KI 0] /\
  get ex ex_c (pidx [KS "d"; KI (-1); KI 0]) ex_st = Ok (RMat (col [121])) /\
  get ex ex_c (pidx [KS "d"; KI 2; KI 0]) ex_st = Err EException.
Proof.
  split; [apply (Addr_here ex (mk "d" [2; 2] (sp_dense 1 1)) [-1; 0]); simpl; auto|].
  split; [apply (Within_here ex (mk "d" [2; 2] (sp_dense 1 1)) [-1; 0]); simpl; auto; repeat constructor; lia|].
  split; vm_compute; reflexivity.
Qed.
(** With a pending empty dimension an out-of-range integer goes unnoticed. *)
Definition ex0 : structure := mkStruct [mk "z" [2; 0] (sp_dense 1 1); mk "y" [] (sp_dense 1 1)] [OName "z"; OName "y"].
Lemma ex0_Wf : Wf ex0.
Proof.
  constructor.
  - repeat constructor; simpl; intuition discriminate.
  - reflexivity.
  - intros e [<-|[<-|[]]]; solve_spok2.
  - intros e s' [<-|[<-|[]]] E; discriminate.
Qed.
Lemma out_of_range_empty : exists s c (st : pstate Z) e d ds i,
  Obj s c st /\ In e (s_entries s) /\ e_dims e = d :: ds /\ ~ (- d <= i < d) /\
  get s c [PStr (e_name e); PInt i] st = Ok (RList []).
Proof.
  exists ex0, (built ex0), (numbered 1), (mk "z" [2; 0] (sp_dense 1 1)), 2, [0], 5.
  split; [split; [exact ex0_Wf|vm_compute; reflexivity|reflexivity]|].
  split; [left; reflexivity|]. split; [reflexivity|]. split; [lia|vm_compute; reflexivity].
Qed.

(** ** C13 *)
Example C13_example :
  get ex3 ex3_c [PStr "x"; PSlc slice_all] (numbered 7) = Ok (RList [RMat (col [100]); RMat (col [101]); RMat (col [102])]) /\
  get ex3 ex3_c [PStr "x"; PSlc (Slc (Some 10) None (Some (-2)))] (numbered 7) = Ok (RList [RMat (col [102]); RMat (col [100])]) /\
  py_slice [1; 2; 3] (Slc (Some 10) None (Some (-2))) = [3; 1] /\
  py_slice [1; 2; 3] (Slc (Some (-2)) (Some 99) None) = [2; 3].
Proof. vm_compute. repeat split; reflexivity. Qed.

(** ** C14 *)
Example C14_example :
  get ex ex_c [PStr "d"; PInt 1] ex_st = Ok (RList [RMat (col [121]); RMat (col [122])]) /\
  get ex ex_c [PStr "d"] ex_st = Ok (RList [RList [RMat (col [119]); RMat (col [120])]; RList [RMat (col [121]); RMat (col [122])]]).
Proof. vm_compute. repeat split; reflexivity. Qed.

(** ** C15 *)
Example C15_example :
  get ex3 ex3_c [PDict; PInt 0] (numbered 7) = Ok (RDict [("x", RMat (col [100])); ("y", RMat (col [103]))]) /\
  get ex3 ex3_c [PEll; PInt 0] (numbered 7) = Ok (RList [RMat (col [100]); RMat (col [103])]) /\
  get ex3 ex3_c [PSet ["y"]; PInt 0] (numbered 7) = Ok (RDict [("y", RMat (col [103]))]) /\
  get ex3 ex3_c [PStr "nope"] (numbered 7) = Err EException.
Proof. vm_compute. repeat split; reflexivity. Qed.

(** ** C16 *)
Example C16_example :
  get exP exP_c [PLst [KS "x"; KS "x"]] (numbered 5) = Ok (RList [RMat (col [100; 101]); RMat (col [100; 101])]).
Proof. vm_compute. reflexivity. Qed.
Lemma names_repeat_refuted : exists s c (st : pstate Z) n l,
  Obj s c st /\ In n (map e_name (s_entries s)) /\ get s c [PStr n] st = Ok (RList l) /\
  get s c [PLst [KS n]] st = Err EException.
Proof.
  exists ex3, ex3_c, (numbered 7), "x"%string. eexists. split; [exact ex3_Obj|]. split; [left; reflexivity|].
  split; vm_compute; reflexivity.
Qed.
Lemma names_symm_refuted : exists s c (st : pstate Z) n R R',
  Obj s c st /\ In n (map e_name (s_entries s)) /\ get s c [PStr n] st = Ok (RMat R) /\
  get s c [PLst [KS n]] st = Ok (RList [RMat R']) /\ R <> R'.
Proof.
  exists exP, exP_c, (numbered 5), "P"%string. eexists. eexists. split; [exact exP_Obj|]. split; [right; left; reflexivity|].
  split; [vm_compute; reflexivity|]. split; [vm_compute; reflexivity|]. discriminate.
Qed.

(** ** C17 *)
Example C17_example : @initial Z [PStr "b"; PSlc (Slc None (Some 2) None); PDict] /\
  exists R r, get ex ex_c [PStr "b"; PSlc (Slc None (Some 2) None); PDict] ex_st = Ok R /\
  set ex ex_c [PStr "b"; PSlc (Slc None (Some 2) None); PDict] (pay_of R) ex_st = (ex_st, Ok r).
Proof.
  split; [repeat (constructor; simpl; auto); unfold initial_slice; simpl; auto|]. eexists _, _. repeat (split; [vm_compute; reflexivity|]). vm_compute; reflexivity.
Qed.
(** Writing back a reversed read silently permutes the data; writing back an offset
    slice corrupts it and raises. *)
Lemma write_back_reversed : exists s c (st st' : pstate Z) pi R r,
  Obj s c st /\ NoSymm s /\ get s c pi st = Ok R /\ set s c pi (pay_of R) st = (st', Ok r) /\ st' <> st.
Proof.
  exists ex3, ex3_c, (numbered 7). eexists. exists [PStr "x"; PSlc (Slc None None (Some (-1)))]. eexists. eexists.
  split; [exact ex3_Obj|]. split.
  { constructor; [intros e [<-|[<-|[]]]; reflexivity|intros e s' [<-|[<-|[]]] E; discriminate]. }
  split; [vm_compute; reflexivity|]. split; [vm_compute; reflexivity|]. discriminate.
Qed.
Lemma write_back_offset : exists s c (st st' : pstate Z) pi R,
  Obj s c st /\ NoSymm s /\ get s c pi st = Ok R /\ set s c pi (pay_of R) st = (st', Err EException) /\ st' <> st.
Proof.
  exists ex3, ex3_c, (numbered 7). eexists. exists [PStr "x"; PSlc (Slc (Some 1) None None)]. eexists.
  split; [exact ex3_Obj|]. split.
  { constructor; [intros e [<-|[<-|[]]]; reflexivity|intros e s' [<-|[<-|[]]] E; discriminate]. }
  split; [vm_compute; reflexivity|]. split; [vm_compute; reflexivity|]. discriminate.
Qed.

(** ** C18 *)
Example C18_example : exists st' r,
  set ex ex_c [PStr "a"; PSlc slice_all] (PayList [PayMat (col [1; 2]); PayNum 3; PayNum 4]) ex_st = (st', Ok r) /\
  get ex ex_c [PStr "a"] st' = Ok (RList [RMat (col [1; 2]); RMat (col [3; 3])]) /\
  snd (set ex ex_c [PStr "a"; PSlc slice_all] (PayList [PayNum 3]) ex_st) = Err EException.
Proof. eexists _, _. repeat (split; [vm_compute; reflexivity|]). vm_compute; reflexivity. Qed.

(** ** C19 *)
Example C19_example : exists x,
  set ex ex_c (pidx [KS "a"; KI 1]) (PayMat (col [1; 2; 3])) ex_st = (ex_st, Err x).
Proof. eexists. vm_compute. reflexivity. Qed.
Lemma not_atomic : exists s c (st st' : pstate Z) pi v x,
  Obj s c st /\ NoSymm s /\ set s c pi v st = (st', Err x) /\ st' <> st.
Proof.
  exists ex3, ex3_c, (numbered 7). eexists. exists [PStr "x"; PSlc slice_all], (PayList [PayNum 1; PayNum 2]), EException.
  split; [exact ex3_Obj|]. split.
  { constructor; [intros e [<-|[<-|[]]]; reflexivity|intros e s' [<-|[<-|[]]] E; discriminate]. }
  split; [vm_compute; reflexivity|]. discriminate.
Qed.

(** ** C26, C27 *)
Example C26_example : exists st' r,
  set exP exP_c (pidx [KS "P"]) (PayMat (DM (sp_dense 2 2) [1; 9; 2; 3])) (numbered 5) = (st', Ok r) /\
  get exP exP_c (pidx [KS "P"]) st' = Ok (RMat (DM (sp_dense 2 2) [1; 2; 2; 3])).
Proof. eexists _, _. repeat (split; [vm_compute; reflexivity|]). vm_compute; reflexivity. Qed.
Example C27_example : exists st' r, norm_index 2 (-1) = Ok 1%nat /\
  set exP exP_c (pidx [KS "P"] ++ [PInt (-1); PInt 0]) (PayNum 7) (numbered 5) = (st', Ok r) /\
  get exP exP_c (pidx [KS "P"]) st' = Ok (RMat (DM (sp_dense 2 2) [102; 7; 7; 104])).
Proof. eexists _, _. repeat (split; [vm_compute; reflexivity|]). vm_compute; reflexivity. Qed.
Lemma symm_lower_read_refuted : exists s c (st : pstate Z) ci e n orig R E i j,
  Obj s c st /\ At s ci e /\ SymmEntry e n orig /\
  get s c (pidx ci) st = Ok (RMat R) /\
  get s c (pidx ci ++ [PInt (Z.of_nat i); PInt (Z.of_nat j)]) st = Ok (RMat E) /\
  dm_val 0 R (i, j) <> dm_val 0 E (0, 0)%nat.
Proof.
  exists exP, exP_c, (numbered 5), [KS "P"], eP, 2%nat, (sp_dense 2 2). eexists. eexists. exists 1%nat, 0%nat.
  split; [exact exP_Obj|]. split; [exact eP_At|]. split; [exact eP_Symm|].
  split; [vm_compute; reflexivity|]. split; [vm_compute; reflexivity|]. vm_compute. discriminate.
Qed.

(** ** C28 *)
Example C28_example : exists st' r m',
  get ex3 ex3_c (pidx [KS "y"] ++ [PSlc slice_all; PInt (-1)]) (numbered 7) = Ok (RMat (col [105; 106])) /\
  i_get 0 ex3 (pidx [KS "y"] ++ [PSlc slice_all; PInt (-1)]) = Ok (@RIdx Z m') /\ NoDup (dm_nz m') /\
  set ex3 ex3_c (pidx [KS "y"] ++ [PSlc slice_all; PInt (-1)]) (PayMat (col [1; 2])) (numbered 7) = (st', Ok r) /\
  get ex3 ex3_c (pidx [KS "y"]) st' = Ok (RMat (DM (sp_dense 2 2) [103; 104; 1; 2])).
Proof.
  eexists _, _, _. split; [vm_compute; reflexivity|]. split; [vm_compute; reflexivity|].
  split; [repeat constructor; simpl; intuition discriminate|]. split; vm_compute; reflexivity.
Qed.
