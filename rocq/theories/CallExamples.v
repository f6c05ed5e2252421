(** Concrete objects meeting the hypotheses of C102, and witnesses of the refuted statements. *)
From Verif Require Import PyBase IndexModel DMModel StructModel StructSpec PowerModel PowerSpec
  IndexProofs StructProofs LayoutProofs LayoutThms LayoutExamples DMProofs PowerProofs PowerThms PowerThms2 PowerExamples ReadSpec AssignSpec AssignThms AssignExamples
  CallSpec CallThms CallThms2.
Open Scope list_scope. Open Scope Z_scope.

(** Two callables: CasADi's [vertcat] of a list of dense columns, and [lambda r: r[-1]]. *)
Definition is_col (sp : spy) : bool := sp_is_dense sp && (sp_nc sp =? 1)%nat.
Fixpoint idx_cols (l : list (rval Z)) : option (list nat) :=
  match l with
  | [] => Some []
  | RIdx m :: l' => if is_col (dm_sp m) then match idx_cols l' with Some r => Some (dm_nz m ++ r) | None => None end else None
  | _ => None
  end.
Fixpoint mat_cols (l : list (rval Z)) : option (list Z) :=
  match l with
  | [] => Some []
  | RMat m :: l' => if is_col (dm_sp m) then match mat_cols l' with Some r => Some (dm_nz m ++ r) | None => None end else None
  | _ => None
  end.
Definition vertcat (r : rval Z) : res (rval Z) :=
  match r with
  | RList (RIdx m :: l) => match idx_cols (RIdx m :: l) with Some k => Ok (RIdx (dm_col k)) | None => Err EType end
  | RList l => match mat_cols l with Some x => Ok (RMat (dm_col x)) | None => Err EType end
  | _ => Err EType
  end.
Definition last_of (r : rval Z) : res (rval Z) :=
  match r with RList l => match rev l with x :: _ => Ok x | [] => Err EIndex end | _ => Err EType end.

Lemma cols_values v l L ks : Forall2 (Values v) l L -> idx_cols l = Some ks ->
  exists xs, mat_cols L = Some xs /\ Forall2 (fun k x => nth_error v k = Some x) ks xs.
Proof.
  intros H. revert ks. induction H as [|a b l L Hab H IH]; intros ks E.
  - injection E as <-. exists []. split; [reflexivity|constructor].
  - destruct a; try discriminate. inversion Hab; subst. simpl in *. destruct (is_col (dm_sp m)); [|discriminate].
    destruct (idx_cols l) as [ks'|]; [|discriminate]. injection E as <-. destruct (IH _ eq_refl) as (xs & -> & Hx).
    eexists. split; [reflexivity|]. now apply Forall2_app.
Qed.
Lemma Forall2_len {A B} (P : A -> B -> Prop) l L : Forall2 P l L -> length l = length L.
Proof. induction 1; simpl; congruence. Qed.
Lemma vertcat_selects : selects vertcat.
Proof.
  intros v r R J E HV. destruct r as [| | | |l|]; try discriminate. inversion HV as [|l' L HL E1 E2|]; subst.
  destruct l as [|[|m|m| | |] l]; simpl in E; try discriminate; [destruct (if is_col (dm_sp m) then _ else _); discriminate|].
  destruct (if is_col (dm_sp m) then _ else _) as [ks|] eqn:Ek; [|discriminate]. injection E as <-.
  destruct (cols_values v _ _ ks HL Ek) as (xs & Ex & Hx). inversion HL as [|a b la Lb Hab HL' E1 E2]; subst. inversion Hab; subst.
  exists (RMat (dm_col xs)). split; [cbn [vertcat]; now rewrite Ex|].
  unfold dm_col at 2. rewrite <- (Forall2_len _ _ _ Hx). now apply (V_mat v (dm_col ks)).
Qed.
Lemma Forall2_rev {A B} (P : A -> B -> Prop) l L : Forall2 P l L -> Forall2 P (rev l) (rev L).
Proof. induction 1; simpl; [constructor|]. apply Forall2_app; auto. Qed.
Lemma last_selects : selects last_of.
Proof.
  intros v r R J E HV. destruct r as [| | | |l|]; try discriminate. inversion HV as [|l' L HL E1 E2|]; subst.
  apply Forall2_rev in HL. simpl in *. destruct HL; [discriminate|]. injection E as ->. eauto.
Qed.

(** [s["x", vertcat]] above the three repeats of [x]. *)
Lemma x_above : Above ex3 [@PStr Z "x"].
Proof. constructor. intros e [<-|[<-|[]]] E; [constructor|discriminate]. Qed.
Lemma xs_above : Above ex3 [@PSet Z ["x"]].
Proof. constructor; [repeat constructor; simpl; tauto|]. intros e [<-|[<-|[]]] E; [constructor|simpl in E; intuition discriminate]. Qed.

Example C102_example_read : Above ex3 [@PStr Z "x"] /\
  get ex3 ex3_c [PStr "x"] (numbered 7) = Ok (RList [one 100; one 101; one 102]) /\
  get ex3 ex3_c [PStr "x"; PFun vertcat] (numbered 7) = Ok (RMat (col [100; 101; 102])) /\
  get ex3 ex3_c [PStr "x"; PFun last_of; PSlc (Slc None (Some 2) None)] (numbered 7) = Ok (one 101) /\
  get ex3 ex3_c [PFun last_of; PStr "x"] (numbered 7) = Ok (one 102) /\
  get ex3 ex3_c [PSet ["x"]; PFun last_of] (numbered 7) = Ok (RDict [("x", one 102)]) /\
  idx ex3 [PSet ["x"]; PFun last_of] = Ok (RDict [("x", RIdx (DM (sp_dense 1 1) [2%nat]))]).
Proof. split; [exact x_above|]. repeat split; vm_compute; reflexivity. Qed.

(** [s["x", vertcat] = DM([7, 8, 9])] *)
Definition J3 : dm nat := dm_col [0%nat; 1%nat; 2%nat].
Example C102_example_write : Obj ex3 ex3_c (numbered 7) /\ NoSymm ex3 /\ path [@PStr Z "x"] /\ Above ex3 [@PStr Z "x"] /\ @no_fun Z [] /\ selects vertcat /\
  to_mtype (PayMat (col [7; 8; 9])) = Ok (col [7; 8; 9]) /\ DmOk (col [7; 8; 9]) /\
  i_get 0 ex3 ([PStr "x"] ++ PFun vertcat :: []) = Ok (RIdx J3) /\ DmOk J3 /\ Forall (fun k => (k < cs_size ex3_c)%nat) (dm_nz J3) /\ NoDup (dm_nz J3) /\
  fits (col [7; 8; 9]) (dm_sp J3) /\
  ps_master (fst (set ex3 ex3_c [PStr "x"; PFun vertcat] (PayMat (col [7; 8; 9])) (numbered 7))) = [7; 8; 9; 103; 104; 105; 106] /\
  get ex3 ex3_c [PStr "x"; PFun vertcat] (fst (set ex3 ex3_c [PStr "x"; PFun vertcat] (PayMat (col [7; 8; 9])) (numbered 7))) = Ok (RMat (col [7; 8; 9])).
Proof.
  split; [exact ex3_Obj|]. split; [exact ex3_NoSymm|]. split; [repeat constructor|]. split; [exact x_above|]. split; [repeat constructor|].
  split; [exact vertcat_selects|]. split; [reflexivity|]. split; [split; [solve_spok2|reflexivity]|].
  split; [vm_compute; reflexivity|]. split; [split; [solve_spok2|reflexivity]|]. split; [vm_compute; repeat constructor; lia|].
  split; [vm_compute; repeat constructor; simpl; intuition discriminate|].
  split; [right; left; reflexivity|]. split; vm_compute; reflexivity.
Qed.
Example C102_example_misfit : set ex3 ex3_c [PStr "x"; PFun vertcat] (PayMat (col [7; 8])) (numbered 7) = (numbered 7, Err EException).
Proof. vm_compute. reflexivity. Qed.
Example C11_example_call : exists rr st' r,
  sets_ok [@PSet Z ["x"]; PFun last_of] /\ idx ex3 [PSet ["x"]; PFun last_of] = Ok rr /\ positions rr = [2%nat] /\
  set ex3 ex3_c [PSet ["x"]; PFun last_of] (PayDict [("x", PayNum 5)]) (numbered 7) = (st', r) /\ ps_master st' = [100; 101; 5; 103; 104; 105; 106].
Proof. do 3 eexists. split; [repeat constructor; simpl; tauto|]. split; [vm_compute; reflexivity|]. split; [reflexivity|]. split; vm_compute; reflexivity. Qed.

(** On the matrix of an entry: [lambda m: m[0]] and a callable that computes. *)
Definition exl : structure := mkStruct [mk "y" [] (sp_dense 2 2); mk "x" [3] (sp_dense 1 1)] [OName "y"; OName "x"].
Definition exl_c : cstruct := Eval vm_compute in built exl.
Lemma exl_Wf : Wf exl.
Proof.
  constructor.
  - repeat constructor; simpl; intuition discriminate.
  - reflexivity.
  - intros e [<-|[<-|[]]]; solve_spok2.
  - intros e s' [<-|[<-|[]]] E; discriminate.
Qed.
Lemma exl_Obj : Obj exl exl_c (numbered 7).
Proof. split; [exact exl_Wf|vm_compute; reflexivity|reflexivity]. Qed.
Lemma exl_At : At exl [KS "y"] (mk "y" [] (sp_dense 2 2)).
Proof. apply (At_here exl (mk "y" [] (sp_dense 2 2)) []); [left; reflexivity|constructor]. Qed.
Definition doubled (r : rval Z) : res (rval Z) :=
  match r with
  | RMat m => Ok (RMat (DM (dm_sp m) (map (Z.mul 2) (dm_nz m))))
  | RIdx m => Ok (RIdx (DM (dm_sp m) (map (Nat.mul 2) (dm_nz m))))
  | _ => Err EType
  end.
Definition Jl : dm nat := DM (sp_dense 2 2) [0; 2; 4; 6]%nat.
Example C102_example_leaf : Obj exl exl_c (numbered 7) /\ At exl [KS "y"] (mk "y" [] (sp_dense 2 2)) /\
  i_get 0 exl (pidx [KS "y"] ++ PFun doubled :: []) = Ok (RIdx Jl) /\ DmOk Jl /\ Forall (fun k => (k < cs_size exl_c)%nat) (dm_nz Jl) /\
  get exl exl_c [PStr "y"; PFun doubled] (numbered 7) = Ok (RMat (DM (sp_dense 2 2) [100; 102; 104; 106])).
Proof.
  split; [exact exl_Obj|]. split; [exact exl_At|]. split; [vm_compute; reflexivity|]. split; [split; [solve_spok2|reflexivity]|].
  split; [vm_compute; repeat constructor; lia|vm_compute; reflexivity].
Qed.

(** A callable that computes is not applied to the values of an entry, but to their positions:
    [s["y", lambda m: 2*m]] is not twice [s["y"]]. *)
Lemma leaf_call_refuted : exists s c (st : pstate Z) ci e f r fr,
  Obj s c st /\ At s ci e /\ e_struct e = None /\ e_symm e = false /\
  getitem 0 s (num_env c) (pidx ci) st = Ok r /\ f r = Ok fr /\
  (exists r', getitem 0 s (num_env c) (pidx ci ++ [PFun f]) st = Ok r' /\ r' <> fr).
Proof.
  exists exl, exl_c, (numbered 7), [KS "y"], (mk "y" [] (sp_dense 2 2)), doubled.
  do 2 eexists. split; [exact exl_Obj|]. split; [exact exl_At|]. split; [reflexivity|]. split; [reflexivity|].
  split; [vm_compute; reflexivity|]. split; [reflexivity|]. eexists. split; [vm_compute; reflexivity|]. intros E. discriminate E.
Qed.

(** A list of numbers is not accepted through a callable above the repeats of an entry even if
    the column it stands for is: [s["x", last] = [5]] raises, [= DM([5])] does not. *)
Lemma list_call_refuted : exists s c (st : pstate Z) pre f p W J,
  Obj s c st /\ NoSymm s /\ path pre /\ Above s pre /\ to_mtype p = Ok W /\ DmOk W /\
  i_get 0 s (pre ++ [PFun f]) = Ok (RIdx J) /\ fits W (dm_sp J) /\
  snd (setitem 0 s (num_env c) (pre ++ [PFun f]) (PayMat W) st) = Ok RNone /\
  setitem 0 s (num_env c) (pre ++ [PFun f]) p st = (st, Err EException).
Proof.
  exists ex3, ex3_c, (numbered 7), [PStr "x"], last_of, (PayList [PayNum 5]).
  do 2 eexists. split; [exact ex3_Obj|]. split; [exact ex3_NoSymm|]. split; [repeat constructor|]. split; [exact x_above|]. split; [reflexivity|].
  split; [split; [solve_spok2|reflexivity]|]. split; [vm_compute; reflexivity|]. split; [left; reflexivity|]. split; vm_compute; reflexivity.
Qed.
