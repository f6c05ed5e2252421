(** Concrete objects meeting the hypotheses of the theorems about struct_MX, MX symbols,
    squared and product views, and witnesses of the refuted statements (C23-C25, C29, C30). *)
From Verif Require Import PyBase IndexModel DMModel StructModel StructSpec PowerModel PowerSpec
  IndexProofs StructProofs LayoutProofs LayoutThms LayoutExamples DMProofs PowerProofs PowerThms SliceProofs PowerThms2 PowerThms3 PowerThms4
  PowerThms5 PowerExamples EntryModel EntrySpec EntryProofs StructsModel StructsSpec StructsThms1 StructsThms2 StructsThms3
  StructsThms4 StructsThms5 StructsThms6 StructsThms7 StructsExamples.
Open Scope Z_scope.

(** ** C23: struct_MX(ex_sx), then s["u", 1] = [e, e']; s["u", 1, 0] = e''; s["w"] = f *)
Definition ex_h : list (string * list Z * pay Z) :=
  [("u"%string, [1], PayList [PayMat (col [50; 51]); PayMat (col [52; 53])]); ("u"%string, [1; 0], PayMat (col [60; 61]));
   ("w"%string, [], PayMat (DM (sp_upper 2) [71; 72; 73]))].
Definition ex_mx : sobj Z := Eval vm_compute in match struct_MX 0 ex_sx None with Ok o => o | Err _ => veccat_init ex_c end.
Definition ex_mx' : sobj Z := Eval vm_compute in match veccat_sets 0 ex_mx (hist_pi ex_h) with Ok o => o | Err _ => veccat_init ex_c end.
Lemma ex_h_ok : HistOk (cs_struct (so_c ex_mx)) ex_h.
Proof.
  assert (H : forall l, DmOk (col l)) by (intros l; apply dm_col_ok).
  intros x [<-|[<-|[<-|[]]]]; cbn [fst snd].
  - split; [simpl; auto|]. eexists. exists [3], [2]. split; [left; reflexivity|]. repeat split; try reflexivity. repeat constructor; lia.
  - split; [apply H|]. eexists. exists [3; 2], []. split; [left; reflexivity|]. repeat split; try reflexivity. repeat constructor; lia.
  - split; [split; [solve_spok2|reflexivity]|]. eexists. exists [], []. split; [right; left; reflexivity|]. repeat split; try reflexivity. constructor.
Qed.
Example C23_hyps : struct_MX 0 ex_sx None = Ok ex_mx /\ HistOk (cs_struct (so_c ex_mx)) ex_h /\ veccat_sets 0 ex_mx (hist_pi ex_h) = Ok ex_mx'.
Proof. split; [vm_compute; reflexivity|]. split; [exact ex_h_ok|vm_compute; reflexivity]. Qed.
Example C23_last : LastAssigned (initial ex_sx ++ ex_h) "u" [1; 0] (PayMat (col [60; 61])) /\
  LastAssigned (initial ex_sx ++ ex_h) "u" [1; 1] (PayMat (col [52; 53])) /\
  LastAssigned (initial ex_sx ++ ex_h) "u" [0; 1] (PayMat (col [3; 4])).
Proof.
  split; [|split].
  - eexists (_ :: _ :: _ :: nil), [1; 0], [], _, _. split; [reflexivity|]. split; [reflexivity|]. split; [reflexivity|].
    intros x [<-|[]] [H _]. discriminate H.
  - eexists (_ :: _ :: nil), [1], [1], _, _. split; [reflexivity|]. split; [reflexivity|]. split; [reflexivity|].
    intros x [<-|[<-|[]]] [H (r & Hr)]; [discriminate Hr|discriminate H].
  - eexists nil, [], [0; 1], _, _. split; [reflexivity|]. split; [reflexivity|]. split; [reflexivity|].
    intros x [<-|[<-|[<-|[<-|[]]]]] [H (r & Hr)]; try discriminate H; discriminate Hr.
Qed.
Example C23_example : veccat_master ex_mx' = Ok [1; 2; 3; 4; 60; 61; 52; 53; 9; 10; 11; 12; 71; 72; 73] /\
  veccat_get 0 ex_mx' (pidx (top "u" [1; 0])) = Ok (RMat (col [60; 61])) /\
  veccat_get 0 ex_mx' (pidx (top "w" [])) = Ok (RMat (DM (sp_upper 2) [71; 72; 73])).
Proof. vm_compute. repeat split; reflexivity. Qed.
(** A slot which was never assigned. *)
Example C23_example_missing : exists o, veccat_sets 0 (veccat_init (so_c ex_mx)) (hist_pi ex_h) = Ok o /\
  (forall x, In x ex_h -> ~ covers x "u" [2; 1]) /\ veccat_master o = Err EException.
Proof.
  eexists. split; [vm_compute; reflexivity|]. split; [|vm_compute; reflexivity].
  intros x [<-|[<-|[<-|[]]]] [H (r & Hr)]; try discriminate H; discriminate Hr.
Qed.

(** ** C24: struct_symMX(ex); [ex] has groups, repeats and a sub-structure *)
Definition ex_syms : list Z := map Z.of_nat (seq 100 23).
Example C24_hyps : Wf ex /\ casadi_structure ex = Ok ex_c /\ length ex_syms = cs_size ex_c.
Proof. split; [exact ex_Wf|]. split; vm_compute; reflexivity. Qed.
Example C24_example : exists o, mx_struct ex_c ex_syms = Ok o /\
  so_get 0 o (pidx (top "a" [1])) = Ok (RMat (col [106; 107])) /\
  so_get 0 o (pidx (top "b" [1])) = Ok (RMat (col [108; 109; 110; 111])) /\
  so_get 0 o (pidx (top "d" [1; 0])) = Ok (RMat (col [121])).
Proof. eexists. split; [vm_compute; reflexivity|]. vm_compute. repeat split; reflexivity. Qed.

(** ** C25: a write to struct_MX_mutable is not seen by the next read *)
Theorem mx_stale_refuted : exists s c (master : list Z) o o' M,
  Wf s /\ casadi_structure s = Ok c /\ mx_struct c master = Ok o /\
  so_set 0 o (pidx [KS "x"]) (PayMat M) = (o', Ok RNone) /\ fits M (sp_dense 2 1) /\
  so_cat o' = [7; 8; 3; 4; 5; 6] /\
  so_get 0 o' (pidx [KS "x"]) = Ok (RMat (col [1; 2])) /\ M = col [7; 8].
Proof.
  exists ex4, ex4_c, [1; 2; 3; 4; 5; 6]. eexists. eexists. exists (col [7; 8]).
  split; [exact ex4_Wf|]. split; [vm_compute; reflexivity|]. split; [vm_compute; reflexivity|]. split; [vm_compute; reflexivity|].
  split; [right; left; reflexivity|]. vm_compute. repeat split; reflexivity.
Qed.

(** ** C29, C30: product views *)
Definition ex5 : structure := mkStruct [mk "p" [] (sp_dense 1 1); mk "q" [] (sp_dense 2 1)] [OName "p"; OName "q"].
Definition ex5_c : cstruct := Eval vm_compute in built ex5.
Lemma ex5_Wf : Wf ex5.
Proof.
  constructor.
  - repeat constructor; simpl; intuition discriminate.
  - reflexivity.
  - intros e [<-|[<-|[]]]; solve_spok2.
  - intros e s' [<-|[<-|[]]] E; discriminate.
Qed.
Definition ex_A : dm Z := DM (sp_dense 6 3) [0; 10; 20; 30; 40; 50; 1; 11; 21; 31; 41; 51; 2; 12; 22; 32; 42; 52].
Example C29_hyps : Wf ex4 /\ Wf ex5 /\ casadi_structure ex4 = Ok ex4_c /\ casadi_structure ex5 = Ok ex5_c /\ DmOk ex_A /\
  dm_shape ex_A = (cs_size ex4_c, cs_size ex5_c).
Proof. split; [exact ex4_Wf|]. split; [exact ex5_Wf|]. split; [reflexivity|]. split; [reflexivity|]. split; [split; [solve_spok2|reflexivity]|reflexivity]. Qed.
Example C29_sel : RowSel 0 ex4 (PStr "y") [2; 3; 4; 5]%nat /\ RowSel 0 ex5 (PStr "q") [1; 2]%nat /\ RowSel 0 ex5 (PDel true [PStr "q"; PInt 1]) [2]%nat /\
  RowSel 0 ex5 (PDel false [PStr "q"]) [1; 2]%nat.
Proof.
  split; [|split; [|split]]; try (constructor; vm_compute; reflexivity).
  change [1; 2]%nat with (dm_nz (DM (sp_dense 2 1) [1; 2]%nat)). constructor; [vm_compute; reflexivity|reflexivity|left; reflexivity].
Qed.
Example C29_example : exists vw vw', product_ ex4 ex4_c ex5 ex5_c ex_A = Ok vw /\
  view_get 0 vw [PStr "y"; PStr "q"] = Ok (RMat (DM (sp_dense 4 2) [21; 31; 41; 51; 22; 32; 42; 52])) /\
  view_set 0 vw [PStr "x"; PStr "q"] (PayMat (DM (sp_dense 2 2) [91; 92; 93; 94])) = (vw', Ok RNone) /\
  view_matrix vw' = [0; 10; 20; 30; 40; 50; 91; 92; 21; 31; 41; 51; 93; 94; 22; 32; 42; 52].
Proof. eexists. eexists. split; [vm_compute; reflexivity|]. split; [vm_compute; reflexivity|]. split; vm_compute; reflexivity. Qed.
Example C30_example : exists vw, product_ ex4 ex4_c ex5 ex5_c (dm_scalar 7) = Ok vw /\ view_matrix vw = repeat 7 18.
Proof. eexists. split; vm_compute; reflexivity. Qed.
Definition ex6 : structure := mkStruct [mk "r" [] (sp_dense 1 1)] [OName "r"].
Definition ex6_c : cstruct := Eval vm_compute in built ex6.
Lemma ex6_Wf : Wf ex6.
Proof.
  constructor.
  - repeat constructor; simpl; intuition discriminate.
  - reflexivity.
  - intros e [<-|[]]; solve_spok2.
  - intros e s' [<-|[]] E; discriminate.
Qed.
(** A scalar is refused as soon as the row structure has one element and the column
    structure more than one. *)
Theorem product_scalar_refuted : exists s c s2 c2 (a : dm Z),
  Wf s /\ Wf s2 /\ casadi_structure s = Ok c /\ casadi_structure s2 = Ok c2 /\ a = dm_scalar 0 /\ product_ s c s2 c2 a = Err EException.
Proof.
  exists ex6, ex6_c, ex5, ex5_c, (dm_scalar 0). split; [exact ex6_Wf|]. split; [exact ex5_Wf|].
  repeat (split; [reflexivity|]). vm_compute. reflexivity.
Qed.

(** ** C35 for struct_MX: the hypotheses are those of [C35_hyps] *)
Example C35_mx_example : struct_MX 0 ex_sx None = Ok ex_mx /\
  veccat_get 0 ex_mx (pidx (top "u" [1; 0])) = Ok (RMat (col [5; 6])) /\
  veccat_get 0 ex_mx (pidx (top "w" [])) = Ok (RMat (DM (sp_upper 2) [21; 22; 23])).
Proof. vm_compute. repeat split; reflexivity. Qed.
