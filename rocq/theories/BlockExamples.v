(** Examples for block arithmetic (C97). *)
From Verif Require Import PyBase IndexModel DMModel StructModel StructSpec PowerModel PowerSpec DMProofs IndexProofs StructProofs
  LayoutProofs LayoutThms LayoutExamples PowerProofs PowerThms PowerExamples EntryModel StructsModel StructsSpec StructsExamples StructsExamples2 StructsThms2 StructsThms7 BlockSpec BlockThms.
Open Scope Z_scope.

Lemma plain_of s e : In e (s_entries s) -> e_struct e = None -> e_dims e = [] -> sp_is_dense (e_sp e) = true -> e_symm e = false -> Plain s [KS (e_name e)].
Proof. intros H1 H2 H3 H4 H5. exists e. split; [|auto]. apply (Leaf_prim s e []); auto. rewrite H3. constructor. Qed.
Definition ex4_leaves : traverseCanonicalIndex ex4 = [[KS "x"]; [KS "y"]] := eq_refl.
Definition ex5_leaves : traverseCanonicalIndex ex5 = [[KS "p"]; [KS "q"]] := eq_refl.
Lemma ex4_plain cj : In cj (traverseCanonicalIndex ex4) -> Plain ex4 cj.
Proof. rewrite ex4_leaves. intros [<-|[<-|[]]]; [apply (plain_of ex4 (mk "x" [] (sp_dense 2 1)))|apply (plain_of ex4 (mk "y" [] (sp_dense 2 2)))]; simpl; auto. Qed.
Lemma ex5_plain cj : In cj (traverseCanonicalIndex ex5) -> Plain ex5 cj.
Proof. rewrite ex5_leaves. intros [<-|[<-|[]]]; [apply (plain_of ex5 (mk "p" [] (sp_dense 1 1)))|apply (plain_of ex5 (mk "q" [] (sp_dense 2 1)))]; simpl; auto. Qed.
Definition byname (ci : cidx) : pel Z := match ci with [KS a] => PStr a | _ => PStr "" end.
Lemma ex5_sel cj : In cj (traverseCanonicalIndex ex5) -> Sel cj (byname cj).
Proof. rewrite ex5_leaves. intros [<-|[<-|[]]]; constructor. Qed.
(** The 6 x 3 matrix [ex_A] times (1, 2, 3), by names *)
Definition ex_y : dm Z := col [8; 68; 128; 188; 248; 308].
Example matvec_ex : exists V x o Y B X, product_ ex4 ex4_c ex5 ex5_c ex_A = Ok V /\ call_struct 0 (-1) ex5_c (CMat (col [1; 2; 3])) = Ok x /\ call_struct 0 (-1) ex4_c (CMat ex_y) = Ok o /\
  so_get 0 o [PStr "y"] = Ok (RMat Y) /\ dm_nz Y = [128; 188; 248; 308] /\
  view_get 0 V [PStr "y"; PStr "q"] = Ok (RMat (B [KS "q"])) /\ so_get 0 x [PStr "q"] = Ok (RMat (X [KS "q"])) /\
  forall i, (i < 4)%nat -> nth i (dm_nz Y) 0 = blockvec 0 Z.add Z.mul (B [KS "p"]) (X [KS "p"]) i + (blockvec 0 Z.add Z.mul (B [KS "q"]) (X [KS "q"]) i + 0).
Proof.
  destruct C29_hyps as (W4 & W5 & C4 & C5 & HA & HS).
  assert (exists V, product_ ex4 ex4_c ex5 ex5_c ex_A = Ok V) as [V HV] by (eexists; vm_compute; reflexivity).
  assert (exists x, call_struct 0 (-1) ex5_c (CMat (col [1; 2; 3])) = Ok x) as [x Hx] by (eexists; vm_compute; reflexivity).
  assert (exists o, call_struct 0 (-1) ex4_c (CMat ex_y) = Ok o /\ exists Y, so_get 0 o [PStr "y"] = Ok (RMat Y) /\ dm_nz Y = [128; 188; 248; 308]) as (o & Ho & Y0 & HY0 & EY) by (eexists; split; [vm_compute; reflexivity|eexists; split; vm_compute; reflexivity]).
  pose proof (proj1 (product_blocks 0 ex4 ex4_c ex5 ex5_c ex_A V V W4 W5 C4 C5 HA HS HV (Writes_none _ _ _ _ _ _))) as N.
  destruct (product_vector 0 Z.add Z.mul Z.add_assoc Z.add_0_l ex4 ex5 ex4_c ex5_c ex_A ex_A V V W4 W5 C4 C5 HA HS HV (Writes_none _ _ _ _ _ _) eq_refl N (-1) (col [1; 2; 3]) ex_y x o eq_refl Hx eq_refl) with (ci := [KS "y"]) (p := @PStr Z "y") (q := byname) as (Y & B & X & G1 & G2 & G3); auto.
  - intros k Hk. change (cs_size ex4_c) with 6%nat in Hk. do 6 (destruct k as [|k]; [vm_compute; reflexivity|]). lia.
  - exact ex5_plain.
  - apply ex4_plain. rewrite ex4_leaves. simpl. auto.
  - constructor.
  - exact ex5_sel.
  - change (pidx [KS "y"]) with [@PStr Z "y"] in G1. rewrite HY0 in G1. injection G1 as <-. rewrite EY in G3. exists V, x, o, Y0, B, X. rewrite EY. destruct (G2 [KS "q"]) as [G4 G5]; [rewrite ex5_leaves; simpl; auto|]. repeat (split; [assumption || reflexivity|]). exact G3.
Qed.
(** (1, ..., 6) (1, 2, 3)', by [indexf] *)
Definition ex_O : dm Z := DM (sp_dense 6 3) [1; 2; 3; 4; 5; 6; 2; 4; 6; 8; 10; 12; 3; 6; 9; 12; 15; 18].
Example outer_ex : exists V B, product_ ex4 ex4_c ex5 ex5_c ex_O = Ok V /\ view_get 0 V [PDel true [PStr "y"]; PDel true [PStr "q"]] = Ok (RMat B) /\ dm_shape B = (4, 2)%nat /\
  forall i j, (i < 4)%nat -> (j < 2)%nat -> dm_val 0 B (i, j) = nth i [3; 4; 5; 6] 0 * nth j [2; 3] 0.
Proof.
  destruct C29_hyps as (W4 & W5 & C4 & C5 & _ & _).
  assert (exists V, product_ ex4 ex4_c ex5 ex5_c ex_O = Ok V) as [V HV] by (eexists; vm_compute; reflexivity).
  assert (HA : DmOk ex_O) by (split; [solve_spok2|reflexivity]).
  pose proof (proj1 (product_blocks 0 ex4 ex4_c ex5 ex5_c ex_O V V W4 W5 C4 C5 HA eq_refl HV (Writes_none _ _ _ _ _ _))) as N.
  assert (exists x, call_struct 0 (-1) ex4_c (CMat (col [1; 2; 3; 4; 5; 6])) = Ok x /\ exists X, so_get 0 x [PStr "y"] = Ok (RMat X) /\ dm_nz X = [3; 4; 5; 6]) as (x & Hx & X & HX & EX) by (eexists; split; [vm_compute; reflexivity|eexists; split; vm_compute; reflexivity]).
  assert (exists x, call_struct 0 (-1) ex5_c (CMat (col [1; 2; 3])) = Ok x /\ exists X, so_get 0 x [PStr "q"] = Ok (RMat X) /\ dm_nz X = [2; 3]) as (x' & Hx' & X' & HX' & EX') by (eexists; split; [vm_compute; reflexivity|eexists; split; vm_compute; reflexivity]).
  destruct (product_outer 0 Z.mul ex4 ex5 ex4_c ex5_c ex_O ex_O V V W4 W5 C4 C5 HA eq_refl HV (Writes_none _ _ _ _ _ _) eq_refl N (-1) (-1) (col [1; 2; 3; 4; 5; 6]) (col [1; 2; 3]) x x' eq_refl Hx eq_refl Hx') with (ci := [KS "y"]) (cj := [KS "q"]) (p := @PDel Z true [PStr "y"]) (q := @PDel Z true [PStr "q"]) as (B & X1 & X2 & G1 & G2 & G3 & G4 & G5).
  - intros i j Hi Hj. change (cs_size ex4_c) with 6%nat in Hi. change (cs_size ex5_c) with 3%nat in Hj. do 6 (destruct i as [|i]; [do 3 (destruct j as [|j]; [vm_compute; reflexivity|]); lia|]). lia.
  - apply ex4_plain. rewrite ex4_leaves. simpl. auto.
  - apply ex5_plain. rewrite ex5_leaves. simpl. auto.
  - apply (Sel_index [KS "y"]).
  - apply (Sel_index [KS "q"]).
  - change (pidx [KS "y"]) with [@PStr Z "y"] in G2. change (pidx [KS "q"]) with [@PStr Z "q"] in G3. rewrite HX in G2. rewrite HX' in G3. injection G2 as <-. injection G3 as <-. rewrite EX, EX' in *. exists V, B. auto.
Qed.
(** [ex_A] and its transpose *)
Example transpose_ex : exists V V' B B', product_ ex4 ex4_c ex5 ex5_c ex_A = Ok V /\ product_ ex5 ex5_c ex4 ex4_c (dm_T ex_A) = Ok V' /\
  view_get 0 V [PStr "x"; PStr "q"] = Ok (RMat B) /\ view_get 0 V' [PStr "q"; PStr "x"] = Ok (RMat B') /\ dm_nz B = [1; 11; 2; 12] /\ forall i j, (i < 2)%nat -> (j < 2)%nat -> dm_val 0 B' (j, i) = dm_val 0 B (i, j).
Proof.
  destruct C29_hyps as (W4 & W5 & C4 & C5 & HA & HS).
  assert (exists V, product_ ex4 ex4_c ex5 ex5_c ex_A = Ok V /\ exists B, view_get 0 V [PStr "x"; PStr "q"] = Ok (RMat B) /\ dm_nz B = [1; 11; 2; 12] /\ dm_shape B = (2, 2)%nat) as (V & HV & B0 & HB0 & EB & SB) by (eexists; split; [vm_compute; reflexivity|eexists; repeat split; vm_compute; reflexivity]).
  assert (exists V, product_ ex5 ex5_c ex4 ex4_c (dm_T ex_A) = Ok V) as [V' HV'] by (eexists; vm_compute; reflexivity).
  assert (HA' : DmOk (dm_T ex_A)) by (split; [change (dm_sp (dm_T ex_A)) with (sp_dense 3 6); solve_spok2|reflexivity]).
  destruct (product_transpose 0 ex4 ex5 ex4_c ex5_c ex_A (dm_T ex_A) V V' W4 W5 C4 C5 HA HS HV HA' eq_refl HV') with (ci := [KS "x"]) (cj := [KS "q"]) (p := @PStr Z "x") (q := @PStr Z "q") as (B & B' & m & n & G1 & G2 & G3 & G4 & G5); try constructor.
  - intros i j Hi Hj. change (cs_size ex4_c) with 6%nat in Hi. change (cs_size ex5_c) with 3%nat in Hj. do 6 (destruct i as [|i]; [do 3 (destruct j as [|j]; [vm_compute; reflexivity|]); lia|]). lia.
  - apply ex4_plain. rewrite ex4_leaves. simpl. auto.
  - apply ex5_plain. rewrite ex5_leaves. simpl. auto.
  - rewrite HB0 in G1. injection G1 as <-. rewrite SB in G3. injection G3 as <- <-. exists V, V', B0, B'. auto 10.
Qed.
