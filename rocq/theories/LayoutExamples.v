(** Concrete structures meeting the hypotheses of the layout theorems, witnesses of
    the refuted ones, and the remaining lemmas of the layout part. *)
From Coq Require Import Permutation Sorted.
From Verif Require Import PyBase IndexModel DMModel StructModel StructSpec IndexProofs StructProofs LayoutProofs LayoutThms.
Open Scope string_scope.
Open Scope list_scope.

Lemma build_succeeds s : Wf s -> exists c, casadi_structure s = Ok c.
Proof. intros Hw. destruct (casadi_structure_ok s Hw) as (c & H & _). eauto. Qed.

Lemma size_formula s c : Wf s -> casadi_structure s = Ok c -> cs_size c = s_size s.
Proof.
  intros Hw Hc. destruct (casadi_structure_ok s Hw) as (c' & Hc' & _ & Hs & _). rewrite Hc in Hc'. injection Hc' as <-.
  now rewrite Hs, tot_size.
Qed.

Lemma intersperse_terminates (A : Type) (ls : list (list A)) :
  exists r, intersperse_opt ls = Some r /\ r = round_robin ls /\ Permutation r (concat ls).
Proof. exists (round_robin ls). split; [apply intersperse_total|]. split; [reflexivity|apply round_robin_perm]. Qed.

Lemma loop_fuel_mono {A} : forall n (its : list (list A)) act i r m,
  intersperse_loop n its act i = Some r -> intersperse_loop (n + m) its act i = Some r.
Proof.
  induction n as [|n IH]; intros its act i r m H.
  - simpl in H. destruct (existsb (fun b => b) act) eqn:E; [discriminate|].
    injection H as <-. rewrite loop_inactive; auto.
  - cbn [intersperse_loop Nat.add] in *. destruct (existsb (fun b => b) act); [|exact H].
    destruct (nth i its []) as [|x rest].
    + now apply IH.
    + destruct (intersperse_loop n (set_nth i rest its) act _) as [ys|] eqn:E; [|discriminate].
      rewrite (IH _ _ _ _ m E). exact H.
Qed.

Lemma intersperse_more_fuel (A : Type) (ls : list (list A)) n :
  intersperse_loop (intersperse_fuel ls + n) ls (map (fun _ => true) ls) 0 = Some (round_robin ls).
Proof. apply loop_fuel_mono. apply intersperse_total. Qed.

Lemma leaves_nonempty s : Wf s -> leaves s <> [] <-> exists ci e, Leaf s ci e.
Proof.
  intros Hw. split.
  - intros Hne. destruct (leaves s) as [|ci l] eqn:E; [congruence|]. exists ci. apply in_leaves; auto. rewrite E. left; reflexivity.
  - intros (ci & e & Hl) E. assert (Hin : In ci (leaves s)) by (apply in_leaves; eauto). rewrite E in Hin. destruct Hin.
Qed.

Lemma block_contiguous s c p s' :
  Wf s -> casadi_structure s = Ok c -> Block s p s' -> (exists ci e, Leaf s' ci e) ->
  exists start, cmap_get p (cs_map c) = Some (dm_col (seq start (s_size s'))) /\ start + s_size s' <= cs_size c.
Proof.
  intros Hw Hc Hb Hl. pose proof (Block_Wf s p s' Hw Hb) as Hw'.
  destruct (Block_segment s p s' Hw Hb) as (l1 & l2 & Hs).
  exists (tot s l1). rewrite <- (tot_size s' Hw'). split.
  - eapply map_block; eauto. now apply leaves_nonempty.
  - rewrite (size_formula s c Hw Hc), <- (tot_size s Hw), Hs, <- (tot_block s p s' Hw Hb).
    unfold tot. rewrite !map_app, !list_sum_app. lia.
Qed.

Lemma map_keys' s c a v : Wf s -> casadi_structure s = Ok c -> cmap_get a (cs_map c) = Some v ->
  (exists e, Leaf s a e) \/ (exists s', Block s a s' /\ exists ci e, Leaf s' ci e).
Proof.
  intros Hw Hc Hv. destruct (map_keys s c a v Hw Hc Hv) as [H|(s' & Hb & Hne)]; [left; exact H|right].
  exists s'. split; [exact Hb|]. apply leaves_nonempty; [eapply Block_Wf; eauto|exact Hne].
Qed.

Lemma flat_layout s c l1 M l2 : Wf s -> casadi_structure s = Ok c -> leaves s = l1 ++ M ++ l2 ->
  flat_map (fun ci => match cmap_get ci (cs_map c) with Some x => dm_nz x | None => [] end) M = seq (tot s l1) (tot s M).
Proof.
  intros Hw Hc. revert l1. induction M as [|i M IH]; intros l1 Hs; [reflexivity|].
  simpl. rewrite (map_leaf s c l1 i (M ++ l2) Hw Hc) by exact Hs. cbn [dm_nz].
  rewrite (IH (l1 ++ [i])).
  - unfold tot. rewrite map_app, list_sum_app. simpl. rewrite Nat.add_0_r, <- seq_app. reflexivity.
  - rewrite Hs, <- app_assoc. reflexivity.
Qed.

Lemma block_complete s c p s' m :
  Wf s -> casadi_structure s = Ok c -> Block s p s' -> cmap_get p (cs_map c) = Some m ->
  dm_nz m = flat_map (fun ci => match cmap_get (p ++ ci) (cs_map c) with Some x => dm_nz x | None => [] end)
                     (traverseCanonicalIndex s').
Proof.
  intros Hw Hc Hb Hm. pose proof (Block_Wf s p s' Hw Hb) as Hw'.
  destruct (Block_segment s p s' Hw Hb) as (l1 & l2 & Hs).
  assert (Hne : leaves s' <> []).
  { destruct (map_keys s c p m Hw Hc Hm) as [(e & Hl)|(s1 & Hb1 & Hne)].
    - intros E. (* a leaf is not a block *)
      pose proof (proj1 (Block_Leaf s p s' [] e Hw Hb)) as H. rewrite app_nil_r in H. apply H in Hl.
      apply Leaf_starts in Hl as (n & r & Hl). discriminate.
    - destruct (proj1 (leaves_nonempty s1 (Block_Wf s p s1 Hw Hb1)) Hne) as (ci & e & Hl).
      apply (proj2 (leaves_nonempty s' Hw')). exists ci, e.
      apply (Block_Leaf s p s' ci e Hw Hb). now apply (Block_Leaf s p s1 ci e Hw Hb1). }
  rewrite (map_block s c p s' l1 l2 Hw Hc Hb Hne Hs) in Hm. injection Hm as <-. cbn [dm_col dm_nz].
  rewrite traverse_leaves. pose proof (flat_layout s c l1 _ l2 Hw Hc Hs) as H.
  rewrite (tot_block s p s' Hw Hb) in H. rewrite <- H.
  rewrite flat_map_concat_map, map_map, <- flat_map_concat_map. reflexivity.
Qed.

Lemma str_mem_In n l : str_mem n l = true <-> In n l.
Proof.
  unfold str_mem. rewrite existsb_exists. split.
  - intros (x & Hx & E). apply String.eqb_eq in E. now subst.
  - intros H. exists n. split; [exact H|apply String.eqb_refl].
Qed.

Lemma order_ok es order s :
  structure_init es order = Ok s ->
  NoDup (map e_name es) -> (forall e, In e es -> SpOk (e_sp e)) ->
  (forall e s', In e es -> e_struct e = Some s' -> Wf s') ->
  (forall o, order = Some o -> NoDup (flat_map oelem_names o) /\ incl (map e_name es) (flat_map oelem_names o)) ->
  Wf s /\ exists c, casadi_structure s = Ok c /\ cs_size c = list_sum (map e_size es) /\
    forall e idx, In e es -> e_struct e = None -> InDims idx (e_dims e) ->
      exists m, cmap_get (KS (e_name e) :: map KI idx) (cs_map c) = Some m /\ dm_sp m = e_sp e.
Proof.
  intros Hi Hnd Hsp Hsub Ho. unfold structure_init in Hi.
  destruct (forallb _ _) eqn:Hf; [|discriminate]. injection Hi as Hi.
  assert (Hw : Wf s).
  { subst s. constructor; auto. destruct order as [o|].
    - destruct (Ho o eq_refl) as [H1 H2]. apply NoDup_Permutation; auto. intros n. split; [|apply H2].
      intros Hin. rewrite forallb_forall in Hf. specialize (Hf n Hin). now apply str_mem_In in Hf.
    - replace (flat_map oelem_names (map OName (map e_name es))) with (map e_name es); [reflexivity|].
      clear. induction es as [|e es IH]; simpl; [reflexivity|]. now rewrite <- IH. }
  split; [exact Hw|]. destruct (build_succeeds s Hw) as (c & Hc). exists c. split; [exact Hc|]. split.
  - rewrite (size_formula s c Hw Hc). subst s. reflexivity.
  - intros e idx He Es Hd.
    assert (Hl : Leaf s (KS (e_name e) :: map KI idx) e) by (apply Leaf_prim; subst s; auto).
    assert (Hin : In (KS (e_name e) :: map KI idx) (leaves s)) by (apply in_leaves; eauto).
    apply in_split in Hin as (l1 & l2 & Hs). rewrite (map_leaf s c l1 _ l2 Hw Hc Hs).
    eexists. split; [reflexivity|]. simpl. now apply leaf_sp_e.
Qed.

(** ** Examples *)

Definition mk (n : string) (dims : list Z) (sp : spy) : entry := mkEntry n dims None sp false None None.
Definition mks (n : string) (dims : list Z) (s : structure) : entry := mkEntry n dims (Some s) (sp_dense 1 1) false None None.

(** struct(["p", entry("q", repeat=2)]) with p a 2-vector *)
Definition ex_sub : structure :=
  mkStruct [mk "p" [] (sp_dense 2 1); mk "q" [2%Z] (sp_dense 1 1)] [OName "p"; OName "q"].
(** entry a (two 2-vectors) and entry b (three copies of the sub-structure) grouped,
    then an upper-triangular 2x2 entry c, and an entry d repeated 2 x 2 times. *)
Definition ex : structure :=
  mkStruct [mk "a" [2%Z] (sp_dense 2 1); mks "b" [3%Z] ex_sub; mk "c" [] (sp_upper 2); mk "d" [2%Z; 2%Z] (sp_dense 1 1)]
           [OGroup ["a"; "b"]; OName "c"; OName "d"].
Definition ex_ungrouped : structure :=
  mkStruct [mk "a" [2%Z] (sp_dense 2 1); mks "b" [3%Z] ex_sub; mk "c" [] (sp_upper 2); mk "d" [2%Z; 2%Z] (sp_dense 1 1)]
           [OName "a"; OName "b"; OName "c"; OName "d"].

(** Decision of [SpOk], for examples. *)
Lemma SpOk_intro sp : 
  (forall i j p q, nth_error (sp_pat sp) i = Some p -> nth_error (sp_pat sp) j = Some q -> i < j -> pos_lt p q) ->
  Forall (fun p => fst p < sp_nr sp /\ snd p < sp_nc sp) (sp_pat sp) -> SpOk sp.
Proof.
  intros H1 H2. split; [|exact H2]. clear H2. revert H1. generalize (sp_pat sp) as l.
  induction l as [|p l IH]; intros H1; constructor.
  - apply IH. intros i j p' q Hi Hj Hij. apply (H1 (S i) (S j)); auto. lia.
  - apply Forall_forall. intros q Hq. apply In_nth_error in Hq as (j & Hj). apply (H1 0 (S j)); auto. lia.
Qed.

Ltac solve_spok := split; [repeat (constructor; try (repeat constructor; fail)); unfold pos_lt; simpl; lia
                          | repeat constructor; simpl; lia].
Ltac solve_spok2 := 
  split; [cbn; repeat (apply SSorted_cons || apply SSorted_nil || apply Forall_cons || apply Forall_nil); unfold pos_lt; cbn; lia
         |cbn; repeat (apply Forall_cons || apply Forall_nil); cbn; lia].

Lemma ex_sub_Wf : Wf ex_sub.
Proof.
  constructor.
  - repeat constructor; simpl; intuition discriminate.
  - reflexivity.
  - intros e [<-|[<-|[]]]; solve_spok2.
  - intros e s' [<-|[<-|[]]] E; discriminate.
Qed.

Lemma ex_Wf : Wf ex.
Proof.
  constructor.
  - repeat constructor; simpl; intuition discriminate.
  - reflexivity.
  - intros e [<-|[<-|[<-|[<-|[]]]]]; solve_spok2.
  - intros e s' [<-|[<-|[<-|[<-|[]]]]] E; try discriminate. injection E as <-. exact ex_sub_Wf.
Qed.

Example ex_Regroup : Regroup ex ex_ungrouped.
Proof.
  constructor; [|reflexivity].
  repeat (apply Forall2_cons || apply Forall2_nil); constructor. apply Regroup_refl.
Qed.

Example ex_Block : Block ex [KS "b"; KI 2%Z] ex_sub /\ exists ci e, Leaf ex_sub ci e.
Proof.
  split.
  - apply (Block_here ex (mks "b" [3%Z] ex_sub) [2%Z] ex_sub); simpl; auto.
    repeat constructor; lia.
  - exists [KS "p"], (mk "p" [] (sp_dense 2 1)). apply (Leaf_prim ex_sub (mk "p" [] (sp_dense 2 1)) []); simpl; auto.
    constructor.
Qed.

Definition sizes (r : res cstruct) := match r with Ok c => Some (cs_size c) | Err _ => None end.
Example ex_size : sizes (casadi_structure ex) = Some 23.
Proof. vm_compute. reflexivity. Qed.

Example ex_traverse : firstn 6 (traverseCanonicalIndex ex) =
  [[KS "a"; KI 0%Z]; [KS "b"; KI 0%Z; KS "p"]; [KS "b"; KI 0%Z; KS "q"; KI 0%Z]; [KS "b"; KI 0%Z; KS "q"; KI 1%Z];
   [KS "a"; KI 1%Z]; [KS "b"; KI 1%Z; KS "p"]].
Proof. vm_compute. reflexivity. Qed.

(** the round-robin hypotheses are met: block 0 of b comes before block 1 of a *)
Example ex_group : precedes (traverseCanonicalIndex ex) [KS "b"; KI 0%Z; KS "p"] [KS "a"; KI 1%Z].
Proof.
  apply (group_order ex ["a"; "b"] 1 0 (mks "b" [3%Z] ex_sub) (mk "a" [2%Z] (sp_dense 2 1)) _ _ 0%Z 1%Z).
  - exact ex_Wf.
  - left; reflexivity.
  - simpl; auto.
  - simpl; auto.
  - reflexivity.
  - reflexivity.
  - vm_compute. auto.
  - vm_compute. auto 10.
  - exists [KS "p"]. reflexivity.
  - exists []. reflexivity.
  - left; lia.
Qed.

Example ex_getCanonicalIndex : exists c, casadi_structure ex = Ok c /\
  getCanonicalIndex c 7 1 = Ok [KS "a"; KI 1%Z; KI 1%Z] /\
  getCanonicalIndex c 17 2 = Ok [KS "c"; KI 1%Z; KI 0%Z] /\
  getCanonicalIndex c 23 1 = Err EException.
Proof. eexists. vm_compute. repeat split; reflexivity. Qed.

Example ex_intersperse : intersperse_opt [[1; 2; 3]; []; [4]; [5; 6]] = Some [1; 4; 5; 2; 6; 3].
Proof. vm_compute. reflexivity. Qed.

(** ** Refutations (C07) *)

Lemma order_loses_entries : exists es order s c e,
  NoDup (map e_name es) /\ structure_init es (Some order) = Ok s /\ casadi_structure s = Ok c /\
  In e es /\ 0 < e_size e /\
  cmap_get [KS (e_name e)] (cs_map c) = None /\ cs_size c < list_sum (map e_size es).
Proof.
  exists [mk "a" [] (sp_dense 1 1); mk "b" [] (sp_dense 1 1)], [OName "a"].
  eexists. eexists. exists (mk "b" [] (sp_dense 1 1)).
  split; [repeat constructor; simpl; intuition discriminate|].
  split; [reflexivity|]. split; [vm_compute; reflexivity|].
  split; [right; left; reflexivity|]. split; [vm_compute; lia|].
  split; [vm_compute; reflexivity|vm_compute; lia].
Qed.

Lemma order_duplicates_entries : exists es order s c,
  NoDup (map e_name es) /\ structure_init es (Some order) = Ok s /\ casadi_structure s = Ok c /\
  list_sum (map e_size es) < cs_size c /\
  exists i, i < cs_size c /\ forall a m, cmap_get a (cs_map c) = Some m -> ~ In i (dm_nz m).
Proof.
  exists [mk "a" [] (sp_dense 1 1)], [OName "a"; OName "a"].
  eexists. eexists.
  split; [repeat constructor; simpl; intuition discriminate|].
  split; [reflexivity|]. split; [vm_compute; reflexivity|]. split; [vm_compute; lia|].
  exists 0. split; [vm_compute; lia|]. intros a m. cbn [cs_map cmap_get].
  destruct (cidx_eqb a _); [|discriminate]. intros [= <-]. simpl. lia.
Qed.

Example order_ok_example : exists s, structure_init [mk "a" [] (sp_dense 1 1); mk "b" [2%Z] (sp_dense 2 1)]
    (Some [OGroup ["b"]; OName "a"]) = Ok s /\ sizes (casadi_structure s) = Some 5.
Proof. eexists. split; [reflexivity|vm_compute; reflexivity]. Qed.
